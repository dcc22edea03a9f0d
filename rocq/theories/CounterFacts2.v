(** Weights of BTTRunner: lemmas. *)
From Coq Require Import List Arith Bool NArith NArith.Ndigits ZArith Lia Permutation.
From Coq Require Import ZifyBool ZifyNat ZifyN.
Import ListNotations.
From Verif Require Import Base BaseFacts GraphModel Spec GraphFacts TorusModel TfheSpec TorusFacts TfheFacts RunnerModel RunnerFacts
  RunnerSpec LookupFacts BlockFacts CounterModel CounterSpec CounterFacts1.
Local Open Scope nat_scope.

(** ** Writing several coefficients *)
Lemma put_fold_length : forall (pos : nat -> nat) (val : nat -> Z) l p,
  length (fold_left (fun p i => put p (pos i) (val i)) l p) = length p.
Proof. intros pos val. induction l as [|i l IH]; intros p; cbn [fold_left]; [reflexivity|]. rewrite IH. apply put_length. Qed.
Lemma put_fold_out : forall (pos : nat -> nat) (val : nat -> Z) j l p, (forall i, In i l -> pos i <> j) ->
  nth j (fold_left (fun p i => put p (pos i) (val i)) l p) 0%Z = nth j p 0%Z.
Proof.
  intros pos val j. induction l as [|i l IH]; intros p H; cbn [fold_left]; [reflexivity|].
  rewrite IH by (intros; apply H; right; auto). apply nth_put_other. apply H. left. auto.
Qed.
Lemma put_fold_in : forall (pos : nat -> nat) (val : nat -> Z) l p i, NoDup l -> (forall a c, pos a = pos c -> a = c) ->
  In i l -> pos i < length p -> eqm (nth (pos i) (fold_left (fun p i => put p (pos i) (val i)) l p) 0%Z) (val i).
Proof.
  intros pos val. induction l as [|a l IH]; intros p i ND INJ HI HL; [destruct HI|]. cbn [fold_left].
  inversion ND as [|? ? NI ND']; subst. destruct HI as [->|HI].
  - rewrite put_fold_out. { rewrite nth_put_same by auto. apply w32_m. }
    intros c Hc E. apply INJ in E. subst. auto.
  - apply IH; auto. rewrite put_length. auto.
Qed.

(** The value of an optional counter list at j, as a number. *)
Definition target_of (b : BTT) (j : nat) : Z := match nth_error (bt_spec b) j with Some (_, v) => Z.of_N v | None => 0%Z end.

Section W.
Context (T : tfhe) (G : gates T) (s0 s1 : list Z) (bit : trgsw T -> bool -> Prop) (E : noise) (GE : gate_noise).
Hypothesis OK : tfhe_ok T s0 s1 bit E.
Hypothesis GOK : gates_ok T G s0 bit GE.
Hypothesis NN : noise_nonneg E.
Notation ph0 := (tlwe_phase (t_n0 T) s0).
Notation phR := (trlwe_phase (t_n1 T) s1).
Notation N1 := (t_n1 T).
Context (b : BTT).
Notation spec := (bt_spec b).
Notation k := (length (bt_spec b)).
Hypothesis HN : 64 < N1 / 2.
Hypothesis HK : N1 / 2 + k <= N1.
Hypothesis HW64 : forall w v, In (w, v) spec -> w <= 64.

Lemma half_le : N1 / 2 <= N1.
Proof. apply Nat.div_le_upper_bound; lia. Qed.

(** The counters of a weight hold the numbers zs, with noise e *)
Definition ctrs (e : Z) (zs : nat -> Z) (W : Weight) : Prop :=
  length (w_counter W) = k /\
  forall j w v, nth_error spec j = Some (w, v) -> exists ct, nth_error (w_counter W) j = Some ct /\ ctr_holds T s1 e w v (zs j) ct.
Definition shaped (W : Weight) : Prop :=
  length (w_counter W) = k /\
  forall j w v, nth_error spec j = Some (w, v) -> exists ct, nth_error (w_counter W) j = Some ct /\
    c_width ct = w /\ c_init ct = v /\ length (c_bits ct) = w.
Lemma ctrs_shaped : forall e zs W, ctrs e zs W -> shaped W.
Proof.
  intros e zs W [L H]. split; [exact L|]. intros j w v Hj. destruct (H j w v Hj) as (ct & Ec & [A B C D]). eauto 6.
Qed.
Lemma ctrs_le : forall e e' zs W, ctrs e zs W -> (e <= e')%Z -> ctrs e' zs W.
Proof.
  intros e e' zs W [L H] LE. split; [exact L|]. intros j w v Hj. destruct (H j w v Hj) as (ct & Ec & HC).
  exists ct. split; [exact Ec|]. eapply ctr_holds_le; eauto.
Qed.

(** A weight: accept bit a, state number t, borrow marks I, counters zs *)
Record w_holds (e : Z) (t : N) (a : bool) (I : nat -> bool) (zs : nat -> Z) (W : Weight) : Prop := mkWH {
  wh_acc : near e (phR (w_general W) 0) (msg_1o8 a);
  wh_idx : forall i, i < 64 -> near e (phR (w_general W) (S i)) (msg_1o8 (N.testbit_nat t i));
  wh_bor : forall j, j < k -> near e (phR (w_general W) (N1 / 2 + j)) (msg_1o8 (I j));
  wh_ctr : ctrs (e_br E + e) zs W }.

Lemma w_holds_le : forall e e' t a I zs W, w_holds e t a I zs W -> (e <= e')%Z -> w_holds e' t a I zs W.
Proof.
  intros e e' t a I zs W [A B C D] L. constructor; intros; try (eapply near_le; [eauto|auto]).
  eapply ctrs_le; [exact D|lia].
Qed.

Lemma init_general_ok : forall nc t, nc <= k -> exists g, initialize_general T nc t = Ok g /\
  eqm (phR g 0) (msg_1o8 false) /\ (forall i, i < 64 -> eqm (phR g (S i)) (msg_1o8 (N.testbit_nat t i))) /\
  (forall j, j < nc -> eqm (phR g (N1 / 2 + j)) (msg_1o8 false)) /\
  (forall j, nc <= j < k -> eqm (phR g (N1 / 2 + j)) 0).
Proof.
  intros nc t Hnc. pose proof (ok_n1 _ _ _ _ _ OK) as Hn. pose proof half_le as Hh. unfold initialize_general.
  destruct (Nat.ltb_spec N1 65); [lia|]. destruct (Nat.ltb_spec N1 (N1 / 2 + nc)); [lia|]. cbv zeta.
  set (p0 := put (repeat 0%Z N1) 0 (- t_1o8)). set (p1 := fold_left _ (seq 0 nc) p0). set (p2 := fold_left _ (seq 0 64) p1).
  assert (L0 : length p0 = N1) by (unfold p0; rewrite put_length, repeat_length; reflexivity).
  assert (L1 : length p1 = N1) by (unfold p1; rewrite put_fold_length; exact L0).
  eexists. split; [reflexivity|]. unfold trivial_TRLWELvl1. split; [|split; [|split]].
  - rewrite trivial_phase by lia. unfold p2. rewrite put_fold_out by (intros; lia). unfold p1.
    rewrite put_fold_out by (intros; lia). unfold p0. rewrite nth_put_same by (rewrite repeat_length; lia). apply w32_m.
  - intros i Hi. rewrite trivial_phase by lia. unfold p2. replace (S i) with (i + 1) by lia.
    rewrite (put_fold_in (fun i => i + 1) (fun i => if N.testbit_nat t i then t_1o8 else (- t_1o8)%Z)).
    + reflexivity.
    + apply seq_NoDup.
    + intros; lia.
    + apply in_seq. lia.
    + lia.
  - intros j Hj. rewrite trivial_phase by lia. unfold p2.
    rewrite put_fold_out by (intros i Hi; apply in_seq in Hi; lia). unfold p1.
    rewrite (put_fold_in (fun i => N1 / 2 + i) (fun _ => (- t_1o8)%Z)).
    + reflexivity.
    + apply seq_NoDup.
    + intros; lia.
    + apply in_seq. lia.
    + lia.
  - intros j Hj. rewrite trivial_phase by lia. unfold p2.
    rewrite put_fold_out by (intros i Hi; apply in_seq in Hi; lia). unfold p1.
    rewrite put_fold_out by (intros i Hi; apply in_seq in Hi; lia). unfold p0.
    rewrite nth_put_other by lia. rewrite nth_repeat0. reflexivity.
Qed.

Lemma weight_from_ok : forall zs t W0, ctrs (e_br E) zs W0 ->
  exists W, weight_from T t W0 = Ok W /\ w_holds 0 t false (fun _ => false) zs W.
Proof.
  intros zs t W0 HC. unfold weight_from. destruct HC as [L HC]. rewrite L.
  destruct (init_general_ok k t (le_n _)) as (g & EG & P1 & P2 & P3 & _). rewrite EG. cbn [bind].
  eexists. split; [reflexivity|]. constructor; cbn [w_general w_counter]; try (intros; apply near_eqm; [lia|auto]).
  rewrite Z.add_0_r. split; auto.
Qed.

(** ** Marks *)
Lemma mark_ok : forall W i, i < N1 -> exists W', mark_general_bit T W i = Ok W' /\ w_counter W' = w_counter W /\
  forall j, j < N1 -> eqm (phR (w_general W') j) (phR (w_general W) j + (if (j =? i)%nat then t_1o4 else 0))%Z.
Proof.
  intros W i Hi. unfold mark_general_bit. destruct (Nat.leb_spec N1 i); [lia|]. eexists. split; [reflexivity|]. split; [reflexivity|].
  intros j Hj. cbn [w_general]. rewrite TRLWE_add_phase by (auto; apply (ok_n1 _ _ _ _ _ OK)).
  unfold trivial_TRLWELvl1. rewrite trivial_phase by lia. destruct (Nat.eqb_spec j i) as [->|NE].
  - rewrite nth_put_same by (rewrite repeat_length; lia). rewrite w32_m. reflexivity.
  - rewrite nth_put_other by lia. rewrite nth_repeat0. reflexivity.
Qed.
Lemma near_mark : forall e x, near e x (msg_1o8 false) -> near e (x + t_1o4) (msg_1o8 true).
Proof.
  intros e x [d [Hd H]]. exists d. split; [auto|]. rewrite H. apply eqm_refl'. unfold msg_1o8, t_1o8, t_1o4. lia.
Qed.
Lemma add_zero_m : forall x, eqm (x + 0) x.
Proof. intros. apply eqm_refl'. lia. Qed.

Lemma mark_accept_ok : forall e t I zs W, w_holds e t false I zs W ->
  exists W', mark_accept T W = Ok W' /\ w_holds e t true I zs W'.
Proof.
  intros e t I zs W [A B C D]. pose proof half_le.
  destruct (mark_ok W 0) as (W' & EW & EC & P); [lia|]. exists W'. split; [exact EW|]. constructor.
  - eapply near_l; [apply P; lia|]. cbn [Nat.eqb]. apply near_mark, A.
  - intros i Hi. eapply near_l; [rewrite P by lia; cbn [Nat.eqb]; apply add_zero_m|]. apply B, Hi.
  - intros j Hj. eapply near_l; [rewrite P by lia|apply C, Hj].
    destruct (Nat.eqb_spec (N1 / 2 + j) 0); [lia|]. apply add_zero_m.
  - destruct D as [L D]. split; rewrite EC; auto.
Qed.
Lemma mark_counter_ok : forall e t a I zs W i, w_holds e t a I zs W -> i < k -> I i = false ->
  exists W', mark_counter T W i = Ok W' /\ w_holds e t a (fun j => (j =? i) || I j) zs W'.
Proof.
  intros e t a I zs W i [A B C D] Hi HI. pose proof half_le.
  destruct (mark_ok W (N1 / 2 + i)) as (W' & EW & EC & P); [lia|]. exists W'. split; [exact EW|]. constructor.
  - eapply near_l; [rewrite P by lia|exact A]. destruct (Nat.eqb_spec 0 (N1 / 2 + i)); [lia|]. apply add_zero_m.
  - intros j Hj. eapply near_l; [rewrite P by lia|apply B, Hj]. destruct (Nat.eqb_spec (S j) (N1 / 2 + i)); [lia|]. apply add_zero_m.
  - intros j Hj. destruct (Nat.eqb_spec j i) as [->|NE].
    + cbn [orb]. eapply near_l; [apply P; lia|]. rewrite Nat.eqb_refl. apply near_mark. rewrite <- HI. apply C, Hi.
    + cbn [orb]. eapply near_l; [rewrite P by lia|apply C, Hj]. destruct (Nat.eqb_spec (N1 / 2 + j) (N1 / 2 + i)); [lia|]. apply add_zero_m.
  - destruct D as [L D]. split; rewrite EC; auto.
Qed.

(** ** Resets *)
Lemma spec_nth : forall j, j < k -> exists w v, nth_error spec j = Some (w, v).
Proof. intros j Hj. destruct (nth_error_some_lt spec j Hj) as [[w v] H]. eauto. Qed.

Lemma reset_counter_ok : forall e t a I zs W i, (0 <= e)%Z -> w_holds e t a I zs W -> i < k ->
  exists W', reset_counter T W i = Ok W' /\ w_holds e t a I (fun j => if j =? i then target_of b j else zs j) W'.
Proof.
  intros e t a I zs W i He [A B C D] Hi. unfold reset_counter. destruct D as [L D].
  destruct (spec_nth i Hi) as (w & v & Es). destruct (D i w v Es) as (ct & Ec & HC). unfold at_. rewrite Ec. cbn [bind].
  destruct (reset_ok T s0 s1 bit E OK ct) as (c' & EC & HC'). { rewrite (ch_width _ _ _ _ _ _ _ HC). eapply HW64, nth_error_In; eauto. }
  rewrite EC. cbn [bind]. rewrite set_at_lt by lia. cbn [bind]. eexists. split; [reflexivity|].
  destruct NN as (A1 & A2 & A3 & A4 & A5 & A6).
  constructor; cbn [w_general w_counter]; auto. split; [cbn [w_counter]; rewrite upd_length; exact L|].
  intros j w' v' Hj. cbn [w_counter]. destruct (Nat.eqb_spec j i) as [->|NE].
  - rewrite upd_eq by lia. eexists. split; [reflexivity|]. rewrite Es in Hj. injection Hj as <- <-.
    rewrite (ch_width _ _ _ _ _ _ _ HC), (ch_init _ _ _ _ _ _ _ HC) in HC'.
    unfold target_of. rewrite Es. eapply ctr_holds_le; [exact HC'|lia].
  - rewrite upd_neq by auto. apply D, Hj.
Qed.

Lemma ctrs_ext : forall e zs zs' W, (forall j, j < k -> zs j = zs' j) -> ctrs e zs W -> ctrs e zs' W.
Proof.
  intros e zs zs' W H [L D]. split; [exact L|]. intros j w v Hj. rewrite <- H by (eapply nth_error_lt; eauto). apply D, Hj.
Qed.
Lemma w_holds_ext : forall e t a I I' zs zs' W, (forall j, j < k -> I j = I' j) -> (forall j, j < k -> zs j = zs' j) ->
  w_holds e t a I zs W -> w_holds e t a I' zs' W.
Proof.
  intros e t a I I' zs zs' W HI HZ [A B C D]. constructor; auto.
  - intros j Hj. rewrite <- HI by auto. auto.
  - eapply ctrs_ext; eauto.
Qed.

Lemma alter_ok : forall e t zs W a reset inc, (0 <= e)%Z -> w_holds e t false (fun _ => false) zs W -> NoDup inc ->
  (forall i, In i reset \/ In i inc -> i < k) ->
  exists W', alter_weight T W a reset inc = Ok W' /\
    w_holds e t a (fun j => smem j inc) (fun j => if smem j reset then target_of b j else zs j) W'.
Proof.
  intros e t zs W a reset inc He H ND HB. unfold alter_weight.
  assert (S1 : exists W1, (if a then mark_accept T W else Ok W) = Ok W1 /\ w_holds e t a (fun _ => false) zs W1).
  { destruct a; [apply mark_accept_ok, H|eauto]. }
  destruct S1 as (W1 & E1 & H1). rewrite E1. cbn [bind].
  assert (S2 : forall l, (forall i, In i l -> i < k) -> forall W1 zs, w_holds e t a (fun _ => false) zs W1 ->
     exists W2, foldM (reset_counter T) l W1 = Ok W2 /\ w_holds e t a (fun _ => false) (fun j => if smem j l then target_of b j else zs j) W2).
  { induction l as [|i l IH]; intros HL V ys HV; [cbn; eauto|]. cbn [foldM].
    destruct (reset_counter_ok e t a _ ys V i He HV) as (V' & EV & HV'); [apply HL; left; auto|]. rewrite EV. cbn [bind].
    destruct (IH (fun i H => HL i (or_intror H)) V' _ HV') as (V2 & E2 & H2). exists V2. split; [exact E2|].
    eapply w_holds_ext; [| |exact H2]; [auto|]. intros j Hj. cbn [smem existsb]. fold (smem j l).
    destruct (smem j l), (Nat.eqb_spec j i); reflexivity. }
  destruct (S2 reset (fun i H => HB i (or_introl H)) W1 zs H1) as (W2 & E2 & H2). rewrite E2. cbn [bind].
  set (ys := fun j => if smem j reset then target_of b j else zs j) in *. clearbody ys.
  assert (S3 : forall l, NoDup l -> (forall i, In i l -> i < k) -> forall I W1, (forall i, In i l -> I i = false) -> w_holds e t a I ys W1 ->
     exists W2, foldM (mark_counter T) l W1 = Ok W2 /\ w_holds e t a (fun j => smem j l || I j) ys W2).
  { induction l as [|i l IH]; intros NDl HL I V HI HV; [cbn; eauto|]. cbn [foldM]. inversion NDl as [|? ? NI ND']; subst.
    destruct (mark_counter_ok e t a I ys V i HV) as (V' & EV & HV'); [apply HL; left; auto|apply HI; left; auto|]. rewrite EV. cbn [bind].
    destruct (IH ND' (fun i H => HL i (or_intror H)) (fun j => (j =? i) || I j) V') as (V2 & EV2 & HV2); auto.
    { intros j Hj. rewrite (HI j) by (right; auto). destruct (Nat.eqb_spec j i); [subst; contradiction|reflexivity]. }
    exists V2. split; [exact EV2|]. eapply w_holds_ext; [| |exact HV2]; [|auto]. intros j Hj. cbn [smem existsb]. fold (smem j l).
    destruct (smem j l), (j =? i), (I j); reflexivity. }
  destruct (S3 inc ND (fun i H => HB i (or_intror H)) (fun _ => false) W2 (fun _ _ => eq_refl) H2) as (W3 & E3 & H3).
  exists W3. split; [exact E3|]. eapply w_holds_ext; [| |exact H3]; auto. intros j _. apply orb_false_r.
Qed.

(** ** CMUX *)
Lemma weight_cmux_ok : forall e t a I zs out sel (x : bool) W1 W0, bit sel x -> shaped out -> shaped W1 -> shaped W0 ->
  w_holds e t a I zs (if x then W1 else W0) ->
  exists W, weight_cmux T out sel W1 W0 = Ok W /\ w_holds (e + e_cmux E) t a I zs W.
Proof.
  intros e t a I zs out sel x W1 W0 Hx [LO SO] [L1 S1] [L0 S0] H. unfold weight_cmux.
  rewrite LO, L1, L0, Nat.eqb_refl. cbn [assert_].
  destruct H as [A B C [LC D]]. pose proof half_le as Hh.
  set (step := fun cs i => do o <- at_ cs i; do a0 <- at_ (w_counter W1) i; do b0 <- at_ (w_counter W0) i;
                      do o' <- counter_cmux T o sel a0 b0; set_at cs i o').
  assert (F : forall n, n <= k -> exists cs, foldM step (seq 0 n) (w_counter out) = Ok cs /\ length cs = k /\
     (forall j, n <= j -> nth_error cs j = nth_error (w_counter out) j) /\
     forall j w v, j < n -> nth_error spec j = Some (w, v) -> exists ct, nth_error cs j = Some ct /\ ctr_holds T s1 (e_br E + e + e_cmux E) w v (zs j) ct).
  { induction n as [|n IH]; intros Hn.
    - exists (w_counter out). cbn [seq foldM]. split; [reflexivity|]. split; [exact LO|]. split; [auto|lia].
    - destruct IH as (cs & EF & LF & Q & P); [lia|]. rewrite seq_S, foldM_app, EF. cbn [bind foldM Nat.add].
      destruct (spec_nth n ltac:(lia)) as (w & v & Es).
      destruct (SO n w v Es) as (co & Eo & O1 & O2 & O3). destruct (S1 n w v Es) as (c1 & E1 & _ & _ & Q3).
      destruct (S0 n w v Es) as (c0 & E0 & _ & _ & R3). destruct (D n w v Es) as (cx & Ex & HX).
      unfold step at 1. unfold at_. rewrite Q, Eo, E1, E0 by lia. cbn [bind].
      destruct (ctr_cmux_ok T s0 s1 bit E OK (e_br E + e) w v (zs n) co sel x c1 c0 Hx O1 O2 O3 Q3 R3) as (c' & EC & HC).
      { destruct x; congruence. }
      rewrite EC. cbn [bind]. rewrite set_at_lt by lia. cbn [bind]. eexists. split; [reflexivity|].
      split; [rewrite upd_length; auto|]. split; [intros j Hj; rewrite upd_neq by lia; apply Q; lia|].
      intros j w' v' Hj Ej. destruct (Nat.eq_dec j n) as [->|NE].
      + rewrite upd_eq by lia. eexists. split; [reflexivity|]. rewrite Es in Ej. injection Ej as <- <-. exact HC.
      + rewrite upd_neq by lia. apply P; auto. lia. }
  destruct (F k (le_n _)) as (cs & EF & LF & _ & P). rewrite EF. cbn [bind]. eexists. split; [reflexivity|].
  assert (CM : forall i m, i < N1 -> near e (phR (w_general (if x then W1 else W0)) i) m ->
     near (e + e_cmux E) (phR (cmux T sel (w_general W1) (w_general W0)) i) m).
  { intros i m Hi Hm. eapply near_le; [eapply near_trans; [apply (ok_cmux _ _ _ _ _ OK sel x _ _ i Hx Hi)|]|].
    - destruct x; exact Hm.
    - lia. }
  constructor; cbn [w_general].
  - apply CM; [lia|exact A].
  - intros i Hi. apply CM; [lia|]. apply B, Hi.
  - intros j Hj. apply CM; [lia|]. apply C, Hj.
  - split; [exact LF|]. intros j w v Hj. cbn [w_counter].
    destruct (P j w v) as (ct & Ec & HC); [eapply nth_error_lt; eauto|auto|]. exists ct. split; [exact Ec|].
    eapply ctr_holds_le; [exact HC|lia].
Qed.
Lemma w_holds_shaped : forall e t a I zs W, w_holds e t a I zs W -> shaped W.
Proof. intros e t a I zs W H. eapply ctrs_shaped, (wh_ctr _ _ _ _ _ _ H). Qed.

(** Any CMUX of shaped weights is shaped *)
Lemma weight_cmux_shaped : forall out sel W1 W0, shaped out -> shaped W1 -> shaped W0 ->
  exists W, weight_cmux T out sel W1 W0 = Ok W /\ shaped W.
Proof.
  intros out sel W1 W0 [LO SO] [L1 S1] [L0 S0]. unfold weight_cmux. rewrite LO, L1, L0, Nat.eqb_refl. cbn [assert_].
  set (step := fun cs i => do o <- at_ cs i; do a0 <- at_ (w_counter W1) i; do b0 <- at_ (w_counter W0) i;
                      do o' <- counter_cmux T o sel a0 b0; set_at cs i o').
  assert (F : forall n, n <= k -> exists cs, foldM step (seq 0 n) (w_counter out) = Ok cs /\ length cs = k /\
     forall j w v, nth_error spec j = Some (w, v) -> exists ct, nth_error cs j = Some ct /\ c_width ct = w /\ c_init ct = v /\ length (c_bits ct) = w).
  { induction n as [|n IH]; intros Hn.
    - exists (w_counter out). cbn [seq foldM]. split; [reflexivity|]. split; [exact LO|]. auto.
    - destruct IH as (cs & EF & LF & P); [lia|]. rewrite seq_S, foldM_app, EF. cbn [bind foldM Nat.add].
      destruct (spec_nth n ltac:(lia)) as (w & v & Es).
      destruct (P n w v Es) as (co & Eo & O1 & O2 & O3). destruct (S1 n w v Es) as (c1 & E1 & _ & _ & Q3).
      destruct (S0 n w v Es) as (c0 & E0 & _ & _ & R3).
      unfold step at 1. unfold at_. rewrite Eo, E1, E0. cbn [bind].
      assert (EC : exists c', counter_cmux T co sel c1 c0 = Ok c' /\ c_width c' = w /\ c_init c' = v /\ length (c_bits c') = w).
      { unfold counter_cmux. rewrite O3, Q3, R3, Nat.eqb_refl. cbn [assert_].
        assert (F : forall m, m <= w -> exists o, foldM (fun o i => do a <- at_ (c_bits c1) i; do b0 <- at_ (c_bits c0) i; set_at o i (cmux T sel a b0)) (seq 0 m) (c_bits co) = Ok o /\ length o = w).
        { induction m as [|m IHm]; intros Hm; [cbn; eauto|]. destruct IHm as (o & EO & LLO); [lia|].
          rewrite seq_S, foldM_app, EO. cbn [bind foldM Nat.add].
          destruct (nth_error_some_lt (c_bits c1) m) as [u Eu]; [lia|]. destruct (nth_error_some_lt (c_bits c0) m) as [u' Eu']; [lia|].
          unfold at_. rewrite Eu, Eu'. cbn [bind]. rewrite set_at_lt by lia. cbn [bind]. eexists. split; [reflexivity|]. rewrite upd_length. auto. }
        destruct (F w (le_n _)) as (o & EO & LLO). rewrite EO. cbn [bind]. eexists. split; [reflexivity|]. cbn. auto. }
      destruct EC as (c' & EC & C1 & C2 & C3). rewrite EC. cbn [bind]. rewrite set_at_lt by lia. cbn [bind].
      eexists. split; [reflexivity|]. split; [rewrite upd_length; auto|].
      intros j w' v' Ej. destruct (Nat.eq_dec j n) as [->|NE].
      + rewrite upd_eq by lia. rewrite Es in Ej. injection Ej as <- <-. eauto 6.
      + rewrite upd_neq by lia. apply P; auto. }
  destruct (F k (le_n _)) as (cs & EF & LF & P). rewrite EF. cbn [bind]. eexists. split; [reflexivity|]. split; auto.
Qed.

(** ** Look-up *)
Lemma wlookup_levels_ok : forall e t a I zs cts bs, Forall2 bit cts bs -> forall table tmp W,
  2 ^ length cts <= length table -> 2 ^ length cts <= 2 * length tmp -> Forall shaped table -> Forall shaped tmp ->
  nth_error table (bits_val bs) = Some W -> w_holds e t a I zs W ->
  exists table' W', wlookup_levels T cts table tmp = Ok table' /\ nth_error table' 0 = Some W' /\
    w_holds (e + Z.of_nat (length cts) * e_cmux E) t a I zs W'.
Proof.
  intros e t a I zs cts bs HF. revert e. induction HF as [|c x cts bs Hc HF IH]; intros e table tmp W L1 L2 F1 F2 EW HW.
  - cbn [wlookup_levels]. cbn [bits_val] in EW. exists table, W. split; [reflexivity|]. split; [exact EW|].
    eapply w_holds_le; [exact HW|cbn; lia].
  - cbn [wlookup_levels]. cbn [length] in *. rewrite Nat.pow_succ_r' in L1, L2.
    set (body := fun j => do o <- at_ tmp j; do a0 <- at_ table (j * 2 + 1); do b0 <- at_ table (j * 2); weight_cmux T o c a0 b0).
    assert (BO : forall j, j < 2 ^ length cts -> exists o u u0, nth_error tmp j = Some o /\ nth_error table (j * 2 + 1) = Some u /\ nth_error table (j * 2) = Some u0 /\
       body j = weight_cmux T o c u u0 /\ shaped o /\ shaped u /\ shaped u0).
    { intros j Hj. destruct (nth_error_some_lt tmp j) as [o Eo]; [lia|]. destruct (nth_error_some_lt table (j * 2 + 1)) as [u Eu]; [lia|].
      destruct (nth_error_some_lt table (j * 2)) as [u0 Eu0]; [lia|]. exists o, u, u0. unfold body, at_. rewrite Eo, Eu, Eu0. cbn [bind].
      rewrite Forall_forall in F1, F2.
      do 4 (split; [reflexivity|]). split; [apply F2; eapply nth_error_In; eauto|]. split; apply F1; eapply nth_error_In; eauto. }
    destruct (par_for_ok body (seq 0 (2 ^ length cts)) tmp (seq_NoDup _ _)) as (tmp' & ET & LT & PT & QT).
    { intros q Hq. apply in_seq in Hq. lia. }
    { intros q Hq. apply in_seq in Hq. destruct (BO q) as (o & u & u0 & _ & _ & _ & -> & So & Su & Su0); [lia|].
      destruct (weight_cmux_shaped o c u u0 So Su Su0) as (V & EV & _). eauto. }
    rewrite ET. cbn [bind].
    pose proof (bits_val_lt bs) as LV. rewrite <- (Forall2_len _ _ _ HF) in LV.
    destruct (BO (bits_val bs) LV) as (o & u & u0 & Eo & Eu & Eu0 & EB & So & Su & Su0).
    destruct (weight_cmux_ok e t a I zs o c x u u0 Hc So Su Su0) as (V & EV & HV).
    { cbn [bits_val] in EW. destruct x; cbn [Nat.b2n] in EW.
      - replace (1 + 2 * bits_val bs) with (bits_val bs * 2 + 1) in EW by lia. congruence.
      - replace (0 + 2 * bits_val bs) with (bits_val bs * 2) in EW by lia. congruence. }
    destruct (PT (bits_val bs)) as (V' & EV' & HV'); [apply in_seq; lia|]. rewrite EB, EV in EV'. injection EV' as <-.
    destruct (IH (e + e_cmux E)%Z tmp' table V) as (table' & W' & EL & EW' & HW'); auto.
    + lia.
    + lia.
    + apply Forall_forall. intros Y HY. apply In_nth_error in HY as [j Hj].
      destruct (in_dec Nat.eq_dec j (seq 0 (2 ^ length cts))) as [IN|NI].
      * destruct (PT j IN) as (Y' & EY & HY'). rewrite HY' in Hj. injection Hj as <-. apply in_seq in IN.
        destruct (BO j) as (o' & v & v0 & _ & _ & _ & EB' & So' & Sv & Sv0); [lia|]. rewrite EB' in EY.
        destruct (weight_cmux_shaped o' c v v0 So' Sv Sv0) as (Z & EZ & SZ). rewrite EZ in EY. injection EY as <-. exact SZ.
      * rewrite QT in Hj by auto. rewrite Forall_forall in F2. apply F2. eapply nth_error_In; eauto.
    + exists table', W'. split; [exact EL|]. split; [exact EW'|]. eapply w_holds_le; [exact HW'|]. lia.
Qed.
Lemma wlookup_ok : forall e t a I zs cts bs table W, Forall2 bit cts bs -> length cts < 31 ->
  length table = 2 ^ length cts -> Forall shaped table ->
  nth_error table (bits_val bs) = Some W -> w_holds e t a I zs W ->
  exists table' W', wlookup_table T table cts = Ok table' /\ nth_error table' 0 = Some W' /\
    w_holds (e + Z.of_nat (length cts) * e_cmux E) t a I zs W'.
Proof.
  intros e t a I zs cts bs table W HF L31 LT FS EW HW. unfold wlookup_table. cbv zeta.
  destruct (Nat.leb_spec 31 (length cts)); [lia|]. rewrite LT, Nat.eqb_refl. cbn [assert_].
  destruct (Nat.eqb_spec (length cts) 0) as [Z0|Z0].
  - destruct cts; [|discriminate]. inversion HF; subst. exists table, W. split; [reflexivity|]. split; [exact EW|].
    eapply w_holds_le; [exact HW|cbn; lia].
  - pose proof (pow2_pos (length cts)) as PP. destruct (nth_error_some_lt table 0) as [d Ed]; [lia|].
    unfold at_. rewrite Ed. cbn [bind].
    assert (P2 : 2 ^ length cts = 2 * 2 ^ (length cts - 1)).
    { rewrite <- Nat.pow_succ_r'. f_equal. lia. }
    eapply wlookup_levels_ok; eauto.
    + lia.
    + rewrite repeat_length. lia.
    + apply Forall_forall. intros y Hy. apply repeat_spec in Hy. subst y. rewrite Forall_forall in FS. apply FS. eapply nth_error_In; eauto.
Qed.

(** ** Subtracting the borrows *)
Lemma update_counters_ok : forall e t a I zs W m, w_holds e t a I zs W ->
  (e_br E + e + e_iks E <= m)%Z -> (g_out GE <= m)%Z -> (m <= g_tol GE)%Z -> (4 * m + e_round E < t_1o4)%Z ->
  exists W', update_counters T G W = Ok W' /\ w_general W' = w_general W /\
    ctrs (e_br E) (fun j => zs j - Z.b2z (I j))%Z W'.
Proof.
  intros e t a I zs W m [A B C [L D]] M1 M2 M3 M4. destruct NN as (A1 & A2 & A3 & A4 & A5 & A6). pose proof half_le as Hh.
  unfold update_counters. rewrite L.
  set (body := fun i => do borrow_l1 <- get_general_bit T W (N1 / 2 + i); do c <- at_ (w_counter W) i; counter_minus_one T G c (iks T borrow_l1)).
  assert (BO : forall j w v, nth_error spec j = Some (w, v) -> exists c', body j = Ok c' /\ ctr_holds T s1 (e_br E) w v (zs j - Z.b2z (I j)) c').
  { intros j w v Ej. assert (Lj : j < k) by (eapply nth_error_lt; eauto). unfold body, get_general_bit.
    destruct (Nat.leb_spec N1 (N1 / 2 + j)); [lia|]. cbn [bind]. destruct (D j w v Ej) as (ct & Ec & HC).
    unfold at_. rewrite Ec. cbn [bind].
    eapply (minus_one_ok T G s0 s1 bit E GE OK GOK NN ct (e_br E + e) (e_iks E + e) w v (zs j) _ (I j) m HC); try lia.
    eapply near_trans; [apply (ok_iks _ _ _ _ _ OK)|]. eapply near_l; [apply (ok_sei _ _ _ _ _ OK); lia|]. apply C, Lj. }
  destruct (par_for_ok body (seq 0 k) (w_counter W) (seq_NoDup _ _)) as (o & EO & LO & PO & _).
  { intros q Hq. apply in_seq in Hq. lia. }
  { intros q Hq. apply in_seq in Hq. destruct (spec_nth q) as (w & v & Es); [lia|]. destruct (BO q w v Es) as (c' & -> & _). eauto. }
  rewrite EO. cbn [bind]. eexists. split; [reflexivity|]. split; [reflexivity|]. split; [cbn; lia|].
  intros j w v Ej. cbn [w_counter]. destruct (BO j w v Ej) as (c' & EB & HC).
  destruct (PO j) as (u & Eu & Hu); [apply in_seq; apply nth_error_lt in Ej; lia|]. rewrite EB in Eu. injection Eu as <-. eauto.
Qed.

(** ** Conditions and selectors *)
Lemma fill_trgsw_ok : forall n (body : nat -> res (trgsw T)) (bs : nat -> bool),
  (forall i, i < n -> exists c, body i = Ok c /\ bit c (bs i)) ->
  exists v, fill_trgsw T n body = Ok v /\ Forall2 bit v (map bs (seq 0 n)).
Proof.
  intros n body bs H. unfold fill_trgsw.
  set (body' := fun i => do c <- body i; Ok (Some c)).
  destruct (par_for_ok body' (seq 0 n) (repeat None n) (seq_NoDup _ _)) as (o & EO & LO & PO & _).
  { intros q Hq. apply in_seq in Hq. rewrite repeat_length. lia. }
  { intros q Hq. apply in_seq in Hq. unfold body'. destruct (H q) as (c & -> & _); [lia|]. cbn. eauto. }
  rewrite EO. cbn [bind]. rewrite repeat_length in LO.
  assert (P : forall i, i < n -> exists c, nth_error o i = Some (Some c) /\ bit c (bs i)).
  { intros i Hi. destruct (H i Hi) as (c & Ec & Hc). destruct (PO i) as (u & Eu & Hu); [apply in_seq; lia|].
    unfold body' in Eu. rewrite Ec in Eu. cbn in Eu. injection Eu as <-. eauto. }
  clear - LO P.
  assert (G : forall o a, length o = n - a -> a <= n -> (forall i, i < n - a -> exists c, nth_error o i = Some (Some c) /\ bit c (bs (a + i))) ->
    exists v, mapM (fun c => match c with Some c => Ok c | None => Fail FUndefined end) o = Ok v /\ Forall2 bit v (map bs (seq a (n - a)))).
  { induction o0 as [|x o' IH]; intros a La Ha Pa.
    - cbn in La. rewrite <- La. cbn. eauto.
    - cbn [length] in La. destruct (Pa 0) as (c & Ec & Hc); [lia|]. cbn in Ec. injection Ec as ->. cbn [mapM bind].
      destruct (IH (S a)) as (v & EV & FV); [lia|lia| |].
      + intros i Hi. destruct (Pa (S i)) as (c' & Ec' & Hc'); [lia|]. exists c'. split; [exact Ec'|]. replace (S a + i) with (a + S i) by lia. exact Hc'.
      + rewrite EV. cbn [bind]. eexists. split; [reflexivity|]. replace (n - a) with (S (n - S a)) by lia. cbn [seq map].
        constructor; [|exact FV]. rewrite Nat.add_0_r in Hc. exact Hc. }
  destruct (G o 0) as (v & EV & FV); [lia|lia| |].
  - intros i Hi. apply P. lia.
  - exists v. rewrite Nat.sub_0_r in FV. auto.
Qed.

Lemma conditions_ok : forall order zs W e, counter_margin E GE e -> ctrs (e_br E) zs W ->
  (forall j w v, nth_error spec j = Some (w, v) -> valid_order w (order j)) ->
  exists cts, get_counter_condition T G order W = Ok cts /\
    Forall2 bit cts (map (fun j => match nth_error spec j with Some (w, _) => (zs j mod 2 ^ Z.of_nat w =? 0)%Z | None => false end) (seq 0 k)).
Proof.
  intros order zs W e (M1 & M2 & M3 & M4 & M5 & M6) [L D] HO. destruct NN as (A1 & A2 & A3 & A4 & A5 & A6).
  unfold get_counter_condition. rewrite L. apply fill_trgsw_ok. intros j Hj.
  destruct (spec_nth j Hj) as (w & v & Es). rewrite Es. destruct (D j w v Es) as (ct & Ec & HC). unfold at_. rewrite Ec. cbn [bind].
  destruct (is_zero_ok T G s0 s1 bit E GE OK GOK NN ct (e_br E) w v (zs j) (order j) HC (HO j w v Es)) as (x & Ex & Hx); try lia.
  rewrite Ex. cbn [bind]. eauto.
Qed.

Lemma selectors_ok : forall e t W width, (forall i, i < 64 -> near e (phR (w_general W) (S i)) (msg_1o8 (N.testbit_nat t i))) ->
  width <= 64 -> (0 <= g_cb GE)%Z -> (e + e_iks E + g_cb GE < t_1o8)%Z ->
  exists cts, get_selectors T G width W = Ok cts /\ Forall2 bit cts (map (N.testbit_nat t) (seq 0 width)).
Proof.
  intros e t W width B HW64' HC HM. pose proof half_le. unfold get_selectors. destruct (Nat.leb_spec N1 width); [lia|].
  apply fill_trgsw_ok. intros i Hi. eexists. split; [reflexivity|].
  assert (P : near (e_iks E + e) (ph0 (iks T (sei T (w_general W) (i + 1)))) (msg_1o8 (N.testbit_nat t i))).
  { eapply near_trans; [apply (ok_iks _ _ _ _ _ OK)|]. replace (i + 1) with (S i) by lia.
    eapply near_l; [apply (ok_sei _ _ _ _ _ OK); lia|]. apply B. lia. }
  pose proof (near_nonneg _ _ _ P).
  destruct (N.testbit_nat t i); cbn [msg_1o8] in P.
  - apply (ok_cb01_pos _ _ _ _ _ GOK). eapply near_positive; [exact P| | |exact HC]; unfold t_1o8, t_1o2 in *; lia.
  - apply (ok_cb01_neg _ _ _ _ _ GOK). eapply near_negative; [exact P| | |exact HC]; unfold t_1o8, t_1o2 in *; lia.
Qed.

Lemma weight_new_ok : exists W, weight_new T 0 spec = Ok W /\ near 0 (phR (w_general W) 0) (msg_1o8 false) /\
  (forall i, i < 64 -> near 0 (phR (w_general W) (S i)) (msg_1o8 (N.testbit_nat 0 i))) /\
  (forall j, j < k -> eqm (phR (w_general W) (N1 / 2 + j)) 0) /\
  ctrs (e_br E) (target_of b) W.
Proof.
  destruct NN as (A1 & A2 & A3 & A4 & A5 & A6).
  unfold weight_new. destruct (init_general_ok 0 0%N ltac:(lia)) as (g & EG & P1 & P2 & _ & P3). rewrite EG. cbn [bind].
  assert (F : forall l, (forall w v, In (w, v) l -> w <= 64) -> exists cs, mapM (fun '(w, v) => counter_new T w v) l = Ok cs /\
     Forall2 (fun wv c => ctr_holds T s1 0 (fst wv) (snd wv) (Z.of_N (snd wv)) c) l cs).
  { induction l as [|[w v] l IH]; intros H; [cbn; eauto|]. destruct IH as (cs & EC & FC); [intros; eapply H; right; eauto|].
    cbn [mapM]. unfold counter_new at 1. destruct (reset_ok T s0 s1 bit E OK (mkCounter [] w v)) as (c & Ec & Hc); [cbn; eapply H; left; eauto|].
    rewrite Ec. cbn [bind]. rewrite EC. cbn [bind]. eexists. split; [reflexivity|]. constructor; auto. }
  destruct (F spec HW64) as (cs & EC & FC). rewrite EC. cbn [bind]. eexists. split; [reflexivity|]. cbn [w_general w_counter].
  split; [apply near_eqm; [lia|auto]|]. split; [intros i Hi; apply near_eqm; [lia|auto]|]. split; [intros j Hj; apply P3; lia|].
  split; [symmetry; apply (Forall2_len _ _ _ FC)|].
  intros j w v Hj. cbn [w_counter]. assert (Lj : j < length cs) by (rewrite <- (Forall2_len _ _ _ FC); eapply nth_error_lt; eauto).
  destruct (nth_error_some_lt cs j Lj) as [c Ec]. exists c. split; [exact Ec|].
  assert (Hc := BlockFacts.Forall2_nth _ _ _ FC j _ _ Hj Ec). cbn [fst snd] in Hc. unfold target_of. rewrite Hj.
  eapply ctr_holds_le; [exact Hc|lia].
Qed.
End W.
