(** Weights with any number of marks: lemmas. *)
From Coq Require Import List Arith Bool NArith NArith.Ndigits ZArith Lia Permutation.
From Coq Require Import ZifyBool ZifyNat ZifyN.
Import ListNotations.
From Verif Require Import Base BaseFacts GraphModel Spec GraphFacts TorusModel TfheSpec TorusFacts TfheFacts RunnerModel RunnerFacts
  RunnerSpec LookupFacts BlockFacts CounterModel CounterSpec CounterFacts1 CounterFacts2 MachineSpec.
Local Open Scope nat_scope.

(** ** The phase of a bit with m marks *)
Definition mk (m : nat) : Z := (- t_1o8 + Z.of_nat m * t_1o4)%Z.
Lemma mk_0 : mk 0 = msg_1o8 false.
Proof. reflexivity. Qed.
Lemma mk_S : forall m, mk (S m) = (mk m + t_1o4)%Z.
Proof. intros m. unfold mk. lia. Qed.
Lemma mod4 : forall m, exists r d, r < 4 /\ m mod 4 = r /\ m = r + 4 * d.
Proof.
  intros m. exists (m mod 4), (m / 4). pose proof (Nat.mod_upper_bound m 4 ltac:(lia)). pose proof (Nat.div_mod m 4 ltac:(lia)).
  split; [lia|]. split; [reflexivity|lia].
Qed.
Lemma mk_mod : forall r d, eqm (mk (r + 4 * d)) (mk r).
Proof. intros r d. apply eqm_iff. exists (Z.of_nat d). unfold mk, t_1o4, two32. lia. Qed.
Lemma near_mk : forall e x m r d, near e x (mk m) -> m = r + 4 * d -> near e x (mk r).
Proof. intros e x m r d H ->. eapply near_r; [exact H|]. symmetry. apply mk_mod. Qed.

Lemma sym_bit_mk : forall e x m, near e x (mk m) -> (e < t_1o8)%Z -> sym_bit x = marked m.
Proof.
  intros e x m H L. destruct (mod4 m) as (r & d & Hr & EM & ED). apply (near_mk _ _ _ r d) in H; [|exact ED].
  unfold marked. rewrite EM. destruct H as [f [Hf H]]. apply eqm_mod in H. unfold sym_bit, w32. rewrite H. clear H.
  destruct r as [|[|[|[|r]]]]; [| | | |lia]; cbn [Nat.eqb orb]; unfold mk, t_1o8, t_1o4, t_1o2, two32 in *; clear EM ED.
  - rewrite <- (Z.mod_add _ 1), Z.mod_small by lia. lia.
  - rewrite Z.mod_small by lia. lia.
  - rewrite Z.mod_small by lia. lia.
  - rewrite Z.mod_small by lia. lia.
Qed.

(** ** The lowest bit of a subtraction *)
Definition carry (m : nat) (a : bool) : bool :=
  match m mod 4 with 0 => false | 1 => negb a | 2 => true | _ => a end.
Lemma borrowed_split : forall m z,
  (z - borrowed m z = 2 * (Z.div2 z - Z.b2z (carry m (Z.odd z))) + Z.b2z (xorb (Z.odd z) (Nat.odd m)))%Z.
Proof.
  intros m z. destruct (mod4 m) as (r & d & Hr & EM & ED). unfold borrowed, carry. rewrite EM.
  assert (OD : Nat.odd m = Nat.odd r).
  { rewrite ED. rewrite Nat.odd_add, Nat.odd_mul. change (Nat.odd 4) with false. cbn [andb]. apply xorb_false_r. }
  rewrite OD. pose proof (Z.div2_odd z) as HZ.
  destruct r as [|[|[|[|r]]]]; [| | | |lia]; destruct (Z.odd z); cbn [xorb Nat.odd Nat.even negb Z.b2z] in *; lia.
Qed.
Lemma bit_split : forall y x i, Z.testbit (2 * y + Z.b2z x) (Z.of_nat i) = match i with O => x | S i => Z.testbit y (Z.of_nat i) end.
Proof.
  intros y x [|i].
  - cbn [Z.of_nat]. apply Z.testbit_0_r.
  - rewrite Nat2Z.inj_succ. apply Z.testbit_succ_r. lia.
Qed.

Lemma eqm_sym : forall x y, eqm x y -> eqm y x.
Proof. intros x y H. symmetry. exact H. Qed.

Section M.
Context (T : tfhe) (G : gates T) (s0 s1 : list Z) (bit : trgsw T -> bool -> Prop) (E : noise) (GE : gate_noise) (ra : Z).
Hypothesis OK : tfhe_ok T s0 s1 bit E.
Hypothesis GOK : gates_ok T G s0 bit GE.
Hypothesis AS : andny_sign T G s0 GE ra.
Hypothesis RA : (0 <= ra)%Z.
Hypothesis NN : noise_nonneg E.
Notation ph0 := (tlwe_phase (t_n0 T) s0).
Notation phR := (trlwe_phase (t_n1 T) s1).
Notation N1 := (t_n1 T).

Lemma xor_marks : forall x y e a m, (0 <= e_round E)%Z ->
  near e (ph0 x) (msg_1o8 a) -> near e (ph0 y) (mk m) -> (4 * e + e_round E < t_1o4)%Z ->
  near (e_br E) (phR (HomXORwoSE T x y) 0) (msg_1o8 (xorb a (Nat.odd m))).
Proof.
  intros x y e a m HE Hx Hy L. destruct (mod4 m) as (r & d & Hr & _ & ED). apply (near_mk _ _ _ r d) in Hy; [|exact ED].
  assert (OD : Nat.odd m = Nat.odd r).
  { rewrite ED. rewrite Nat.odd_add, Nat.odd_mul. change (Nat.odd 4) with false. cbn [andb]. apply xorb_false_r. }
  rewrite OD. unfold HomXORwoSE. cbv zeta.
  match goal with |- context [blind_rotate T ?t _] => set (u := t) end.
  assert (HU : near (4 * e) (ph0 u) (2 * msg_1o8 a + 2 * mk r + t_1o4)).
  { destruct Hx as [f [Hf Hx]], Hy as [f' [Hf' Hy]]. exists (2 * f + 2 * f')%Z. split; [lia|].
    unfold u. rewrite put_b_phase by (unfold mk_poly; rewrite map_length, seq_length; reflexivity).
    rewrite cf_m.
    assert (eqm (ph0 (mk_poly (S (t_n0 T)) (fun i => w32 (2 * cf x i + 2 * cf y i)))) (2 * ph0 x + 2 * ph0 y)) as HS.
    { unfold tlwe_phase. rewrite nth_mk_poly by lia. rewrite w32_m, !cf_m.
      rewrite sum_m with (g := fun j => (2 * (nth j x 0 * nth j s0 0) + 2 * (nth j y 0 * nth j s0 0))%Z).
      - rewrite <- sum_add, <- !sum_scale. apply eqm_refl'. lia.
      - intros j Hj. rewrite nth_mk_poly, w32_m, !cf_m by lia. apply eqm_refl'. lia. }
    rewrite HS, Hx, Hy. apply eqm_refl'. unfold t_1o4, t_1o8. lia. }
  assert (POS : forall c : bool, eqm (2 * msg_1o8 a + 2 * mk r + t_1o4) (if c then t_1o4 else - t_1o4)%Z ->
     near (e_br E) (phR (blind_rotate T u (mupolygen T t_1o8)) 0) (msg_1o8 c)).
  { intros c Hc. pose proof (near_r _ _ _ _ HU (eqm_sym _ _ Hc)) as HV. unfold mupolygen. destruct c.
    - apply (ok_br_pos _ _ _ _ _ OK). apply (near_positive _ _ _ _ HV); unfold t_1o2, t_1o4 in *; lia.
    - apply (ok_br_neg _ _ _ _ _ OK). apply (near_negative _ _ _ _ HV); unfold t_1o2, t_1o4 in *; lia. }
  apply POS. clear POS HU Hy ED.
  destruct r as [|[|[|[|r]]]]; [| | | |lia]; destruct a; cbn [xorb Nat.odd Nat.even negb]; apply eqm_iff.
  - exists 0%Z. reflexivity.
  - exists 0%Z. reflexivity.
  - exists 1%Z. reflexivity.
  - exists 0%Z. reflexivity.
  - exists 1%Z. reflexivity.
  - exists 1%Z. reflexivity.
  - exists 2%Z. reflexivity.
  - exists 1%Z. reflexivity.
Qed.

Lemma andny_marks : forall x y e a m, near e (ph0 x) (msg_1o8 a) -> near e (ph0 y) (mk m) -> (2 * e + ra < t_1o8)%Z ->
  near (g_out GE) (ph0 (hom_andny T G x y)) (msg_1o8 (carry m a)).
Proof.
  intros x y e a m Hx Hy L. destruct (mod4 m) as (r & d & Hr & EM & ED). apply (near_mk _ _ _ r d) in Hy; [|exact ED].
  unfold carry. rewrite EM. destruct (AS x y) as [AP AN].
  assert (HU : near (2 * e) (ph0 y - ph0 x - t_1o8) (mk r - msg_1o8 a - t_1o8)).
  { destruct Hx as [f [Hf Hx]], Hy as [f' [Hf' Hy]]. exists (f' - f)%Z. split; [lia|]. rewrite Hx, Hy. apply eqm_refl'. lia. }
  assert (SGN : forall (c : bool) (v : Z), eqm (mk r - msg_1o8 a - t_1o8) v -> (if c then v = t_1o8 \/ v = 3 * t_1o8 else v = - t_1o8 \/ v = - 3 * t_1o8)%Z ->
     near (g_out GE) (ph0 (hom_andny T G x y)) (msg_1o8 c)).
  { intros c v Hv HC. pose proof (near_r _ _ _ _ HU (eqm_sym _ _ Hv)) as HV. destruct c.
    - apply AP. destruct HC as [-> | ->]; apply (near_positive _ _ _ _ HV); unfold t_1o2, t_1o8 in *; lia.
    - apply AN. destruct HC as [-> | ->]; apply (near_negative _ _ _ _ HV); unfold t_1o2, t_1o8 in *; lia. }
  clear HU Hy ED EM.
  destruct r as [|[|[|[|r]]]]; [| | | |lia]; destruct a; cbn [negb].
  - apply (SGN _ (- 3 * t_1o8)%Z); [reflexivity|auto].
  - apply (SGN _ (- t_1o8)%Z); [reflexivity|auto].
  - apply (SGN _ (- t_1o8)%Z); [reflexivity|auto].
  - apply (SGN _ t_1o8); [reflexivity|auto].
  - apply (SGN _ t_1o8); [reflexivity|auto].
  - apply (SGN _ (3 * t_1o8)%Z); [reflexivity|auto].
  - apply (SGN _ (3 * t_1o8)%Z); [reflexivity|auto].
  - apply (SGN _ (- 3 * t_1o8)%Z); [apply eqm_iff; exists 1%Z; reflexivity|auto].
Qed.

Lemma minus_marks_ok : forall c e f w v z borrow mm m, ctr_holds T s1 e w v z c -> near f (ph0 borrow) (mk mm) ->
  (e + e_iks E <= m)%Z -> (f <= m)%Z -> (g_out GE <= m)%Z -> (m <= g_tol GE)%Z -> (4 * m + e_round E < t_1o4)%Z -> (2 * m + ra < t_1o8)%Z ->
  exists c', counter_minus_one T G c borrow = Ok c' /\ ctr_holds T s1 (e_br E) w v (z - borrowed mm z) c'.
Proof.
  intros c e f w v z borrow mm m H HB M1 M2 M3 M4 M5 M6. destruct NN as (A1 & A2 & A3 & A4 & A5 & A6).
  unfold counter_minus_one. rewrite (ch_width _ _ _ _ _ _ _ H).
  set (step := fun '(memo, borrow) i => do ci <- at_ (c_bits c) i; Ok (memo ++ [bit_l0 T ci; borrow], hom_andny T G (bit_l0 T ci) borrow)).
  set (z2 := Z.div2 z). set (c1 := carry mm (Z.odd z)).
  set (bv := fun i => match i with O => mk mm | S i => msg_1o8 (borrow_at z2 c1 i) end).
  assert (TB : forall i, Z.testbit z (Z.of_nat (S i)) = Z.testbit z2 (Z.of_nat i)).
  { intros i. unfold z2. rewrite Z.div2_spec, Z.shiftr_spec by lia. f_equal. lia. }
  assert (L : forall n, n <= w -> exists memo bo, foldM step (seq 0 n) ([], borrow) = Ok (memo, bo) /\ length memo = 2 * n /\
    near m (ph0 bo) (bv n) /\
    forall i, i < n -> exists x y, nth_error memo (i * 2) = Some x /\ nth_error memo (i * 2 + 1) = Some y /\
      near m (ph0 x) (msg_1o8 (Z.testbit z (Z.of_nat i))) /\ near m (ph0 y) (bv i)).
  { induction n as [|n IH]; intros Hn.
    - exists [], borrow. cbn [seq foldM]. split; [reflexivity|]. split; [reflexivity|]. split; [eapply near_le; eauto|]. lia.
    - destruct IH as (memo & bo & EF & LM & NB & P); [lia|]. rewrite seq_S, foldM_app, EF. cbn [bind foldM Nat.add].
      unfold step at 1. destruct (nth_error_some_lt (c_bits c) n) as [ci Ei]; [rewrite (ch_len _ _ _ _ _ _ _ H); lia|].
      unfold at_. rewrite Ei. cbn [bind].
      assert (NC : near m (ph0 (bit_l0 T ci)) (msg_1o8 (Z.testbit z (Z.of_nat n)))).
      { eapply near_le; [eapply bit_l0_ok; [exact OK|apply (ch_bits _ _ _ _ _ _ _ H _ _ Ei)]|lia]. }
      do 2 eexists. split; [reflexivity|]. split; [rewrite app_length, LM; cbn [length]; lia|]. split.
      + destruct n as [|n].
        * cbn [bv borrow_at]. unfold c1. rewrite <- Z.bit0_odd. eapply near_le; [eapply andny_marks; eauto|lia].
        * cbn [bv]. cbn [bv] in NB. rewrite TB in NC. cbn [borrow_at].
          eapply near_le; [apply (ok_andny _ _ _ _ _ GOK); eapply near_le; eauto|lia].
      + intros i Hi. destruct (Nat.eq_dec i n) as [->|NE].
        * exists (bit_l0 T ci), bo. rewrite !nth_error_app2 by lia. rewrite LM.
          replace (n * 2 - 2 * n) with 0 by lia. replace (n * 2 + 1 - 2 * n) with 1 by lia. cbn [nth_error]. auto.
        * destruct (P i) as (x & y & Ex & Ey & Q); [lia|]. exists x, y. rewrite !nth_error_app1 by lia. auto. }
  destruct (L w (le_n _)) as (memo & bo & EF & LM & _ & P). rewrite EF. cbn [bind].
  set (body := fun i => do a <- at_ memo (i * 2); do b0 <- at_ memo (i * 2 + 1); Ok (HomXORwoSE T a b0)).
  assert (BO : forall i, i < w -> exists x y, body i = Ok (HomXORwoSE T x y) /\ near m (ph0 x) (msg_1o8 (Z.testbit z (Z.of_nat i))) /\ near m (ph0 y) (bv i)).
  { intros i Hi. destruct (P i Hi) as (x & y & Ex & Ey & Q1 & Q2). exists x, y. unfold body, at_. rewrite Ex, Ey. cbn [bind]. auto. }
  destruct (par_for_ok body (seq 0 w) (c_bits c) (seq_NoDup _ _)) as (o & EO & LO & PO & _).
  { intros q Hq. apply in_seq in Hq. rewrite (ch_len _ _ _ _ _ _ _ H). lia. }
  { intros q Hq. apply in_seq in Hq. destruct (BO q) as (x & y & -> & _); [lia|]. eauto. }
  rewrite EO. cbn [bind]. eexists. split; [reflexivity|]. rewrite (ch_len _ _ _ _ _ _ _ H) in LO.
  constructor; cbn [c_width c_init c_bits]; auto; [apply (ch_init _ _ _ _ _ _ _ H)|].
  intros i ci Hi. assert (Li : i < w) by (rewrite <- LO; eapply nth_error_lt; eauto).
  destruct (BO i Li) as (x & y & EB & Q1 & Q2). destruct (PO i) as (u & Eu & Hu); [apply in_seq; lia|].
  rewrite EB in Eu. injection Eu as <-. rewrite Hu in Hi. injection Hi as <-.
  rewrite borrowed_split, bit_split. fold z2 c1. destruct i as [|i].
  - cbn [bv] in Q2. change (Z.of_nat 0) with 0%Z in Q1. rewrite Z.bit0_odd in Q1. eapply xor_marks; eauto.
  - cbn [bv] in Q2. rewrite TB in Q1. rewrite sub_bit. eapply hom_xor_ok; eauto.
Qed.

Lemma ctr_holds_mod : forall e w v z z' c, ctr_holds T s1 e w v z c -> (z mod 2 ^ Z.of_nat w = z' mod 2 ^ Z.of_nat w)%Z -> ctr_holds T s1 e w v z' c.
Proof.
  intros e w v z z' c [A B C D] EM. constructor; auto. intros i ci Hi.
  assert (Li : i < w) by (rewrite <- C; eapply nth_error_lt; eauto).
  rewrite <- (Z.mod_pow2_bits_low z' (Z.of_nat w)), <- EM, Z.mod_pow2_bits_low by lia. apply D, Hi.
Qed.

Context (b : BTT).
Notation spec := (bt_spec b).
Notation k := (length (bt_spec b)).
Hypothesis HN : 64 < N1 / 2.
Hypothesis HK : N1 / 2 + k <= N1.
Hypothesis HW64 : forall w v, In (w, v) spec -> w <= 64.

(** A weight: a accepting marks, state number t, I j marks for counter j, counters zs *)
Record m_holds (e : Z) (t : N) (a : nat) (I : nat -> nat) (zs : nat -> Z) (W : Weight) : Prop := mkMH {
  mh_acc : near e (phR (w_general W) 0) (mk a);
  mh_idx : forall i, i < 64 -> near e (phR (w_general W) (S i)) (msg_1o8 (N.testbit_nat t i));
  mh_bor : forall j, j < k -> near e (phR (w_general W) (N1 / 2 + j)) (mk (I j));
  mh_ctr : ctrs T s1 b (e_br E + e) zs W }.

Lemma m_holds_le : forall e e' t a I zs W, m_holds e t a I zs W -> (e <= e')%Z -> m_holds e' t a I zs W.
Proof.
  intros e e' t a I zs W [A B C D] L. constructor; intros; try (eapply near_le; [eauto|auto]).
  eapply ctrs_le; [exact D|lia].
Qed.
Lemma m_holds_shaped : forall e t a I zs W, m_holds e t a I zs W -> shaped b W.
Proof. intros e t a I zs W H. eapply ctrs_shaped, (mh_ctr _ _ _ _ _ _ H). Qed.
Lemma m_holds_ext : forall e t a I I' zs zs' W, (forall j, j < k -> I j = I' j) -> (forall j, j < k -> zs j = zs' j) ->
  m_holds e t a I zs W -> m_holds e t a I' zs' W.
Proof.
  intros e t a I I' zs zs' W HI HZ [A B C D]. constructor; auto.
  - intros j Hj. rewrite <- HI by auto. auto.
  - eapply ctrs_ext; eauto.
Qed.
Lemma m_weight_from : forall zs t W0, ctrs T s1 b (e_br E) zs W0 ->
  exists W, weight_from T t W0 = Ok W /\ m_holds 0 t 0 (fun _ => 0) zs W.
Proof.
  intros zs t W0 HC. unfold weight_from. destruct HC as [L HC]. rewrite L.
  destruct (init_general_ok T s0 s1 bit E OK b HN HK HW64 k t (le_n _)) as (g & EG & P1 & P2 & P3 & _). rewrite EG. cbn [bind].
  eexists. split; [reflexivity|]. constructor; cbn [w_general w_counter]; rewrite ?mk_0; try (intros; apply near_eqm; [lia|auto]).
  rewrite Z.add_0_r. split; auto.
Qed.

(** ** Marks *)
Lemma near_mk_S : forall e x m, near e x (mk m) -> near e (x + t_1o4) (mk (S m)).
Proof. intros e x m [d [Hd H]]. exists d. split; [auto|]. rewrite H, mk_S. apply eqm_refl'. lia. Qed.

Lemma m_mark_accept : forall e t a I zs W, m_holds e t a I zs W ->
  exists W', mark_accept T W = Ok W' /\ m_holds e t (S a) I zs W'.
Proof.
  intros e t a I zs W [A B C D]. pose proof (half_le T b HN HK) as Hh.
  destruct (mark_ok T s0 s1 bit E OK b HN HK HW64 W 0) as (W' & EW & EC & P); [lia|]. exists W'. split; [exact EW|]. constructor.
  - eapply near_l; [apply P; lia|]. cbn [Nat.eqb]. apply near_mk_S, A.
  - intros i Hi. eapply near_l; [rewrite P by lia; cbn [Nat.eqb]; apply (add_zero_m T b HN HK)|]. apply B, Hi.
  - intros j Hj. eapply near_l; [rewrite P by lia|apply C, Hj].
    destruct (Nat.eqb_spec (N1 / 2 + j) 0); [lia|]. apply (add_zero_m T b HN HK).
  - destruct D as [L D]. split; rewrite EC; auto.
Qed.
Lemma m_mark_counter : forall e t a I zs W i, m_holds e t a I zs W -> i < k ->
  exists W', mark_counter T W i = Ok W' /\ m_holds e t a (fun j => (if Nat.eq_dec i j then 1 else 0) + I j) zs W'.
Proof.
  intros e t a I zs W i [A B C D] Hi. pose proof (half_le T b HN HK) as Hh.
  destruct (mark_ok T s0 s1 bit E OK b HN HK HW64 W (N1 / 2 + i)) as (W' & EW & EC & P); [lia|]. exists W'. split; [exact EW|]. constructor.
  - eapply near_l; [rewrite P by lia|exact A]. destruct (Nat.eqb_spec 0 (N1 / 2 + i)); [lia|]. apply (add_zero_m T b HN HK).
  - intros j Hj. eapply near_l; [rewrite P by lia|apply B, Hj]. destruct (Nat.eqb_spec (S j) (N1 / 2 + i)); [lia|]. apply (add_zero_m T b HN HK).
  - intros j Hj. destruct (Nat.eq_dec i j) as [<-|NE]; cbn [Nat.add].
    + eapply near_l; [apply P; lia|]. rewrite Nat.eqb_refl. apply near_mk_S. apply C, Hi.
    + eapply near_l; [rewrite P by lia|apply C, Hj]. destruct (Nat.eqb_spec (N1 / 2 + j) (N1 / 2 + i)); [lia|]. apply (add_zero_m T b HN HK).
  - destruct D as [L D]. split; rewrite EC; auto.
Qed.
Lemma m_reset_counter : forall e t a I zs W i, (0 <= e)%Z -> m_holds e t a I zs W -> i < k ->
  exists W', reset_counter T W i = Ok W' /\ m_holds e t a I (fun j => if j =? i then target_of b j else zs j) W'.
Proof.
  intros e t a I zs W i He [A B C D] Hi. unfold reset_counter. destruct D as [L D].
  destruct (spec_nth b i Hi) as (w & v & Es). destruct (D i w v Es) as (ct & Ec & HC). unfold at_. rewrite Ec. cbn [bind].
  destruct (reset_ok T s0 s1 bit E OK ct) as (c' & EC & HC'). { rewrite (ch_width _ _ _ _ _ _ _ HC). eapply HW64, nth_error_In; eauto. }
  rewrite EC. cbn [bind]. rewrite set_at_lt by lia. cbn [bind]. eexists. split; [reflexivity|].
  destruct NN as (A1 & A2 & A3 & A4 & A5 & A6).
  constructor; cbn [w_general w_counter]; auto. split; [cbn [w_counter]; rewrite upd_length; exact L|].
  intros j w' v' Hj. cbn [w_counter]. destruct (Nat.eqb_spec j i) as [->|NE].
  - rewrite upd_eq by lia. eexists. split; [reflexivity|]. rewrite Es in Hj. injection Hj as <- <-.
    rewrite (ch_width _ _ _ _ _ _ _ HC), (ch_init _ _ _ _ _ _ _ HC) in HC'.
    unfold target_of. rewrite Es. eapply ctr_holds_le; [exact HC'|lia].
  - rewrite upd_neq by auto. apply D, Hj.
Qed.

Lemma m_alter : forall e t a I zs W ac reset inc, (0 <= e)%Z -> m_holds e t a I zs W ->
  (forall i, In i reset \/ In i inc -> i < k) ->
  exists W', alter_weight T W ac reset inc = Ok W' /\
    m_holds e t (Nat.b2n ac + a) (fun j => count_occ Nat.eq_dec inc j + I j)
      (fun j => if existsb (Nat.eqb j) reset then target_of b j else zs j) W'.
Proof.
  intros e t a I zs W ac reset inc He H HB. unfold alter_weight.
  assert (S1 : exists W1, (if ac then mark_accept T W else Ok W) = Ok W1 /\ m_holds e t (Nat.b2n ac + a) I zs W1).
  { destruct ac; cbn [Nat.b2n Nat.add]; [apply m_mark_accept, H|eauto]. }
  destruct S1 as (W1 & E1 & H1). rewrite E1. cbn [bind]. set (a' := Nat.b2n ac + a) in *. clearbody a'. clear H E1.
  assert (S2 : forall l, (forall i, In i l -> i < k) -> forall W1 zs, m_holds e t a' I zs W1 ->
     exists W2, foldM (reset_counter T) l W1 = Ok W2 /\ m_holds e t a' I (fun j => if existsb (Nat.eqb j) l then target_of b j else zs j) W2).
  { induction l as [|i l IH]; intros HL V ys HV; [cbn; eauto|]. cbn [foldM].
    destruct (m_reset_counter e t a' _ ys V i He HV) as (V' & EV & HV'); [apply HL; left; auto|]. rewrite EV. cbn [bind].
    destruct (IH (fun i H => HL i (or_intror H)) V' _ HV') as (V2 & E2 & H2). exists V2. split; [exact E2|].
    eapply m_holds_ext; [| |exact H2]; [auto|]. intros j Hj. cbn [existsb].
    destruct (existsb (Nat.eqb j) l), (Nat.eqb_spec j i); reflexivity. }
  destruct (S2 reset (fun i H => HB i (or_introl H)) W1 zs H1) as (W2 & E2 & H2). rewrite E2. cbn [bind].
  set (ys := fun j => if existsb (Nat.eqb j) reset then target_of b j else zs j) in *. clearbody ys.
  assert (S3 : forall l, (forall i, In i l -> i < k) -> forall I W1, m_holds e t a' I ys W1 ->
     exists W2, foldM (mark_counter T) l W1 = Ok W2 /\ m_holds e t a' (fun j => count_occ Nat.eq_dec l j + I j) ys W2).
  { induction l as [|i l IH]; intros HL J V HV; [cbn; eauto|]. cbn [foldM].
    destruct (m_mark_counter e t a' J ys V i HV) as (V' & EV & HV'); [apply HL; left; auto|]. rewrite EV. cbn [bind].
    destruct (IH (fun i H => HL i (or_intror H)) _ V' HV') as (V2 & EV2 & HV2).
    exists V2. split; [exact EV2|]. eapply m_holds_ext; [| |exact HV2]; [|auto]. intros j Hj. cbv beta. cbn [count_occ].
    destruct (Nat.eq_dec i j); lia. }
  apply (S3 inc); auto.
Qed.

(** ** CMUX *)
Lemma m_cmux : forall e t a I zs out sel (x : bool) W1 W0, bit sel x -> shaped b out -> shaped b W1 -> shaped b W0 ->
  m_holds e t a I zs (if x then W1 else W0) ->
  exists W, weight_cmux T out sel W1 W0 = Ok W /\ m_holds (e + e_cmux E) t a I zs W.
Proof.
  intros e t a I zs out sel x W1 W0 Hx [LO SO] [L1 S1] [L0 S0] H. unfold weight_cmux.
  rewrite LO, L1, L0, Nat.eqb_refl. cbn [assert_].
  destruct H as [A B C [LC D]]. pose proof (half_le T b HN HK) as Hh.
  set (step := fun cs i => do o <- at_ cs i; do a0 <- at_ (w_counter W1) i; do b0 <- at_ (w_counter W0) i;
                      do o' <- counter_cmux T o sel a0 b0; set_at cs i o').
  assert (F : forall n, n <= k -> exists cs, foldM step (seq 0 n) (w_counter out) = Ok cs /\ length cs = k /\
     (forall j, n <= j -> nth_error cs j = nth_error (w_counter out) j) /\
     forall j w v, j < n -> nth_error spec j = Some (w, v) -> exists ct, nth_error cs j = Some ct /\ ctr_holds T s1 (e_br E + e + e_cmux E) w v (zs j) ct).
  { induction n as [|n IH]; intros Hn.
    - exists (w_counter out). cbn [seq foldM]. split; [reflexivity|]. split; [exact LO|]. split; [auto|lia].
    - destruct IH as (cs & EF & LF & Q & P); [lia|]. rewrite seq_S, foldM_app, EF. cbn [bind foldM Nat.add].
      destruct (spec_nth b n ltac:(lia)) as (w & v & Es).
      destruct (SO n w v Es) as (co & Eo & O1 & O2 & O3). destruct (S1 n w v Es) as (c1 & E1 & _ & _ & Q3).
      destruct (S0 n w v Es) as (c0 & E0 & _ & _ & R3). destruct (D n w v Es) as (cx & Ex & HX).
      unfold step at 1. unfold at_. rewrite Q, Eo, E1, E0 by lia. cbn [bind].
      destruct (ctr_cmux_ok T s0 s1 bit E OK (e_br E + e) w v (zs n) co sel x c1 c0 Hx O1 O2 O3 Q3 R3) as (c' & EC & HC).
      { destruct x; congruence. }
      rewrite EC. cbn [bind]. rewrite set_at_lt by lia. cbn [bind]. eexists. split; [reflexivity|].
      split; [rewrite upd_length; auto|]. split; [intros j Hj; rewrite upd_neq by lia; apply Q; lia|].
      intros j w' v' Hj Ej. destruct (Nat.eq_dec j n) as [->|NE].
      + rewrite upd_eq by lia. eexists. split; [reflexivity|]. rewrite Es in Ej. injection Ej as <- <-. exact HC.
      + rewrite upd_neq by lia. apply P; auto. lia. }
  destruct (F k (le_n _)) as (cs & EF & LF & _ & P). rewrite EF. cbn [bind]. eexists. split; [reflexivity|].
  assert (CM : forall i m, i < N1 -> near e (phR (w_general (if x then W1 else W0)) i) m ->
     near (e + e_cmux E) (phR (cmux T sel (w_general W1) (w_general W0)) i) m).
  { intros i m Hi Hm. eapply near_le; [eapply near_trans; [apply (ok_cmux _ _ _ _ _ OK sel x _ _ i Hx Hi)|]|].
    - destruct x; exact Hm.
    - lia. }
  constructor; cbn [w_general].
  - apply CM; [lia|exact A].
  - intros i Hi. apply CM; [lia|]. apply B, Hi.
  - intros j Hj. apply CM; [lia|]. apply C, Hj.
  - split; [exact LF|]. intros j w v Hj. cbn [w_counter].
    destruct (P j w v) as (ct & Ec & HC); [eapply nth_error_lt; eauto|auto|]. exists ct. split; [exact Ec|].
    eapply ctr_holds_le; [exact HC|lia].
Qed.

(** ** Look-up *)
Lemma m_lookup_levels : forall e t a I zs cts bs, Forall2 bit cts bs -> forall table tmp W,
  2 ^ length cts <= length table -> 2 ^ length cts <= 2 * length tmp -> Forall (shaped b) table -> Forall (shaped b) tmp ->
  nth_error table (bits_val bs) = Some W -> m_holds e t a I zs W ->
  exists table' W', wlookup_levels T cts table tmp = Ok table' /\ nth_error table' 0 = Some W' /\
    m_holds (e + Z.of_nat (length cts) * e_cmux E) t a I zs W'.
Proof.
  intros e t a I zs cts bs HF. revert e. induction HF as [|c x cts bs Hc HF IH]; intros e table tmp W L1 L2 F1 F2 EW HW.
  - cbn [wlookup_levels]. cbn [bits_val] in EW. exists table, W. split; [reflexivity|]. split; [exact EW|].
    eapply m_holds_le; [exact HW|cbn; lia].
  - cbn [wlookup_levels]. cbn [length] in *. rewrite Nat.pow_succ_r' in L1, L2.
    set (body := fun j => do o <- at_ tmp j; do a0 <- at_ table (j * 2 + 1); do b0 <- at_ table (j * 2); weight_cmux T o c a0 b0).
    assert (BO : forall j, j < 2 ^ length cts -> exists o u u0, nth_error tmp j = Some o /\ nth_error table (j * 2 + 1) = Some u /\ nth_error table (j * 2) = Some u0 /\
       body j = weight_cmux T o c u u0 /\ shaped b o /\ shaped b u /\ shaped b u0).
    { intros j Hj. destruct (nth_error_some_lt tmp j) as [o Eo]; [lia|]. destruct (nth_error_some_lt table (j * 2 + 1)) as [u Eu]; [lia|].
      destruct (nth_error_some_lt table (j * 2)) as [u0 Eu0]; [lia|]. exists o, u, u0. unfold body, at_. rewrite Eo, Eu, Eu0. cbn [bind].
      rewrite Forall_forall in F1, F2.
      do 4 (split; [reflexivity|]). split; [apply F2; eapply nth_error_In; eauto|]. split; apply F1; eapply nth_error_In; eauto. }
    destruct (par_for_ok body (seq 0 (2 ^ length cts)) tmp (seq_NoDup _ _)) as (tmp' & ET & LT & PT & QT).
    { intros q Hq. apply in_seq in Hq. lia. }
    { intros q Hq. apply in_seq in Hq. destruct (BO q) as (o & u & u0 & _ & _ & _ & -> & So & Su & Su0); [lia|].
      destruct (weight_cmux_shaped T b HN HK HW64 o c u u0 So Su Su0) as (V & EV & _). eauto. }
    rewrite ET. cbn [bind].
    pose proof (bits_val_lt bs) as LV. rewrite <- (Forall2_len _ _ _ HF) in LV.
    destruct (BO (bits_val bs) LV) as (o & u & u0 & Eo & Eu & Eu0 & EB & So & Su & Su0).
    destruct (m_cmux e t a I zs o c x u u0 Hc So Su Su0) as (V & EV & HV).
    { cbn [bits_val] in EW. destruct x; cbn [Nat.b2n] in EW.
      - replace (1 + 2 * bits_val bs) with (bits_val bs * 2 + 1) in EW by lia. congruence.
      - replace (0 + 2 * bits_val bs) with (bits_val bs * 2) in EW by lia. congruence. }
    destruct (PT (bits_val bs)) as (V' & EV' & HV'); [apply in_seq; lia|]. rewrite EB, EV in EV'. injection EV' as <-.
    destruct (IH (e + e_cmux E)%Z tmp' table V) as (table' & W' & EL & EW' & HW'); auto.
    + lia.
    + lia.
    + apply Forall_forall. intros Y HY. apply In_nth_error in HY as [j Hj].
      destruct (in_dec Nat.eq_dec j (seq 0 (2 ^ length cts))) as [IN|NI].
      * destruct (PT j IN) as (Y' & EY & HY'). rewrite HY' in Hj. injection Hj as <-. apply in_seq in IN.
        destruct (BO j) as (o' & v & v0 & _ & _ & _ & EB' & So' & Sv & Sv0); [lia|]. rewrite EB' in EY.
        destruct (weight_cmux_shaped T b HN HK HW64 o' c v v0 So' Sv Sv0) as (Z & EZ & SZ). rewrite EZ in EY. injection EY as <-. exact SZ.
      * rewrite QT in Hj by auto. rewrite Forall_forall in F2. apply F2. eapply nth_error_In; eauto.
    + exists table', W'. split; [exact EL|]. split; [exact EW'|]. eapply m_holds_le; [exact HW'|]. lia.
Qed.
Lemma m_lookup : forall e t a I zs cts bs table W, Forall2 bit cts bs -> length cts < 31 ->
  length table = 2 ^ length cts -> Forall (shaped b) table ->
  nth_error table (bits_val bs) = Some W -> m_holds e t a I zs W ->
  exists table' W', wlookup_table T table cts = Ok table' /\ nth_error table' 0 = Some W' /\
    m_holds (e + Z.of_nat (length cts) * e_cmux E) t a I zs W'.
Proof.
  intros e t a I zs cts bs table W HF L31 LT FS EW HW. unfold wlookup_table. cbv zeta.
  destruct (Nat.leb_spec 31 (length cts)); [lia|]. rewrite LT, Nat.eqb_refl. cbn [assert_].
  destruct (Nat.eqb_spec (length cts) 0) as [Z0|Z0].
  - destruct cts; [|discriminate]. inversion HF; subst. exists table, W. split; [reflexivity|]. split; [exact EW|].
    eapply m_holds_le; [exact HW|cbn; lia].
  - pose proof (pow2_pos (length cts)) as PP. destruct (nth_error_some_lt table 0) as [d Ed]; [lia|].
    unfold at_. rewrite Ed. cbn [bind].
    assert (P2 : 2 ^ length cts = 2 * 2 ^ (length cts - 1)).
    { rewrite <- Nat.pow_succ_r'. f_equal. lia. }
    eapply m_lookup_levels; eauto.
    + lia.
    + rewrite repeat_length. lia.
    + apply Forall_forall. intros y Hy. apply repeat_spec in Hy. subst y. rewrite Forall_forall in FS. apply FS. eapply nth_error_In; eauto.
Qed.

(** ** Subtracting the borrows *)
Lemma m_update_counters : forall e t a I zs W m, m_holds e t a I zs W ->
  (e_br E + e + e_iks E <= m)%Z -> (g_out GE <= m)%Z -> (m <= g_tol GE)%Z -> (4 * m + e_round E < t_1o4)%Z -> (2 * m + ra < t_1o8)%Z ->
  exists W', update_counters T G W = Ok W' /\ w_general W' = w_general W /\
    ctrs T s1 b (e_br E) (fun j => zs j - borrowed (I j) (zs j))%Z W'.
Proof.
  intros e t a I zs W m [A B C [L D]] M1 M2 M3 M4 M5. destruct NN as (A1 & A2 & A3 & A4 & A5 & A6). pose proof (half_le T b HN HK) as Hh.
  unfold update_counters. rewrite L.
  set (body := fun i => do borrow_l1 <- get_general_bit T W (N1 / 2 + i); do c <- at_ (w_counter W) i; counter_minus_one T G c (iks T borrow_l1)).
  assert (BO : forall j w v, nth_error spec j = Some (w, v) -> exists c', body j = Ok c' /\ ctr_holds T s1 (e_br E) w v (zs j - borrowed (I j) (zs j)) c').
  { intros j w v Ej. assert (Lj : j < k) by (eapply nth_error_lt; eauto). unfold body, get_general_bit.
    destruct (Nat.leb_spec N1 (N1 / 2 + j)); [lia|]. cbn [bind]. destruct (D j w v Ej) as (ct & Ec & HC).
    unfold at_. rewrite Ec. cbn [bind].
    eapply (minus_marks_ok ct (e_br E + e) (e_iks E + e) w v (zs j) _ (I j) m HC); try lia.
    eapply near_trans; [apply (ok_iks _ _ _ _ _ OK)|]. eapply near_l; [apply (ok_sei _ _ _ _ _ OK); lia|]. apply C, Lj. }
  destruct (par_for_ok body (seq 0 k) (w_counter W) (seq_NoDup _ _)) as (o & EO & LO & PO & _).
  { intros q Hq. apply in_seq in Hq. lia. }
  { intros q Hq. apply in_seq in Hq. destruct (spec_nth b q) as (w & v & Es); [lia|]. destruct (BO q w v Es) as (c' & -> & _). eauto. }
  rewrite EO. cbn [bind]. eexists. split; [reflexivity|]. split; [reflexivity|]. split; [cbn; lia|].
  intros j w v Ej. cbn [w_counter]. destruct (BO j w v Ej) as (c' & EB & HC).
  destruct (PO j) as (u & Eu & Hu); [apply in_seq; apply nth_error_lt in Ej; lia|]. rewrite EB in Eu. injection Eu as <-. eauto.
Qed.
End M.
