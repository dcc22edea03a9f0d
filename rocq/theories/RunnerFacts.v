(** Correctness of the encrypted runners: lemmas. *)
From Coq Require Import List Arith Bool NArith ZArith Lia Morphisms Setoid.
From Coq Require Import ZifyBool ZifyNat ZifyN.
Import ListNotations.
From Verif Require Import Base BaseFacts GraphModel Spec GraphFacts GraphOps Minimize Quotient TorusModel TfheSpec TorusFacts TfheFacts RunnerModel RunnerSpec.

(** ** par_for *)
Lemma nodupb_spec : forall l, nodupb l = true <-> NoDup l.
Proof.
  induction l as [|x l IH]; cbn.
  - split; [constructor|auto].
  - rewrite andb_true_iff, negb_true_iff, smem_false, IH. split.
    + intros [H1 H2]. constructor; auto.
    + intros H. inversion H; auto.
Qed.

Lemma par_for_ok : forall {A} (body : nat -> res A) t out, NoDup t ->
  (forall q, In q t -> q < length out) -> (forall q, In q t -> exists v, body q = Ok v) ->
  exists out', par_for t body out = Ok out' /\ length out' = length out /\
    (forall q, In q t -> exists v, body q = Ok v /\ nth_error out' q = Some v) /\
    (forall q, ~ In q t -> nth_error out' q = nth_error out q).
Proof.
  intros A body t out ND HL HB. unfold par_for. rewrite (proj2 (nodupb_spec t) ND).
  revert out HL. induction t as [|x t IH]; intros out HL.
  - exists out. cbn. intuition.
  - inversion ND as [|? ? NI ND']; subst. cbn [foldM].
    destruct (HB x ltac:(left; reflexivity)) as [v Hv]. rewrite Hv. cbn [bind].
    rewrite set_at_lt by (apply HL; left; reflexivity). cbn [bind].
    destruct (IH ND' (fun q H => HB q (or_intror H)) (upd x v out)) as (o' & E & L & P & Q).
    { intros q H. rewrite upd_length. apply HL. right; auto. }
    exists o'. split; [exact E|]. rewrite upd_length in L. split; [exact L|]. split.
    + intros q [<-|H]; [|auto]. exists v. split; auto. rewrite Q by auto. apply upd_eq, HL. left; auto.
    + intros q H. rewrite Q by (intros C; apply H; right; auto). apply upd_neq. intros ->. apply H. left; auto.
Qed.

Lemma nth_error_some_lt : forall {A} (l : list A) i, i < length l -> exists a, nth_error l i = Some a.
Proof. intros A l i H. destruct (nth_error l i) eqn:E; eauto. apply nth_error_None in E. lia. Qed.
Lemma resize_length : forall {A} (v : list A) n d, length (resize v n d) = n.
Proof. intros. unfold resize. rewrite app_length, firstn_length, repeat_length. lia. Qed.
Lemma resize_same : forall {A} (v : list A) n d, length v = n -> resize v n d = v.
Proof. intros A v n d H. unfold resize. rewrite firstn_all2, <- H, Nat.sub_diag by lia. apply app_nil_r. Qed.
Lemma resize_nth : forall {A} (v : list A) n d i, i < n ->
  nth_error (resize v n d) i = if i <? length v then nth_error v i else Some d.
Proof.
  intros A v n d i H. unfold resize. destruct (Nat.ltb_spec i (length v)).
  - rewrite nth_error_app1 by (rewrite firstn_length; lia).
    rewrite <- (firstn_skipn n v) at 2. rewrite nth_error_app1 by (rewrite firstn_length; lia). reflexivity.
  - rewrite nth_error_app2 by (rewrite firstn_length; lia). apply nth_error_repeat. rewrite firstn_length. lia.
Qed.

(** Filling a vector slot by slot *)
Lemma fill_ok : forall {A} (f : nat -> res A) n v, n = length v -> (forall i, i < n -> exists a, f i = Ok a) ->
  exists v', foldM (fun w i => do a <- f i; set_at w i a) (seq 0 n) v = Ok v' /\ length v' = n /\
    forall i, i < n -> exists a, f i = Ok a /\ nth_error v' i = Some a.
Proof.
  intros A f n v -> H.
  destruct (par_for_ok f (seq 0 (length v)) v) as (v' & E & L & P & _).
  - apply seq_NoDup.
  - intros q Hq. apply in_seq in Hq. lia.
  - intros q Hq. apply in_seq in Hq. apply H. lia.
  - unfold par_for in E. rewrite (proj2 (nodupb_spec _) (seq_NoDup _ _)) in E.
    exists v'. split; [exact E|]. split; [exact L|]. intros i Hi. apply P. apply in_seq. lia.
Qed.

(** ** Structure of a backstream run, for any operations *)
Section Any.
Context (T : tfhe) (g : Graph) (Wg : wf_graph g).

Lemma backstream_new_none : forall I g', wf_graph g' ->
  exists r, backstream_new T g' I None true false = Ok r /\
    b_graph r = g' /\ b_input_size r = None /\ b_interval r = I /\ b_nproc r = 0 /\
    length (b_weight r) = size g' /\ length (b_work r) = size g' /\ b_timer r = [] /\
    forall q, q < size g' -> nth_error (b_weight r) q =
       Some (if fin g' q then trivial_TRLWELvl1_1over2 (t_n1 T) else trivial_TRLWELvl1_zero (t_n1 T)).
Proof.
  intros I g' W. unfold backstream_new, assert_. cbn [bind].
  set (zero := trivial_TRLWELvl1_zero (t_n1 T)).
  destruct (fill_ok (fun st => do f <- is_final_state g' st; Ok (if f then trivial_TRLWELvl1_1over2 (t_n1 T) else zero))
              (size g') (repeat zero (size g'))) as (v' & E & L & P).
  { rewrite repeat_length; auto. }
  { intros i Hi. rewrite is_final_fin by auto. cbn. eauto. }
  rewrite foldM_ext with (g := fun w i => do a <- (do f <- is_final_state g' i; Ok (if f then trivial_TRLWELvl1_1over2 (t_n1 T) else zero)); set_at w i a).
  2:{ intros s a. destruct (is_final_state g' a); reflexivity. }
  rewrite E. cbn [bind]. eexists. split; [reflexivity|]. cbn.
  repeat (split; [auto using repeat_length|]).
  intros q Hq. destruct (P q Hq) as (a & Ha & Hn). rewrite is_final_fin in Ha by auto. cbn in Ha.
  injection Ha as <-. exact Hn.
Qed.
End Any.

(** ** Backstream evaluation *)
(** The states a step computes, for any operations: the shape of the run. *)
Lemma int_of_diff_small : forall a b, b <= a -> (Z.of_nat a < 2147483648)%Z -> int_of_diff a b = Z.of_nat (a - b).
Proof.
  intros a b H1 H2. unfold int_of_diff. rewrite Z.mod_small by lia.
  destruct (Z.ltb_spec (Z.of_nat a - Z.of_nat b) 2147483648); lia.
Qed.

(** The states whose weight is meaningful after k inputs. *)
Definition valid_after (g : Graph) (input_size : option nat) (k : nat) (q : nat) : Prop :=
  match input_size with
  | None => q < size g
  | Some n => k = 0 /\ q < size g \/ exists w, length w = n - k /\ run g (initial_state g) w = q
  end.

Definition sad_ok (g : Graph) (n : nat) : Prop :=
  forall k, k < n -> exists l, states_at_depth g k = Ok l /\ is_set l /\
    forall q, In q l <-> exists w, length w = k /\ run g (initial_state g) w = q.

Definition step_states (s : backstream) (l : list nat) : Prop :=
  match b_input_size s with
  | None => l = all_states (b_graph s)
  | Some n => states_at_depth (b_graph s) (n - b_nproc s - 1) = Ok l
  end.

Definition back_shape (s : backstream) : Prop :=
  wf_graph (b_graph s) /\ length (b_weight s) = size (b_graph s) /\ length (b_work s) = size (b_graph s) /\
  0 < b_interval s /\
  match b_input_size s with None => True | Some n => sad_ok (b_graph s) n /\ (Z.of_nat n < 2147483648)%Z end.

Definition room (s : backstream) : Prop :=
  match b_input_size s with None => True | Some n => b_nproc s < n end.

Lemma all_states_In : forall g q, In q (all_states g) <-> q < size g.
Proof. intros. unfold all_states. rewrite in_seq. lia. Qed.

Section Step.
Context (T : tfhe).

Lemma step_targets : forall s, back_shape s -> room s ->
  exists l, NoDup l /\ (forall q, In q l -> q < size (b_graph s)) /\
   (forall q, valid_after (b_graph s) (b_input_size s) (S (b_nproc s)) q <-> In q l) /\
   (forall q b, In q l -> valid_after (b_graph s) (b_input_size s) (b_nproc s) (nxt (b_graph s) q b)) /\
   (match b_input_size s with
    | Some n => let j := int_of_diff n (b_nproc s) in
        assert_ (0 <? j)%Z (states_at_depth (b_graph s) (Z.to_nat (j - 1)))
    | None => Ok (all_states (b_graph s)) end) = Ok l.
Proof.
  intros s (W & _ & _ & _ & HI) HR. unfold room in HR. destruct (b_input_size s) as [n|].
  - destruct HI as [HS HN]. cbv zeta. rewrite int_of_diff_small by lia.
    destruct (Z.ltb_spec 0 (Z.of_nat (n - b_nproc s))); [|lia]. cbn [assert_].
    replace (Z.to_nat (Z.of_nat (n - b_nproc s) - 1)) with (n - b_nproc s - 1) by lia.
    destruct (HS (n - b_nproc s - 1) ltac:(lia)) as (l & E & IS & P). exists l.
    split; [apply is_set_NoDup, IS|].
    assert (R : forall q, In q l -> q < size (b_graph s)).
    { intros q Hq. apply P in Hq as (w & _ & <-). apply run_lt; auto. apply init_lt; auto. }
    split; [exact R|]. split; [|split; [|exact E]].
    + intros q. unfold valid_after. rewrite P. replace (n - S (b_nproc s)) with (n - b_nproc s - 1) by lia.
      split; [intros [[? _]|H']; [discriminate|exact H']|auto].
    + intros q b Hq. unfold valid_after. right. apply P in Hq as (w & Lw & <-). exists (w ++ [b]). split.
      * rewrite app_length. cbn. lia.
      * rewrite run_app. reflexivity.
  - exists (all_states (b_graph s)). split; [apply seq_NoDup|].
    split; [intros q; apply all_states_In|]. split; [intros q; symmetry; apply all_states_In|].
    split; [|reflexivity]. intros q b Hq. apply nxt_lt; auto. apply all_states_In; auto.
Qed.

(** One step, for any operations: it succeeds, and computes these weights. *)
Lemma backstream_step : forall s input, back_shape s -> room s ->
  exists s' l, backstream_eval T s input = Ok s' /\ back_shape s' /\
    b_graph s' = b_graph s /\ b_input_size s' = b_input_size s /\ b_interval s' = b_interval s /\
    b_nproc s' = S (b_nproc s) /\
    (forall q, valid_after (b_graph s) (b_input_size s) (S (b_nproc s)) q <-> In q l) /\
    b_timer s' = b_timer s ++ (T_CMUX, length l) ::
       (if S (b_nproc s) mod b_interval s =? 0 then [(T_BOOTSTRAPPING, length l)] else []) /\
    forall q, In q l -> exists w0 w1,
      valid_after (b_graph s) (b_input_size s) (b_nproc s) (nxt (b_graph s) q false) /\
      valid_after (b_graph s) (b_input_size s) (b_nproc s) (nxt (b_graph s) q true) /\
      nth_error (b_weight s) (nxt (b_graph s) q false) = Some w0 /\
      nth_error (b_weight s) (nxt (b_graph s) q true) = Some w1 /\
      nth_error (b_weight s') q = Some (if S (b_nproc s) mod b_interval s =? 0
         then do_SEI_IKS_GBTLWE2TRLWE_2 T (cmux T input w1 w0) else cmux T input w1 w0).
Proof.
  intros s input HB HR. destruct (step_targets s HB HR) as (l & ND & HL & HV & HN & ET).
  destruct HB as (W & LW & LK & HI & HS). set (g := b_graph s) in *.
  unfold backstream_eval. cbv zeta. fold g. cbv zeta in ET. rewrite ET. cbn [bind].
  rewrite (resize_same (b_work s)) by auto.
  assert (BODY : forall q, In q l -> exists w0 w1,
      nth_error (b_weight s) (nxt g q false) = Some w0 /\ nth_error (b_weight s) (nxt g q true) = Some w1 /\
      cmux_body T g (b_weight s) input q = Ok (cmux T input w1 w0)).
  { intros q Hq. pose proof (HL q Hq) as Lq.
    destruct (nth_error_some_lt (b_weight s) (nxt g q false)) as [w0 E0]; [rewrite LW; apply nxt_lt; auto|].
    destruct (nth_error_some_lt (b_weight s) (nxt g q true)) as [w1 E1]; [rewrite LW; apply nxt_lt; auto|].
    exists w0, w1. split; [auto|]. split; [auto|]. unfold cmux_body.
    rewrite !next_state_nxt by auto. cbn [bind]. unfold at_. rewrite E0, E1. reflexivity. }
  destruct (par_for_ok (cmux_body T g (b_weight s) input) l (b_work s) ND) as (o & EO & LO & PO & _).
  { intros q Hq. rewrite LK. auto. }
  { intros q Hq. destruct (BODY q Hq) as (w0 & w1 & _ & _ & ->). eauto. }
  rewrite EO. cbn [bind].
  destruct (Nat.eqb_spec (b_interval s) 0); [lia|].
  destruct (Nat.eqb_spec (S (b_nproc s) mod b_interval s) 0) as [B|B].
  - destruct (par_for_ok (fun q => do w <- at_ o q; Ok (do_SEI_IKS_GBTLWE2TRLWE_2 T w)) l o ND) as (o2 & EO2 & LO2 & PO2 & _).
    { intros q Hq. rewrite LO, LK. auto. }
    { intros q Hq. destruct (PO q Hq) as (v & _ & Hv). unfold at_. rewrite Hv. cbn. eauto. }
    unfold bootstrap_weight. rewrite EO2. cbn [bind]. eexists. exists l. split; [reflexivity|].
    cbn [b_graph b_weight b_input_size b_interval b_nproc b_work b_timer].
    split. { unfold back_shape. cbn [b_graph b_weight b_input_size b_interval b_nproc b_work b_timer]. fold g. repeat (split; [solve [auto|lia]|]). exact HS. }
    repeat (split; [solve [auto]|]). split; [rewrite <- app_assoc; reflexivity|].
    intros q Hq. destruct (BODY q Hq) as (w0 & w1 & E0 & E1 & EB). exists w0, w1.
    repeat (split; [solve [auto]|]).
    destruct (PO2 q Hq) as (v2 & Ev2 & Hv2). destruct (PO q Hq) as (v & Ev & Hv).
    rewrite EB in Ev. injection Ev as <-. unfold at_ in Ev2. rewrite Hv in Ev2. cbn in Ev2. injection Ev2 as <-. exact Hv2.
  - eexists. exists l. split; [reflexivity|].
    cbn [b_graph b_weight b_input_size b_interval b_nproc b_work b_timer].
    split. { unfold back_shape. cbn [b_graph b_weight b_input_size b_interval b_nproc b_work b_timer]. fold g. repeat (split; [solve [auto|lia]|]). exact HS. }
    repeat (split; [solve [auto]|]).
    intros q Hq. destruct (BODY q Hq) as (w0 & w1 & E0 & E1 & EB). exists w0, w1.
    repeat (split; [solve [auto]|]).
    destruct (PO q Hq) as (v & Ev & Hv). rewrite EB in Ev. injection Ev as <-. exact Hv.
Qed.
End Step.

(** Feeding a list of inputs. *)
Section Feed.
Context (T : tfhe).
Lemma room_more : forall s k, match b_input_size s with None => True | Some n => b_nproc s + S k <= n end -> room s.
Proof. intros s k. unfold room. destruct (b_input_size s); auto. lia. Qed.
Lemma backstream_feed_shape : forall cts s, back_shape s ->
  match b_input_size s with None => True | Some n => b_nproc s + length cts <= n end ->
  exists s', foldM (backstream_eval T) cts s = Ok s' /\ back_shape s' /\ b_graph s' = b_graph s /\
    b_input_size s' = b_input_size s /\ b_interval s' = b_interval s /\ b_nproc s' = b_nproc s + length cts.
Proof.
  induction cts as [|c cts IH]; intros s HB HR.
  - exists s. cbn. intuition.
  - cbn [foldM]. destruct (backstream_step T s c HB (room_more s _ HR)) as (s1 & l & E & HB1 & G & I & V & N & _).
    rewrite E. cbn [bind]. destruct (IH s1 HB1) as (s2 & E2 & HB2 & G2 & I2 & V2 & N2).
    { rewrite I. destruct (b_input_size s); auto. rewrite N. cbn [length] in HR. lia. }
    exists s2. split; [exact E2|]. split; [exact HB2|]. split; [congruence|]. split; [congruence|]. split; [congruence|].
    rewrite N2, N. cbn [length]. lia.
Qed.
End Feed.

Section Correct.
Context (T : tfhe) (s0 s1 : list Z) (bit : trgsw T -> bool -> Prop) (E : noise).
Hypothesis OK : tfhe_ok T s0 s1 bit E.
Hypothesis NN : noise_nonneg E.
Notation phR := (trlwe_phase (t_n1 T) s1).

Definition back_noise (interval k : nat) : Z := (e_br E + Z.of_nat (k mod interval) * e_cmux E)%Z.
Local Notation back_margin := (RunnerSpec.back_margin E).

Definition back_inv (fed : list bool) (s : backstream) : Prop :=
  back_shape s /\ b_nproc s = length fed /\ back_margin (b_interval s) /\
  forall q, valid_after (b_graph s) (b_input_size s) (b_nproc s) q ->
    exists w, nth_error (b_weight s) q = Some w /\
      near (back_noise (b_interval s) (b_nproc s)) (phR w 0) (msg_0_1o2 (fin (b_graph s) (run (b_graph s) q (rev fed)))).

Lemma mod_succ_ne0 : forall k m, 0 < m -> S k mod m <> 0 -> S k mod m = S (k mod m).
Proof.
  intros k m Hm H. destruct (Nat.eq_dec (S (k mod m)) m) as [e|n].
  - exfalso. apply H. rewrite (Nat.div_mod k m) by lia.
    replace (S (m * (k / m) + k mod m)) with (0 + (S (k / m)) * m) by lia. rewrite Nat.mod_add, Nat.mod_0_l; lia.
  - rewrite (Nat.div_mod k m) at 1 by lia. pose proof (Nat.mod_upper_bound k m).
    replace (S (m * (k / m) + k mod m)) with (S (k mod m) + (k / m) * m) by lia.
    rewrite Nat.mod_add, Nat.mod_small; lia.
Qed.

Lemma back_inv_step : forall fed s c b, back_inv fed s -> room s -> bit c b ->
  exists s', backstream_eval T s c = Ok s' /\ back_inv (fed ++ [b]) s' /\ b_graph s' = b_graph s /\
    b_input_size s' = b_input_size s /\ b_interval s' = b_interval s.
Proof.
  intros fed s c b (HB & HN & HM & HW) HR Hc.
  destruct (backstream_step T s c HB HR) as (s' & l & ES & HB' & G & I & V & N & HV & _ & HS).
  exists s'. split; [exact ES|]. split; [|auto].
  split; [exact HB'|]. split; [rewrite N, app_length, HN; cbn; lia|]. split; [rewrite V; auto|].
  rewrite G, I, V, N. intros q Hq. apply HV in Hq.
  destruct (HS q Hq) as (w0 & w1 & V0 & V1 & E0 & E1 & EQ).
  destruct (HW _ V0) as (w0' & E0' & N0). rewrite E0 in E0'. injection E0' as <-.
  destruct (HW _ V1) as (w1' & E1' & N1). rewrite E1 in E1'. injection E1' as <-.
  eexists. split; [exact EQ|].
  assert (Hint : 0 < b_interval s) by (destruct HB as (_ & _ & _ & H & _); exact H).
  assert (NC : near (e_cmux E + back_noise (b_interval s) (b_nproc s)) (phR (cmux T c w1 w0) 0)
      (msg_0_1o2 (fin (b_graph s) (run (b_graph s) q (rev (fed ++ [b])))))).
  { eapply near_trans; [apply (ok_cmux _ _ _ _ _ OK c b); [exact Hc|apply (ok_n1 _ _ _ _ _ OK)]|].
    rewrite rev_app_distr. cbn [rev app]. destruct b; cbn [run fold_left].
    - exact N1.
    - exact N0. }
  destruct NN as (A1 & A2 & A3 & A4 & A5 & A6).
  pose proof (Nat.mod_upper_bound (b_nproc s) (b_interval s) ltac:(lia)) as MB.
  destruct (Nat.eqb_spec (S (b_nproc s) mod b_interval s) 0) as [B|B].
  - unfold back_noise. rewrite B. apply near_le with (e := e_br E); [|lia].
    eapply boot2_ok; [exact OK|exact A3|exact NC|].
    unfold back_noise, back_margin in *.
    assert (Z.of_nat (S (b_nproc s mod b_interval s)) * e_cmux E <= Z.of_nat (b_interval s) * e_cmux E)%Z
      by (apply Z.mul_le_mono_nonneg_r; lia). lia.
  - apply near_le with (1 := NC). unfold back_noise. rewrite mod_succ_ne0 by auto. lia.
Qed.

Lemma back_inv_feed : forall cts bs fed s, Forall2 bit cts bs -> back_inv fed s ->
  match b_input_size s with None => True | Some n => length fed + length cts <= n end ->
  exists s', foldM (backstream_eval T) cts s = Ok s' /\ back_inv (fed ++ bs) s' /\ b_graph s' = b_graph s /\
    b_input_size s' = b_input_size s.
Proof.
  induction cts as [|c cts IH]; intros bs fed s HF HI HR; inversion HF as [|? b ? bs' Hc HF']; subst.
  - exists s. rewrite app_nil_r. auto.
  - cbn [foldM]. assert (HN : b_nproc s = length fed) by (destruct HI as (_ & H & _); exact H).
    destruct (back_inv_step fed s c b HI) as (s1' & E1 & I1 & G1 & S1 & V1); auto.
    { apply room_more with (k := length cts). rewrite HN. cbn [length] in HR. exact HR. }
    rewrite E1. cbn [bind]. destruct (IH bs' (fed ++ [b]) s1' HF' I1) as (s2' & E2 & I2 & G2 & S2).
    { rewrite S1. destruct (b_input_size s); auto. rewrite app_length. cbn [length] in *. lia. }
    exists s2'. split; [exact E2|]. rewrite <- app_assoc in I2. split; [exact I2|]. split; congruence.
Qed.

Lemma back_noise_lt : forall s fed, back_inv fed s -> (back_noise (b_interval s) (b_nproc s) < t_1o4)%Z.
Proof.
  intros s fed (HB & _ & HM & _).
  assert (Hint : 0 < b_interval s) by (destruct HB as (_ & _ & _ & H & _); exact H).
  pose proof (Nat.mod_upper_bound (b_nproc s) (b_interval s) ltac:(lia)) as MB.
  unfold back_noise, back_margin in *. destruct NN as (A1 & A2 & A3 & A4 & A5 & A6).
  assert (Z.of_nat (b_nproc s mod b_interval s) * e_cmux E <= Z.of_nat (b_interval s) * e_cmux E)%Z
      by (apply Z.mul_le_mono_nonneg_r; lia). lia.
Qed.

Lemma back_result : forall fed s, back_inv fed s ->
  valid_after (b_graph s) (b_input_size s) (b_nproc s) (initial_state (b_graph s)) ->
  exists c, backstream_result T s = Ok c /\
    accepts (b_graph s) (rev fed) = Ok (decrypt_TLWELvl1_to_bit (t_n1 T) c s1).
Proof.
  intros fed s HI HV. pose proof (back_noise_lt s fed HI) as HL.
  assert (Hn : (0 < t_n1 T)%nat) by apply (ok_n1 _ _ _ _ _ OK).
  destruct HI as (HB & _ & _ & HW). destruct (HW _ HV) as (w & Ew & Nw).
  unfold backstream_result, at_. rewrite Ew. cbn [bind]. eexists. split; [reflexivity|].
  rewrite accepts_run by apply HB. f_equal. symmetry.
  eapply decrypt_near; [|exact HL]. eapply near_l; [apply (ok_sei _ _ _ _ _ OK); exact Hn|exact Nw].
Qed.

Lemma back_new_inv : forall s g, wf_graph g -> b_graph s = g -> back_shape s -> b_nproc s = 0 -> back_margin (b_interval s) ->
  (forall q, q < size g -> nth_error (b_weight s) q =
       Some (if fin g q then trivial_TRLWELvl1_1over2 (t_n1 T) else trivial_TRLWELvl1_zero (t_n1 T))) ->
  back_inv [] s.
Proof.
  intros s g W HG HB HN HM HW. split; [auto|]. split; [auto|]. split; [auto|].
  intros q Hq. assert (q < size g) as Lq.
  { unfold valid_after in Hq. rewrite HG in Hq. destruct (b_input_size s).
    - destruct Hq as [[_ H]|(w & _ & <-)]; [auto|]. apply run_lt; auto. apply init_lt; auto.
    - auto. }
  eexists. split; [apply HW, Lq|]. cbn [rev run fold_left]. rewrite HG.
  pose proof (ok_n1 _ _ _ _ _ OK) as Hn. destruct NN as (A1 & A2 & A3 & A4 & A5 & A6).
  apply near_eqm; [unfold back_noise; rewrite HN; nia|].
  destruct (fin g q); cbn [msg_0_1o2].
  - unfold trivial_TRLWELvl1_1over2. rewrite trivial_phase, nth_put_same by (try rewrite repeat_length; lia). apply w32_m.
  - unfold trivial_TRLWELvl1_zero. rewrite trivial_phase, nth_repeat0 by lia. reflexivity.
Qed.
End Correct.

(** ** Constructors *)
Lemma same_next : forall g g', g_delta g' = g_delta g -> forall q b, nxt g' q b = nxt g q b.
Proof. intros g g' H q b. unfold nxt. rewrite H. reflexivity. Qed.
Lemma same_run : forall g g', g_delta g' = g_delta g -> forall w q, run g' q w = run g q w.
Proof.
  intros g g' H. induction w as [|b w IH]; intros q; cbn; [reflexivity|].
  rewrite same_next with (g := g) by auto. apply IH.
Qed.
Lemma same_accepts : forall g g', wf_graph g -> wf_graph g' -> g_delta g' = g_delta g -> g_final g' = g_final g ->
  g_init g' = g_init g -> forall w, accepts g' w = accepts g w.
Proof.
  intros g g' W W' H1 H2 H3 w. rewrite !accepts_run by auto. unfold initial_state. rewrite H3, same_run with (g := g) by auto.
  unfold fin. rewrite H2. reflexivity.
Qed.

Lemma offline_new_ok : forall T g n I, wf_graph g -> 0 < I -> (Z.of_nat n < 2147483648)%Z ->
  exists r, offline_new T g n I true false = Ok r /\ back_shape r /\ b_nproc r = 0 /\ b_input_size r = Some n /\ b_interval r = I /\
    (forall w, accepts (b_graph r) w = accepts g w) /\
    forall q, q < size (b_graph r) -> nth_error (b_weight r) q =
       Some (if fin (b_graph r) q then trivial_TRLWELvl1_1over2 (t_n1 T) else trivial_TRLWELvl1_zero (t_n1 T)).
Proof.
  intros T g n I W HI HN. unfold offline_new, backstream_new. cbn [assert_].
  destruct (states_at_depth_correct g n W) as (g' & ER & W' & D & F & In & _ & SD).
  rewrite ER. cbn [bind].
  assert (HS : size g' = size g) by (unfold size; rewrite D; reflexivity).
  destruct (backstream_new_none T I g' W') as (r & E & HG & _ & _ & _ & LW & LK & _ & HW).
  unfold backstream_new in E. cbn [assert_ bind] in E. rewrite HS in *.
  match goal with |- context [foldM ?f ?l ?x] => destruct (foldM f l x) as [v|] eqn:EF end; [|discriminate].
  cbn [bind] in *. injection E as <-. cbn in *.
  eexists. split; [reflexivity|]. unfold back_shape. cbn. rewrite HS.
  split.
  { split; [auto|]. split; [auto|]. split; [auto|]. split; [auto|]. split; [|auto].
    intros k Hk. destruct (SD k Hk) as (l & E1 & S1 & P1). exists l. split; [auto|]. split; [auto|].
    intros q. rewrite P1. unfold initial_state. rewrite In. split; intros (w & Lw & R); exists w; split; auto.
    - rewrite same_run with (g := g) by auto. rewrite run_from_run in R by (auto using init_lt). injection R as <-. reflexivity.
    - rewrite run_from_run by (auto using init_lt). rewrite same_run with (g := g) in R by auto. congruence. }
  split; [auto|]. split; [auto|]. split; [auto|]. split; [apply same_accepts; auto|]. exact HW.
Qed.
