(** Encrypted counters: lemmas. *)
From Coq Require Import List Arith Bool NArith NArith.Ndigits ZArith Lia Permutation.
From Coq Require Import ZifyBool ZifyNat ZifyN.
Import ListNotations.
From Verif Require Import Base BaseFacts GraphModel TorusModel TfheSpec TorusFacts TfheFacts RunnerModel RunnerFacts RunnerSpec
  CounterModel CounterSpec.
Local Open Scope nat_scope.

(** ** Subtracting one, bit by bit *)
(** The borrow that reaches bit i. *)
Fixpoint borrow_at (z : Z) (b : bool) (i : nat) : bool :=
  match i with O => b | S i' => negb (Z.testbit z (Z.of_nat i')) && borrow_at z b i' end.

Lemma borrow_at_S : forall i z b,
  borrow_at z b (S i) = borrow_at (Z.div2 z) (negb (Z.odd z) && b) i.
Proof.
  induction i as [|i IH]; intros z b.
  - cbn [borrow_at]. rewrite Z.bit0_odd. reflexivity.
  - change (borrow_at z b (S (S i))) with (negb (Z.testbit z (Z.of_nat (S i))) && borrow_at z b (S i)).
    rewrite IH. cbn [borrow_at]. rewrite Z.div2_spec, Z.shiftr_spec by lia.
    replace (Z.of_nat i + 1)%Z with (Z.of_nat (S i)) by lia. reflexivity.
Qed.
Lemma odd_pred : forall z, Z.odd (z - 1) = negb (Z.odd z).
Proof. intros z. rewrite Z.odd_sub. destruct (Z.odd z); reflexivity. Qed.
Lemma div2_pred : forall z, Z.div2 (z - 1) = (Z.div2 z - Z.b2z (negb (Z.odd z)))%Z.
Proof.
  intros z. pose proof (Z.div2_odd z) as H. pose proof (Z.div2_odd (z - 1)) as H1. rewrite odd_pred in H1.
  destruct (Z.odd z); cbn [negb Z.b2z] in *; lia.
Qed.
Lemma sub_bit : forall i z b, Z.testbit (z - Z.b2z b) (Z.of_nat i) = xorb (Z.testbit z (Z.of_nat i)) (borrow_at z b i).
Proof.
  induction i as [|i IH]; intros z b.
  - rewrite !Z.bit0_odd. cbn [borrow_at]. destruct b; cbn [Z.b2z].
    + rewrite odd_pred. destruct (Z.odd z); reflexivity.
    + rewrite Z.sub_0_r. destruct (Z.odd z); reflexivity.
  - rewrite borrow_at_S. destruct b.
    + rewrite andb_true_r. cbn [Z.b2z].
      assert (D : forall y, Z.testbit y (Z.of_nat (S i)) = Z.testbit (Z.div2 y) (Z.of_nat i)).
      { intros y. rewrite Z.div2_spec, Z.shiftr_spec by lia. f_equal. lia. }
      rewrite !D, div2_pred. apply IH.
    + rewrite andb_false_r. cbn [Z.b2z]. rewrite Z.sub_0_r.
      assert (F : forall j y, borrow_at y false j = false).
      { induction j as [|j IHj]; intros y; cbn [borrow_at]; [reflexivity|]. rewrite IHj. apply andb_false_r. }
      rewrite F, xorb_false_r. reflexivity.
Qed.
Lemma low_bits_zero : forall w z, (forall i, i < w -> Z.testbit z (Z.of_nat i) = false) <-> (z mod 2 ^ Z.of_nat w = 0)%Z.
Proof.
  intros w z. split.
  - intros H. apply Z.bits_inj'. intros n Hn. rewrite Z.bits_0.
    destruct (Z_lt_ge_dec n (Z.of_nat w)).
    + rewrite Z.mod_pow2_bits_low by lia. specialize (H (Z.to_nat n)). rewrite Z2Nat.id in H by lia. apply H. lia.
    + apply Z.mod_pow2_bits_high. lia.
  - intros H i Hi. rewrite <- (Z.mod_pow2_bits_low z (Z.of_nat w)) by lia. rewrite H. apply Z.bits_0.
Qed.

(** ** Decryption by sign *)
Lemma sym_bit_near : forall e x b, near e x (msg_1o8 b) -> (e < t_1o8)%Z -> sym_bit x = b.
Proof.
  intros e x b [d [Hd H]] L. apply eqm_mod in H. unfold sym_bit, w32. rewrite H. clear H.
  destruct b; unfold msg_1o8, t_1o8, t_1o2, two32 in *.
  - rewrite Z.mod_small by lia. lia.
  - rewrite <- (Z.mod_add _ 1), Z.mod_small by lia. lia.
Qed.
Lemma sym_bit_eqm : forall x y, eqm x y -> sym_bit x = sym_bit y.
Proof. intros x y H. unfold sym_bit. apply eqm_w32 in H. rewrite H. reflexivity. Qed.

Section Ctr.
Context (T : tfhe) (G : gates T) (s0 s1 : list Z) (bit : trgsw T -> bool -> Prop) (E : noise) (GE : gate_noise).
Hypothesis OK : tfhe_ok T s0 s1 bit E.
Hypothesis GOK : gates_ok T G s0 bit GE.
Hypothesis NN : noise_nonneg E.
Notation ph0 := (tlwe_phase (t_n0 T) s0).
Notation phR := (trlwe_phase (t_n1 T) s1).
Notation N1 := (t_n1 T).

(** The counter c of width w and initial value v holds the number z (modulo 2^w). *)
Record ctr_holds (e : Z) (w : nat) (v : N) (z : Z) (c : Counter) : Prop := mkCH {
  ch_width : c_width c = w;
  ch_init : c_init c = v;
  ch_len : length (c_bits c) = w;
  ch_bits : forall i ci, nth_error (c_bits c) i = Some ci -> near e (phR ci 0) (msg_1o8 (Z.testbit z (Z.of_nat i))) }.

Lemma ctr_holds_le : forall e e' w v z c, ctr_holds e w v z c -> (e <= e')%Z -> ctr_holds e' w v z c.
Proof. intros e e' w v z c [A B C D] L. constructor; auto. intros i ci Hi. eapply near_le; eauto. Qed.

Lemma triv_eighth : forall b : bool, eqm (phR (if b then trivial_TRLWELvl1_1over8 N1 else trivial_TRLWELvl1_minus_1over8 N1) 0) (msg_1o8 b).
Proof.
  intros b. pose proof (ok_n1 _ _ _ _ _ OK) as Hn.
  destruct b; unfold trivial_TRLWELvl1_1over8, trivial_TRLWELvl1_minus_1over8;
    rewrite trivial_phase, nth_put_same by (try rewrite repeat_length; lia); apply w32_m.
Qed.

Lemma reset_ok : forall c, c_width c <= 64 -> exists c', counter_reset T c = Ok c' /\
  ctr_holds 0 (c_width c) (c_init c) (Z.of_N (c_init c)) c'.
Proof.
  intros c Hw. unfold counter_reset. destruct (Nat.ltb_spec 64 (c_width c)); [lia|].
  eexists. split; [reflexivity|]. constructor; cbn [c_width c_init c_bits]; auto.
  - rewrite map_length, seq_length. reflexivity.
  - intros i ci Hi. rewrite nth_error_map in Hi. destruct (nth_error (seq 0 (c_width c)) i) as [j|] eqn:Ej; [|discriminate].
    assert (i < c_width c) as Li. { apply nth_error_lt in Ej. rewrite seq_length in Ej. exact Ej. }
    rewrite nth_error_seq in Ej by auto. injection Ej as <-. cbn [option_map] in Hi. injection Hi as <-.
    apply near_eqm; [lia|]. rewrite triv_eighth. apply eqm_refl'. f_equal.
    rewrite <- nat_N_Z, Z.testbit_of_N. symmetry. apply Ntestbit_Nbit.
Qed.

Lemma bit_l0_ok : forall e ci b, near e (phR ci 0) (msg_1o8 b) -> near (e_iks E + e) (ph0 (bit_l0 T ci)) (msg_1o8 b).
Proof. intros. unfold bit_l0. eapply sei_iks; eauto. Qed.

(** ** The zero test *)
Lemma triv_minus : near 0 (ph0 (trivial_TLWE_minus_1over8 (t_n0 T))) (msg_1o8 false).
Proof.
  apply near_eqm; [lia|]. unfold trivial_TLWE_minus_1over8. rewrite put_b_phase by apply repeat_length.
  unfold tlwe_phase. rewrite nth_repeat0, sum_zero by (intros; rewrite nth_repeat0; lia). apply eqm_refl'. cbn. lia.
Qed.

Lemma reduce_ok : forall c e w v z, ctr_holds e w v z c -> (0 <= g_out GE)%Z -> (0 <= e)%Z -> (e + e_iks E <= g_tol GE)%Z -> (g_out GE <= g_tol GE)%Z ->
  forall t, (forall i, In i (leaves t) -> i <= w) ->
  exists x, reduce_or T G t (trivial_TLWE_minus_1over8 (t_n0 T)) (c_bits c) = Ok x /\
    near (Z.max (g_out GE) (e + e_iks E)) (ph0 x) (msg_1o8 (existsb (fun i => match i with O => false | S i => Z.testbit z (Z.of_nat i) end) (leaves t))).
Proof.
  intros c e w v z H HG He H1 H2. destruct NN as (A1 & A2 & A3 & A4 & A5 & A6).
  induction t as [[|i]|l IHl r IHr]; intros HL; cbn [reduce_or leaves existsb].
  - eexists. split; [reflexivity|]. cbn [orb]. eapply near_le; [apply triv_minus|lia].
  - assert (i < length (c_bits c)) as Li. { rewrite (ch_len _ _ _ _ _ H). apply (HL (S i)). cbn. auto. }
    destruct (nth_error_some_lt (c_bits c) i Li) as [ci Ei]. rewrite Ei. eexists. split; [reflexivity|].
    rewrite orb_false_r. eapply near_le; [apply bit_l0_ok, (ch_bits _ _ _ _ _ H _ _ Ei)|lia].
  - destruct IHl as (x & Ex & Hx). { intros i Hi. apply HL. cbn. apply in_app_iff. auto. }
    destruct IHr as (y & Ey & Hy). { intros i Hi. apply HL. cbn. apply in_app_iff. auto. }
    rewrite Ex, Ey. cbn [bind]. eexists. split; [reflexivity|]. rewrite existsb_app.
    eapply near_le; [apply (ok_or _ _ _ _ _ GOK)|apply Z.le_max_l].
    + eapply near_le; [exact Hx|lia].
    + eapply near_le; [exact Hy|lia].
Qed.

Lemma is_zero_ok : forall c e w v z order, ctr_holds e w v z c -> valid_order w order ->
  (0 <= g_out GE)%Z -> (0 <= g_cb GE)%Z -> (0 <= e)%Z -> (e + e_iks E <= g_tol GE)%Z -> (g_out GE <= g_tol GE)%Z ->
  (g_out GE + g_cb GE < t_1o8)%Z -> (e + e_iks E + g_cb GE < t_1o8)%Z ->
  exists x, counter_is_zero T G order c = Ok x /\ bit (cb01 T G x) (z mod 2 ^ Z.of_nat w =? 0)%Z.
Proof.
  intros c e w v z order H HO B1 B2 B3 B4 B5 B6 B7. unfold counter_is_zero.
  destruct (reduce_ok c e w v z H B1 B3 B4 B5 order) as (x & Ex & Hx).
  { intros i Hi. apply (Permutation_in _ HO) in Hi. apply in_seq in Hi. lia. }
  rewrite Ex. cbn [bind]. eexists. split; [reflexivity|].
  set (b := existsb _ _) in Hx.
  assert (EB : (z mod 2 ^ Z.of_nat w =? 0)%Z = negb b).
  { destruct b eqn:Eb; unfold b in Eb.
    - apply existsb_exists in Eb as (i & Hi & Hb). apply (Permutation_in _ HO), in_seq in Hi. destruct i as [|i]; [discriminate|].
      apply Z.eqb_neq. intros C. rewrite (proj2 (low_bits_zero w z) C i) in Hb by lia. discriminate.
    - apply Z.eqb_eq, low_bits_zero. intros i Hi. destruct (Z.testbit z (Z.of_nat i)) eqn:Ez; [|reflexivity].
      assert (existsb (fun i => match i with O => false | S i => Z.testbit z (Z.of_nat i) end) (leaves order) = true); [|congruence].
      apply existsb_exists. exists (S i). split; [|exact Ez]. apply (Permutation_in _ (Permutation_sym HO)), in_seq. lia. }
  rewrite EB. clearbody b. apply near_opp in Hx.
  pose proof (near_l _ _ _ _ (ok_not _ _ _ _ _ GOK x) Hx) as HN.
  destruct b; cbn [negb]; unfold msg_1o8 in HN; [apply (ok_cb01_neg _ _ _ _ _ GOK)|apply (ok_cb01_pos _ _ _ _ _ GOK)].
  - eapply near_negative; [exact HN| | |exact B2]; unfold t_1o8, t_1o2 in *; lia.
  - eapply near_positive; [exact HN| | |exact B2]; unfold t_1o8, t_1o2 in *; lia.
Qed.

(** ** Subtraction *)
Lemma minus_one_ok : forall c e f w v z borrow b m, ctr_holds e w v z c -> near f (ph0 borrow) (msg_1o8 b) ->
  (e + e_iks E <= m)%Z -> (f <= m)%Z -> (g_out GE <= m)%Z -> (m <= g_tol GE)%Z -> (4 * m + e_round E < t_1o4)%Z ->
  exists c', counter_minus_one T G c borrow = Ok c' /\ ctr_holds (e_br E) w v (z - Z.b2z b) c'.
Proof.
  intros c e f w v z borrow b m H HB M1 M2 M3 M4 M5. destruct NN as (A1 & A2 & A3 & A4 & A5 & A6).
  unfold counter_minus_one. rewrite (ch_width _ _ _ _ _ H).
  set (step := fun '(memo, borrow) i => do ci <- at_ (c_bits c) i; Ok (memo ++ [bit_l0 T ci; borrow], hom_andny T G (bit_l0 T ci) borrow)).
  assert (L : forall n, n <= w -> exists memo bo, foldM step (seq 0 n) ([], borrow) = Ok (memo, bo) /\ length memo = 2 * n /\
    near m (ph0 bo) (msg_1o8 (borrow_at z b n)) /\
    forall i, i < n -> exists x y, nth_error memo (i * 2) = Some x /\ nth_error memo (i * 2 + 1) = Some y /\
      near m (ph0 x) (msg_1o8 (Z.testbit z (Z.of_nat i))) /\ near m (ph0 y) (msg_1o8 (borrow_at z b i))).
  { induction n as [|n IH]; intros Hn.
    - exists [], borrow. cbn [seq foldM]. split; [reflexivity|]. split; [reflexivity|]. split; [eapply near_le; eauto|]. lia.
    - destruct IH as (memo & bo & EF & LM & NB & P); [lia|]. rewrite seq_S, foldM_app, EF. cbn [bind foldM Nat.add].
      unfold step at 1. destruct (nth_error_some_lt (c_bits c) n) as [ci Ei]; [rewrite (ch_len _ _ _ _ _ H); lia|].
      unfold at_. rewrite Ei. cbn [bind].
      assert (NC : near m (ph0 (bit_l0 T ci)) (msg_1o8 (Z.testbit z (Z.of_nat n)))).
      { eapply near_le; [apply bit_l0_ok, (ch_bits _ _ _ _ _ H _ _ Ei)|lia]. }
      do 2 eexists. split; [reflexivity|]. split; [rewrite app_length, LM; cbn [length]; lia|]. split.
      + cbn [borrow_at]. eapply near_le; [apply (ok_andny _ _ _ _ _ GOK); eapply near_le; eauto|lia].
      + intros i Hi. destruct (Nat.eq_dec i n) as [->|NE].
        * exists (bit_l0 T ci), bo. rewrite !nth_error_app2 by lia. rewrite LM.
          replace (n * 2 - 2 * n) with 0 by lia. replace (n * 2 + 1 - 2 * n) with 1 by lia. cbn. auto.
        * destruct (P i) as (x & y & Ex & Ey & Q); [lia|]. exists x, y. rewrite !nth_error_app1 by lia. auto. }
  destruct (L w (le_n _)) as (memo & bo & EF & LM & _ & P). rewrite EF. cbn [bind].
  set (body := fun i => do a <- at_ memo (i * 2); do b0 <- at_ memo (i * 2 + 1); Ok (HomXORwoSE T a b0)).
  assert (BO : forall i, i < w -> exists x y, body i = Ok (HomXORwoSE T x y) /\ near m (ph0 x) (msg_1o8 (Z.testbit z (Z.of_nat i))) /\ near m (ph0 y) (msg_1o8 (borrow_at z b i))).
  { intros i Hi. destruct (P i Hi) as (x & y & Ex & Ey & Q1 & Q2). exists x, y. unfold body, at_. rewrite Ex, Ey. cbn [bind]. auto. }
  destruct (par_for_ok body (seq 0 w) (c_bits c) (seq_NoDup _ _)) as (o & EO & LO & PO & _).
  { intros q Hq. apply in_seq in Hq. rewrite (ch_len _ _ _ _ _ H). lia. }
  { intros q Hq. apply in_seq in Hq. destruct (BO q) as (x & y & -> & _); [lia|]. eauto. }
  rewrite EO. cbn [bind]. eexists. split; [reflexivity|]. rewrite (ch_len _ _ _ _ _ H) in LO.
  constructor; cbn [c_width c_init c_bits]; auto; [apply (ch_init _ _ _ _ _ H)|].
  intros i ci Hi. assert (Li : i < w) by (rewrite <- LO; eapply nth_error_lt; eauto).
  destruct (BO i Li) as (x & y & EB & Q1 & Q2). destruct (PO i) as (u & Eu & Hu); [apply in_seq; lia|].
  rewrite EB in Eu. injection Eu as <-. rewrite Hu in Hi. injection Hi as <-.
  rewrite sub_bit. eapply hom_xor_ok; eauto.
Qed.

(** ** Decryption *)
Lemma lor_bit : forall n z i, 0 <= i ->
  n = Z.to_N (z mod 2 ^ Z.of_nat i) -> (if Z.testbit z (Z.of_nat i) then N.lor n (N.shiftl 1 (N.of_nat i)) else n) = Z.to_N (z mod 2 ^ Z.of_nat (S i)).
Proof.
  intros n z i _ ->. pose proof (Z.mod_pos_bound z (2 ^ Z.of_nat i) ltac:(lia)) as B1.
  pose proof (Z.mod_pos_bound z (2 ^ Z.of_nat (S i)) ltac:(lia)) as B2.
  apply N.bits_inj_iff. intros k.
  assert (TB : forall y, (0 <= y)%Z -> N.testbit (Z.to_N y) k = Z.testbit y (Z.of_N k)).
  { intros y Hy. rewrite <- Z.testbit_of_N, Z2N.id by auto. reflexivity. }
  assert (LOW : N.testbit (Z.to_N (z mod 2 ^ Z.of_nat i)) k = if (Z.of_N k <? Z.of_nat i)%Z then Z.testbit z (Z.of_N k) else false).
  { rewrite TB by lia. destruct (Z.ltb_spec (Z.of_N k) (Z.of_nat i)); [apply Z.mod_pow2_bits_low; auto|apply Z.mod_pow2_bits_high; lia]. }
  assert (HIGH : N.testbit (Z.to_N (z mod 2 ^ Z.of_nat (S i))) k = if (Z.of_N k <? Z.of_nat (S i))%Z then Z.testbit z (Z.of_N k) else false).
  { rewrite TB by lia. destruct (Z.ltb_spec (Z.of_N k) (Z.of_nat (S i))); [apply Z.mod_pow2_bits_low; auto|apply Z.mod_pow2_bits_high; lia]. }
  assert (ONE : N.testbit (N.shiftl 1 (N.of_nat i)) k = (k =? N.of_nat i)%N).
  { rewrite N.shiftl_1_l. destruct (N.eqb_spec k (N.of_nat i)) as [->|NE]; [apply N.pow2_bits_true|apply N.pow2_bits_false; auto]. }
  destruct (Z.testbit z (Z.of_nat i)) eqn:Eb.
  - rewrite N.lor_spec, LOW, HIGH, ONE.
    destruct (N.eqb_spec k (N.of_nat i)) as [->|NE].
    + rewrite nat_N_Z, Eb, orb_true_r. destruct (Z.ltb_spec (Z.of_nat i) (Z.of_nat (S i))); [auto|lia].
    + rewrite orb_false_r. destruct (Z.ltb_spec (Z.of_N k) (Z.of_nat i)), (Z.ltb_spec (Z.of_N k) (Z.of_nat (S i))); try lia; reflexivity.
  - rewrite LOW, HIGH. destruct (Z.ltb_spec (Z.of_N k) (Z.of_nat i)), (Z.ltb_spec (Z.of_N k) (Z.of_nat (S i))); try lia; try reflexivity.
    replace (Z.of_N k) with (Z.of_nat i) by lia. auto.
Qed.

Lemma phase_bit : forall e c b i, near e (phR c i) (msg_1o8 b) -> (e < t_1o8)%Z -> i < N1 ->
  sym_bit (cf (phase_of_TRLWELvl1 N1 c s1) i) = b.
Proof.
  intros e c b i H L Hi. erewrite sym_bit_eqm; [eapply sym_bit_near; eauto|].
  rewrite cf_m. apply phase_of_TRLWE_ok; auto. apply (ok_n1 _ _ _ _ _ OK).
Qed.

Lemma decrypt_ok : forall e w v z c, ctr_holds e w v z c -> (e < t_1o8)%Z -> w <= 32 ->
  counter_decrypt T c s1 = Ok (Z.to_N (z mod 2 ^ Z.of_nat w)).
Proof.
  intros e w v z c H L HW. unfold counter_decrypt. rewrite (ch_width _ _ _ _ _ H).
  assert (Gn : forall n, n <= w -> foldM (fun r i => do ci <- at_ (c_bits c) i;
           if sym_bit (cf (phase_of_TRLWELvl1 N1 ci s1) 0)
           then if 32 <=? i then Fail FUndefined else Ok (N.lor r (N.shiftl 1 (N.of_nat i)))
           else Ok r) (seq 0 n) 0%N = Ok (Z.to_N (z mod 2 ^ Z.of_nat n))).
  { induction n as [|n IH]; intros Hn.
    - cbn [seq foldM]. change (2 ^ Z.of_nat 0)%Z with 1%Z. rewrite Z.mod_1_r. reflexivity.
    - rewrite seq_S, foldM_app, IH by lia. cbn [bind foldM Nat.add].
      destruct (nth_error_some_lt (c_bits c) n) as [ci Ei]; [rewrite (ch_len _ _ _ _ _ H); lia|].
      unfold at_. rewrite Ei. cbn [bind].
      rewrite (phase_bit e ci (Z.testbit z (Z.of_nat n)) 0 (ch_bits _ _ _ _ _ H _ _ Ei) L (ok_n1 _ _ _ _ _ OK)).
      rewrite <- (lor_bit _ z n ltac:(lia) eq_refl). destruct (Nat.leb_spec 32 n); [lia|].
      destruct (Z.testbit z (Z.of_nat n)); reflexivity. }
  apply Gn. lia.
Qed.

(** ** CMUX *)
Lemma ctr_cmux_ok : forall e w v z out sel (b : bool) c1 c0, bit sel b ->
  c_width out = w -> c_init out = v -> length (c_bits out) = w -> length (c_bits c1) = w -> length (c_bits c0) = w ->
  ctr_holds e w v z (if b then c1 else c0) ->
  exists c', counter_cmux T out sel c1 c0 = Ok c' /\ ctr_holds (e + e_cmux E) w v z c'.
Proof.
  intros e w v z out sel b c1 c0 Hb W1 V1 L L1 L0 H. unfold counter_cmux. rewrite L, L1, L0, Nat.eqb_refl. cbn [assert_].
  set (f := fun i => do a <- at_ (c_bits c1) i; do b0 <- at_ (c_bits c0) i; Ok (cmux T sel a b0)).
  assert (BO : forall i, i < w -> exists x y, nth_error (c_bits c1) i = Some x /\ nth_error (c_bits c0) i = Some y /\ f i = Ok (cmux T sel x y)).
  { intros i Hi. destruct (nth_error_some_lt (c_bits c1) i) as [x Ex]; [lia|]. destruct (nth_error_some_lt (c_bits c0) i) as [y Ey]; [lia|].
    exists x, y. unfold f, at_. rewrite Ex, Ey. auto. }
  destruct (fill_ok f w (c_bits out)) as (o & EO & LO & PO); [auto|intros i Hi; destruct (BO i Hi) as (x & y & _ & _ & ->); eauto|].
  assert (EX : foldM (fun o i => do a <- at_ (c_bits c1) i; do b0 <- at_ (c_bits c0) i; set_at o i (cmux T sel a b0)) (seq 0 w) (c_bits out) = Ok o).
  { rewrite <- EO. clear. revert w. generalize (c_bits out). intros v0 w. generalize (seq 0 w). intros l. revert v0.
    induction l as [|i l IH]; intros v0; cbn [foldM]; [reflexivity|]. unfold f at 1.
    destruct (at_ (c_bits c1) i); cbn [bind]; [|reflexivity]. destruct (at_ (c_bits c0) i); cbn [bind]; [|reflexivity].
    destruct (set_at v0 i (cmux T sel a a0)); cbn [bind]; [apply IH|reflexivity]. }
  rewrite EX. cbn [bind]. eexists. split; [reflexivity|]. constructor; cbn [c_width c_init c_bits]; auto.
  intros i ci Hi. assert (Li : i < w) by (rewrite <- LO; eapply nth_error_lt; eauto).
  destruct (BO i Li) as (x & y & Ex & Ey & EB). destruct (PO i Li) as (u & Eu & Hu). rewrite EB in Eu. injection Eu as <-.
  rewrite Hu in Hi. injection Hi as <-.
  eapply near_le; [eapply near_trans; [apply (ok_cmux _ _ _ _ _ OK sel b x y 0 Hb (ok_n1 _ _ _ _ _ OK))|]|].
  - destruct b; apply (ch_bits _ _ _ _ _ H); [exact Ex|exact Ey].
  - lia.
Qed.

(** ** A whole history *)
Lemma counter_calls : forall e, counter_margin E GE e -> forall w v, w <= 64 -> forall ops h, Forall2 (same_call T s0 e) ops h ->
  forall c z, ctr_holds (e_br E) w v z c ->
  exists c', foldM (counter_call T G) ops c = Ok c' /\
    ctr_holds (e_br E) w v (fold_left (fun z o => match o with Some b => z - Z.b2z b | None => Z.of_N v end)%Z h z) c'.
Proof.
  intros e (M1 & M2 & M3 & M4 & M5 & M6) w v HW ops h HF. destruct NN as (A1 & A2 & A3 & A4 & A5 & A6).
  induction HF as [|o x ops h Ho HF IH]; intros c z H.
  - cbn. eauto.
  - cbn [foldM fold_left]. destruct Ho as [t b Hb|]; cbn [counter_call].
    + destruct (minus_one_ok c _ _ w v z t b (e_br E + e_iks E + g_out GE + e)%Z H Hb) as (c' & EC & HC); try lia.
      rewrite EC. cbn [bind]. apply IH. exact HC.
    + destruct (reset_ok c) as (c' & EC & HC); [rewrite (ch_width _ _ _ _ _ H); auto|]. rewrite EC. cbn [bind].
      rewrite (ch_width _ _ _ _ _ H), (ch_init _ _ _ _ _ H) in HC. apply IH. eapply ctr_holds_le; [exact HC|lia].
Qed.
End Ctr.

(** ** The toy gates satisfy the contract *)
Theorem toy_gates_ok : forall n0 n1 s0 s1 e,
  gates_ok (toy n0 n1 s0 s1 e) (toy_gates n0 n1 s0 s1 e) s0 (fun c b => c = b) (toy_gate_noise e).
Proof.
  intros n0 n1 s0 s1 e.
  assert (P : forall t x, near (t_1o8 - 1) (tlwe_phase n0 s0 t) (msg_1o8 x) -> (tlwe_phase n0 s0 t mod two32 <? t_1o2)%Z = x).
  { intros t x [d [Hd H]]. rewrite (eqm_mod _ _ H). destruct x; unfold msg_1o8, t_1o8, t_1o2, two32 in *.
    - rewrite Z.mod_small by lia. lia.
    - rewrite <- (Z.mod_add _ 1), Z.mod_small by lia. lia. }
  split; cbn [t_n0 t_n1 trgsw toy toy_gates toy_gate_noise g_tol g_out g_cb hom_or hom_andny hom_not cb01].
  - intros a b x y Ha Hb. rewrite triv_tlwe_phase, (P _ _ Ha), (P _ _ Hb). apply near_plus.
  - intros a b x y Ha Hb. rewrite triv_tlwe_phase, (P _ _ Ha), (P _ _ Hb). apply near_plus.
  - intros a. rewrite triv_tlwe_phase. reflexivity.
  - intros t [H1 H2]. apply Z.ltb_lt. lia.
  - intros t [H1 H2]. apply Z.ltb_ge. lia.
Qed.
