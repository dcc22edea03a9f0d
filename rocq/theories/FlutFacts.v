(** OnlineDFARunner3 (FLUT): lemmas. *)
From Coq Require Import List Arith Bool NArith ZArith Lia.
From Coq Require Import ZifyBool ZifyNat ZifyN.
Import ListNotations.
From Verif Require Import Base BaseFacts GraphModel Spec GraphFacts GraphOps GraphMore TorusModel TfheSpec TorusFacts TfheFacts
  RunnerModel RunnerFacts LookupFacts RunnerSpec ReachFacts.

Lemma N_odd_of_nat : forall a, N.odd (N.of_nat a) = Nat.odd a.
Proof.
  intros a. apply eq_true_iff_eq. rewrite N.odd_spec, Nat.odd_spec. split.
  - intros [m H]. exists (N.to_nat m). lia.
  - intros [m H]. exists (N.of_nat m). lia.
Qed.
Lemma N_testbit_nat : forall n a, N.testbit (N.of_nat a) (N.of_nat n) = Nat.testbit a n.
Proof.
  induction n as [|n IH]; intros a.
  - cbn [N.of_nat]. rewrite N.bit0_odd, N_odd_of_nat. symmetry. apply Nat.bit0_odd.
  - rewrite Nat2N.inj_succ, N.testbit_succ_r_div2 by lia.
    rewrite <- Nat2N.inj_div2, IH. reflexivity.
Qed.
Lemma low_bits_val : forall k x, map (fun i => N.testbit (N.of_nat x) (N.of_nat i)) (seq 0 k) = val_bits k x.
Proof. intros. unfold val_bits. apply map_ext. intros i. apply N_testbit_nat. Qed.

(** ** memo_transition_ *)
Definition memo_ok (g : Graph) (d : nat) (m : list nat) : Prop :=
  forall x q, x < 2 ^ d -> q < size g -> nth_error m (x * size g + q) = Some (run g q (val_bits d x)).

Lemma concat_nth : forall {A} n (l : list (list A)), (forall x, In x l -> length x = n) -> forall i j, j < n ->
  nth_error (concat l) (i * n + j) = match nth_error l i with Some x => nth_error x j | None => None end.
Proof.
  intros A n. induction l as [|x l IH]; intros HL i j Hj.
  - cbn [concat]. destruct (i * n + j); destruct i; reflexivity.
  - cbn [concat]. destruct i as [|i]; cbn [nth_error].
    + rewrite Nat.mul_0_l, Nat.add_0_l. apply nth_error_app1. rewrite HL by (left; reflexivity). auto.
    + rewrite nth_error_app2 by (rewrite HL by (left; reflexivity); nia).
      rewrite HL by (left; reflexivity). replace (S i * n + j - n) with (i * n + j) by nia.
      apply IH; auto. intros y Hy. apply HL. right; auto.
Qed.

Lemma fold_append : forall {A B} (f : A -> list B) l acc, fold_left (fun m a => m ++ f a) l acc = acc ++ concat (map f l).
Proof.
  induction l as [|a l IH]; intros acc; cbn; [rewrite app_nil_r; reflexivity|]. rewrite IH, app_assoc. reflexivity.
Qed.

Lemma memo_at_depth_ok : forall g d, wf_graph g -> d < 31 -> exists m, memo_at_depth g d = Ok m /\ memo_ok g d m.
Proof.
  intros g d W Hd. unfold memo_at_depth. destruct (Nat.leb_spec 31 d); [lia|].
  rewrite foldM_pure with (g := fun memo input => memo ++ map (fun q => run g q (val_bits d input)) (all_states g)).
  - rewrite fold_append. eexists. split; [reflexivity|]. intros x q Hx Hq. cbn [app].
    rewrite concat_nth with (n := size g).
    + rewrite nth_error_map, nth_error_seq by auto. cbn [option_map].
      rewrite nth_error_map. unfold all_states. rewrite nth_error_seq by auto. reflexivity.
    + intros y Hy. apply in_map_iff in Hy as (z & <- & _). rewrite map_length. unfold all_states. apply seq_length.
    + auto.
  - intros memo input _.
    rewrite foldM_pure with (g := fun memo q => memo ++ [run g q (val_bits d input)]).
    + rewrite fold_append. do 2 f_equal. induction (all_states g) as [|q l IH]; cbn; [reflexivity|]. f_equal. exact IH.
    + intros m q Hq. apply all_states_In in Hq. rewrite transition64_low by lia. unfold low_bits. rewrite low_bits_val.
      rewrite run_from_run by auto. reflexivity.
Qed.

Lemma memo_all_ok : forall g n, wf_graph g -> n < 31 -> exists ms,
  foldM (fun memo depth => do m <- memo_at_depth g depth; Ok (memo ++ [m])) (seq 0 (S n)) [] = Ok ms /\
  forall d, d <= n -> exists m, nth_error ms d = Some m /\ memo_ok g d m.
Proof.
  intros g n W Hn.
  destruct (mapM_total (memo_at_depth g) (seq 0 (S n))) as [ms EM].
  { intros d Hd. apply in_seq in Hd. destruct (memo_at_depth_ok g d W ltac:(lia)) as (m & E & _). eauto. }
  assert (G : forall l acc bs, mapM (memo_at_depth g) l = Ok bs ->
     foldM (fun memo depth => do m <- memo_at_depth g depth; Ok (memo ++ [m])) l acc = Ok (acc ++ bs)).
  { induction l as [|d l IH]; intros acc bs H; cbn in *.
    - injection H as <-. rewrite app_nil_r. reflexivity.
    - destruct (memo_at_depth g d) as [m|]; [|discriminate]. cbn in *.
      destruct (mapM (memo_at_depth g) l) as [bs'|]; [|discriminate]. injection H as <-.
      rewrite IH with (bs := bs') by reflexivity. rewrite <- app_assoc. reflexivity. }
  exists ms. split; [exact (G _ [] _ EM)|].
  intros d Hd. destruct (memo_at_depth_ok g d W ltac:(lia)) as (m & E & O). exists m. split; [|exact O].
  destruct (mapM_nth _ _ _ d d EM) as (m' & E' & Hm'); [apply nth_error_seq; lia|]. congruence.
Qed.

(** ** next_live_states, st2idx *)
Lemma flut_next_live_ok : forall g m live k, wf_graph g -> memo_ok g k m -> (forall q, In q live -> q < size g) ->
  exists next, flut_next_live g m live k = Ok next /\ is_set next /\
    forall p, In p next <-> exists q w, In q live /\ length w = k /\ run g q w = p.
Proof.
  intros g m live k W HM HL. unfold flut_next_live.
  rewrite foldM_pure with (g := fun tmp x => sinsert_range tmp (map (fun q => run g q (val_bits k x)) live)).
  - eexists. split; [reflexivity|].
    assert (G : forall l acc, is_set acc -> is_set (fold_left (fun tmp x => sinsert_range tmp (map (fun q => run g q (val_bits k x)) live)) l acc) /\
       forall p, In p (fold_left (fun tmp x => sinsert_range tmp (map (fun q => run g q (val_bits k x)) live)) l acc) <->
         In p acc \/ exists x q, In x l /\ In q live /\ run g q (val_bits k x) = p).
    { induction l as [|x l IH]; intros acc HA; cbn [fold_left].
      - split; [auto|]. intros p. split; [auto|]. intros [H|(x & q & [] & _)]; auto.
      - destruct (IH (sinsert_range acc (map (fun q => run g q (val_bits k x)) live))) as [I1 I2];
          [apply is_set_sinsert_range, HA|]. split; [exact I1|].
        intros p. rewrite I2, sinsert_range_In, in_map_iff. split.
        + intros [[H|(q & H & Hq)]|(y & q & Hy & Hq & H)]; auto; right.
          * exists x, q. cbn; auto.
          * exists y, q. cbn; auto.
        + intros [H|(y & q & [<-|Hy] & Hq & H)]; auto.
          * left. right. exists q. auto.
          * right. exists y, q. auto. }
    destruct (G (seq 0 (2 ^ k)) [] I) as [G1 G2]. split; [exact G1|].
    intros p. rewrite G2. split.
    + intros [[]|(x & q & Hx & Hq & <-)]. exists q, (val_bits k x). split; [auto|]. split; [apply val_bits_length|auto].
    + intros (q & w & Hq & Lw & <-). right. exists (bits_val w), q. split; [|split; [auto|]].
      * apply in_seq. pose proof (bits_val_lt w). rewrite Lw in *. lia.
      * rewrite <- Lw, val_bits_val. reflexivity.
  - intros tmp x Hx. apply in_seq in Hx.
    rewrite foldM_pure with (g := fun tmp q => sinsert (run g q (val_bits k x)) tmp).
    + f_equal. unfold sinsert_range. generalize tmp. induction live as [|q live IH]; intros t; cbn; [reflexivity|].
      apply IH. intros p Hp. apply HL. right; auto.
    + intros t q Hq. unfold at_. rewrite HM by (auto; lia). reflexivity.
Qed.

Lemma is_set_nth_inj : forall l, NoDup l -> forall i j (q : nat), nth_error l i = Some q -> nth_error l j = Some q -> i = j.
Proof.
  intros l H i j q H1 H2. rewrite NoDup_nth_error in H. apply H; [|congruence].
  apply nth_error_Some. congruence.
Qed.

Lemma st2idx_ok : forall g next, NoDup next -> (forall q, In q next -> q < size g) ->
  exists v, flut_st2idx g next = Ok v /\ length v = size g /\
    forall i q, nth_error next i = Some q -> nth_error v q = Some i.
Proof.
  intros g next ND HL. unfold flut_st2idx.
  assert (G : forall n, n <= length next -> exists v,
     foldM (fun v i => do q <- at_ next i; set_at v q i) (seq 0 n) (repeat 0 (size g)) = Ok v /\ length v = size g /\
     forall i q, i < n -> nth_error next i = Some q -> nth_error v q = Some i).
  { induction n as [|n IH]; intros Hn.
    - exists (repeat 0 (size g)). cbn. split; [auto|]. split; [apply repeat_length|lia].
    - destruct IH as (v & E & LV & P); [lia|]. rewrite seq_S, foldM_app, E. cbn [bind foldM Nat.add].
      destruct (nth_error_some_lt next n) as [q Eq]; [lia|]. unfold at_. rewrite Eq. cbn [bind].
      rewrite set_at_lt by (rewrite LV; apply HL; eapply nth_error_In; eauto). cbn [bind].
      eexists. split; [reflexivity|]. split; [rewrite upd_length; auto|].
      intros i p Hi Hp. rewrite upd_nth, LV. destruct (Nat.eqb_spec q p) as [->|NE].
      + assert (i = n) as -> by (eapply is_set_nth_inj; eauto).
        replace (p <? size g) with true by (symmetry; apply Nat.ltb_lt, HL; eapply nth_error_In; eauto). reflexivity.
      + cbn [andb]. apply P; auto. assert (i <> n) by congruence. lia. }
  destruct (G (length next) (le_n _)) as (v & E & LV & P). exists v. split; [exact E|]. split; [exact LV|].
  intros i q H. apply P; auto. eapply nth_error_lt; eauto.
Qed.

(** ** Sums over lists *)
Fixpoint zsum {A} (f : A -> Z) (l : list A) : Z := match l with [] => 0%Z | a :: l' => (zsum f l' + f a)%Z end.
Lemma zsum_app : forall {A} (f : A -> Z) l l', zsum f (l ++ l') = (zsum f l' + zsum f l)%Z.
Proof. induction l as [|a l IH]; intros l'; cbn; [lia|]. rewrite IH. lia. Qed.
Lemma zsum_zero : forall {A} (f : A -> Z) l, (forall a, In a l -> f a = 0%Z) -> zsum f l = 0%Z.
Proof. induction l as [|a l IH]; intros H; cbn; [reflexivity|]. rewrite H by (left; reflexivity). rewrite IH; [reflexivity|]. intros b Hb. apply H. right; auto. Qed.
Lemma zsum_single : forall {A} (f : A -> Z) l x, NoDup l -> In x l -> (forall a, In a l -> a <> x -> f a = 0%Z) -> zsum f l = f x.
Proof.
  induction l as [|a l IH]; intros x ND HI HZ; [destruct HI|]. inversion ND; subst. cbn. destruct HI as [->|HI].
  - rewrite zsum_zero; [apply Z.add_0_l|]. intros b Hb. apply HZ; [right; auto|]. intros ->. contradiction.
  - rewrite (IH x) by (auto; intros b Hb; apply HZ; right; auto). rewrite (HZ a); [apply Z.add_0_r|left; auto|]. intros ->. contradiction.
Qed.

(** A fold of noisy additions *)
Lemma noisy_fold : forall {A} (f : list Z * list Z -> A -> res (list Z * list Z)) n s1 (ideal : A -> nat -> Z) e l acc,
  (forall a acc, In a l -> exists acc', f acc a = Ok acc' /\ forall p, p < n ->
      near e (trlwe_phase n s1 acc' p - trlwe_phase n s1 acc p) (ideal a p)) ->
  (0 <= e)%Z ->
  exists acc', foldM f l acc = Ok acc' /\ forall p, p < n ->
    near (Z.of_nat (length l) * e) (trlwe_phase n s1 acc' p - trlwe_phase n s1 acc p) (zsum (fun a => ideal a p) l).
Proof.
  induction l as [|a l IH]; intros acc H He.
  - exists acc. split; [reflexivity|]. intros p Hp. apply near_eqm; [cbn; lia|]. apply eqm_refl'. cbn. lia.
  - cbn [foldM]. destruct (H a acc) as (acc1 & E1 & P1); [left; reflexivity|]. rewrite E1. cbn [bind].
    destruct (IH acc1) as (acc2 & E2 & P2); [intros b acc' Hb; apply H; right; auto|auto|].
    exists acc2. split; [exact E2|]. intros p Hp. cbn [zsum length].
    eapply near_le; [eapply near_l; [|eapply near_add; [apply P2, Hp|apply P1, Hp]]|].
    + apply eqm_refl'. lia.
    + nia.
Qed.

(** ** Rotations *)
Lemma rot_ideal : forall n, 0 < n -> forall f e m K p, (forall i, i < n -> near e (f i) (if i =? 0 then m else 0%Z)) -> K < n -> p < n ->
  near e (ext n f (Z.of_nat p - Z.of_nat K)) (if p =? K then m else 0%Z).
Proof.
  intros n Hn f e m K p H HK Hp. destruct (Nat.le_gt_cases K p).
  - rewrite (ext_low n) by lia. replace (Z.to_nat (Z.of_nat p - Z.of_nat K)) with (p - K) by lia.
    specialize (H (p - K) ltac:(lia)). destruct (Nat.eqb_spec p K), (Nat.eqb_spec (p - K) 0); try lia; exact H.
  - replace (Z.of_nat p - Z.of_nat K)%Z with ((Z.of_nat (p + n - K)) - Z.of_nat n)%Z by lia.
    rewrite (ext_sub_n n Hn), (ext_low n) by lia. rewrite Nat2Z.id.
    specialize (H (p + n - K) ltac:(lia)). destruct (Nat.eqb_spec p K), (Nat.eqb_spec (p + n - K) 0); try lia.
    change 0%Z with (- 0)%Z. apply near_opp. exact H.
Qed.

Lemma split_bits : forall first second i2 i1, i1 < 2 ^ first ->
  val_bits (first + second) (Nat.lor (Nat.shiftl i2 first) i1) = val_bits first i1 ++ val_bits second i2.
Proof.
  intros first second i2 i1 H. unfold val_bits. rewrite seq_app, map_app. f_equal.
  - apply map_ext_in. intros j Hj. apply in_seq in Hj. rewrite Nat.lor_spec, Nat.shiftl_spec_low by lia. reflexivity.
  - apply nth_ext with (d := false) (d' := false); [rewrite !map_length, !seq_length; reflexivity|].
    intros j Hj. rewrite map_length, seq_length in Hj.
    rewrite nth_indep with (d' := (fun i => Nat.testbit (Nat.lor (Nat.shiftl i2 first) i1) i) 0) by (rewrite map_length, seq_length; auto).
    rewrite map_nth, seq_nth by lia.
    rewrite nth_indep with (d' := (fun i => Nat.testbit i2 i) 0) by (rewrite map_length, seq_length; auto).
    rewrite map_nth, seq_nth by lia.
    rewrite Nat.lor_spec, Nat.shiftl_spec_high by lia. replace (0 + first + j - first) with j by lia.
    destruct (Nat.testbit i1 (0 + first + j)) eqn:EB; [|apply orb_false_r].
    exfalso. apply Nat.testbit_true in EB. rewrite Nat.div_small in EB; [cbn in EB; discriminate|].
    eapply Nat.lt_le_trans; [exact H|]. apply Nat.pow_le_mono_r; lia.
Qed.

Lemma testbit_above : forall a k j, a < 2 ^ k -> k <= j -> Nat.testbit a j = false.
Proof.
  intros a k j H L. destruct (Nat.testbit a j) eqn:EB; [|reflexivity].
  apply Nat.testbit_true in EB. rewrite Nat.div_small in EB; [cbn in EB; discriminate|].
  eapply Nat.lt_le_trans; [exact H|]. apply Nat.pow_le_mono_r; lia.
Qed.
Lemma lor_lt : forall a b k, a < 2 ^ k -> b < 2 ^ k -> Nat.lor a b < 2 ^ k.
Proof.
  intros a b k Ha Hb. assert (EQ : Nat.lor a b mod 2 ^ k = Nat.lor a b).
  - apply Nat.bits_inj. intros j. destruct (Nat.lt_ge_cases j k).
    + apply Nat.mod_pow2_bits_low; auto.
    + rewrite Nat.mod_pow2_bits_high, Nat.lor_spec by auto. rewrite !(testbit_above _ k j) by auto. reflexivity.
  - rewrite <- EQ. apply Nat.mod_upper_bound. pose proof (pow2_pos k). lia.
Qed.
Lemma val_bits_val' : forall k v, length v = k -> val_bits k (bits_val v) = v.
Proof. intros k v <-. apply val_bits_val. Qed.
Lemma app_inj_len : forall {A} (a b c d : list A), a ++ b = c ++ d -> length a = length c -> a = c /\ b = d.
Proof.
  induction a as [|x a IH]; intros b [|y c] d H L; cbn in *; try discriminate; [auto|].
  injection H as <- H. destruct (IH b c d H) as [-> ->]; [congruence|auto].
Qed.

(** ** Correctness *)
(** A depth with 2^depth <= N is safe for every specification. *)
Lemma depth_fits N depth q g : 2 ^ depth <= N -> table_fits N depth q g.
Proof.
  intros H. split; [pose proof (Nat.pow_nonzero 2 depth); lia|]. intros n nn _ H1. eapply Nat.le_trans; [|exact H].
  destruct (Nat.eq_dec nn 0) as [->|H0]; [lia|].
  assert (L : Nat.log2_up nn <= depth) by (apply Nat.log2_up_le_pow2; lia).
  assert (P : nn <= 2 ^ Nat.log2_up nn) by (apply Nat.log2_up_le_pow2; lia).
  replace (2 ^ depth) with (2 ^ Nat.log2_up nn * 2 ^ (depth - Nat.log2_up nn)) by (rewrite <- Nat.pow_add_r; f_equal; lia).
  apply Nat.mul_le_mono; [exact P|]. apply Nat.pow_le_mono_r; lia.
Qed.

Section Flut.
Context (T : tfhe) (s0 s1 : list Z) (bit : trgsw T -> bool -> Prop) (E : noise).
Hypothesis OK : tfhe_ok T s0 s1 bit E.
Hypothesis NN : noise_nonneg E.
Notation phR := (trlwe_phase (t_n1 T) s1).
Notation N1 := (t_n1 T).

Lemma N1_pos : 0 < N1. Proof. apply (ok_n1 _ _ _ _ _ OK). Qed.

Lemma zero_phase : forall p, p < N1 -> phR (trivial_TRLWELvl1_zero N1) p = 0%Z.
Proof. intros p Hp. unfold trivial_TRLWELvl1_zero. rewrite trivial_phase, nth_repeat0 by auto using N1_pos. reflexivity. Qed.

(** The ideal content of the first table: 1/2 at the position of the target of [st], for the
    current state, for every value of the remaining bits. *)
Definition spot (p K : nat) (b : bool) : Z := if p =? K then msg_0_1o2 b else 0%Z.

Lemma entry_ok : forall g memo live weight idx nn first second e cur input1,
  wf_graph g -> memo_ok g (first + second) memo -> input1 < 2 ^ first -> (0 <= e)%Z ->
  (forall q, In q live -> q < size g) ->
  (forall q, In q live -> exists w, nth_error weight q = Some w /\
     forall i, i < N1 -> near e (phR w i) (if i =? 0 then msg_0_1o2 (q =? cur) else 0%Z)) ->
  (forall q w, In q live -> length w = first + second -> exists i, nth_error idx (run g q w) = Some i /\ i < nn) ->
  2 ^ second * nn <= N1 ->
  exists c, flut_entry T g memo live weight idx nn first second input1 = Ok c /\
    forall p, p < N1 -> near (Z.of_nat (length live) * (Z.of_nat (2 ^ second) * e)) (phR c p)
      (zsum (fun q => zsum (fun i2 =>
          spot p (i2 * nn + nth (run g q (val_bits first input1 ++ val_bits second i2)) idx 0) (q =? cur))
        (seq 0 (2 ^ second))) live).
Proof.
  intros g memo live weight idx nn first second e cur input1 W HM HI He HL HW HX HN.
  unfold flut_entry.
  destruct (noisy_fold (fun acc q => foldM (fun acc input2 =>
      do st_to <- at_ memo (Nat.lor (Nat.shiftl input2 first) input1 * size g + q);
      do w <- at_ weight q;
      do idx <- at_ idx st_to;
      do c <- TRLWELvl1_mult_X_k N1 w (input2 * nn + idx);
      Ok (TRLWELvl1_add N1 acc c)) (seq 0 (2 ^ second)) acc) N1 s1
    (fun q p => zsum (fun i2 =>
          spot p (i2 * nn + nth (run g q (val_bits first input1 ++ val_bits second i2)) idx 0) (q =? cur))
        (seq 0 (2 ^ second))) (Z.of_nat (2 ^ second) * e)%Z live (trivial_TRLWELvl1_zero N1)) as (c & EC & PC).
  - intros q acc Hq.
    destruct (noisy_fold (fun acc input2 =>
      do st_to <- at_ memo (Nat.lor (Nat.shiftl input2 first) input1 * size g + q);
      do w <- at_ weight q;
      do idx <- at_ idx st_to;
      do c <- TRLWELvl1_mult_X_k N1 w (input2 * nn + idx);
      Ok (TRLWELvl1_add N1 acc c)) N1 s1
      (fun i2 p => spot p (i2 * nn + nth (run g q (val_bits first input1 ++ val_bits second i2)) idx 0) (q =? cur))
      e (seq 0 (2 ^ second)) acc) as (c & EC & PC); [|exact He|].
    + intros i2 a Hi2. apply in_seq in Hi2.
      assert (LX : Nat.lor (Nat.shiftl i2 first) input1 < 2 ^ (first + second)).
      { apply lor_lt.
        - rewrite Nat.shiftl_mul_pow2, Nat.pow_add_r, Nat.mul_comm. pose proof (pow2_pos first). nia.
        - eapply Nat.lt_le_trans; [exact HI|]. apply Nat.pow_le_mono_r; lia. }
      unfold at_ at 1. rewrite HM by (auto; apply HL, Hq). cbn [bind].
      rewrite split_bits by auto.
      destruct (HW q Hq) as (w & Ew & Nw). unfold at_ at 1. rewrite Ew. cbn [bind].
      destruct (HX q (val_bits first input1 ++ val_bits second i2) Hq) as (i & Ei & Li);
        [rewrite app_length, !val_bits_length; reflexivity|].
      unfold at_ at 1. rewrite Ei. cbn [bind].
      assert (LK : i2 * nn + i < N1) by nia.
      destruct (proj2 (mult_X_k_defined N1 w (i2 * nn + i))) as [c EC]; [lia|]. rewrite EC. cbn [bind].
      eexists. split; [reflexivity|]. intros p Hp.
      rewrite (nth_error_nth _ _ 0 Ei). unfold spot.
      eapply near_l; [|apply (rot_ideal N1 N1_pos (phR w) e (msg_0_1o2 (q =? cur)) (i2 * nn + i) p Nw LK Hp)].
      rewrite (TRLWE_add_phase N1 N1_pos s1 a c p Hp), (TRLWE_mult_X_k_phase N1 N1_pos s1 w _ c EC p Hp).
      apply eqm_refl'. lia.
    + exists c. split; [exact EC|]. intros p Hp. rewrite seq_length in PC. apply PC, Hp.
  - nia.
  - exists c. split; [exact EC|]. intros p Hp. specialize (PC p Hp). rewrite zero_phase in PC by auto.
    rewrite Z.sub_0_r in PC. exact PC.
Qed.

Context (g : Graph) (Wg : wf_graph g) (max q freq : nat).
Hypothesis Hq : q < 31.
Hypothesis Hfreq : 0 < freq.
Hypothesis Hmax : max < 31.
Hypothesis HmaxN : table_fits N1 max q g.
Notation F := (size g * 2 ^ (q / 2)).
Hypothesis HM : flut_margin F q freq E.
Notation init := (initial_state g).
Local Notation reach_set := (ReachFacts.reach_set g).
Local Notation reach_lt := (ReachFacts.reach_lt g Wg).
Local Notation reach_step := (ReachFacts.reach_step g).
Local Notation reach_len := (ReachFacts.reach_len g Wg).
Local Notation reach_exists := (ReachFacts.reach_exists g).
Local Notation reach_width := (ReachFacts.reach_width g Wg).
Local Notation width_unique := (ReachFacts.width_unique g).


Definition weights_ok (u : list bool) (live : list nat) (e : Z) (weight : list trlwe) : Prop :=
  forall p, In p live -> exists w, nth_error weight p = Some w /\
    forall i, i < N1 -> near e (phR w i) (if i =? 0 then msg_0_1o2 (p =? run g init u) else 0%Z).

Record flut_inv (u v : list bool) (s : flut T) : Prop := mkFInv {
  fi_graph : f_graph T s = g;
  fi_max : f_max T s = max;
  fi_q : f_qsize T s = q;
  fi_freq : f_freq T s = freq;
  fi_len : length (f_weight T s) = size g;
  fi_live : reach_set (length u) (f_live T s);
  fi_memo : forall d, d <= q -> exists m, nth_error (f_memo T s) d = Some m /\ memo_ok g d m;
  fi_queue : Forall2 bit (f_queue T s) v;
  fi_weight : weights_ok u (f_live T s) (flut_noise F q E (f_neval T s mod freq)) (f_weight T s) }.

Lemma F_pos : 0 < F.
Proof. pose proof (init_lt g Wg). pose proof (pow2_pos (q / 2)). nia. Qed.
Lemma flut_noise_nonneg : forall j, (0 <= flut_noise F q E j)%Z.
Proof. destruct NN as (A1 & A2 & A3 & A4 & A5 & A6). induction j; cbn [flut_noise]; [lia|]. pose proof F_pos. nia. Qed.
Lemma flut_noise_mono : forall i j, i <= j -> (flut_noise F q E i <= flut_noise F q E j)%Z.
Proof.
  induction 1 as [|j H IH]; [lia|]. cbn [flut_noise]. pose proof (flut_noise_nonneg j). pose proof F_pos.
  destruct NN as (A1 & A2 & A3 & A4 & A5 & A6). nia.
Qed.
Lemma flut_noise_step : forall n, (Z.of_nat F * flut_noise F q E (n mod freq) + Z.of_nat q * e_cmux E + e_iks E + e_round E < t_1o4)%Z.
Proof.
  intros n. pose proof (Nat.mod_upper_bound n freq ltac:(lia)) as B.
  pose proof (flut_noise_mono (n mod freq) (freq - 1) ltac:(lia)). unfold flut_margin in HM. pose proof F_pos. nia.
Qed.



(** The table that the first look-up selects *)
Lemma first_value : forall live nn idx first second cur v1 j i, NoDup live -> In cur live -> j < nn -> i < 2 ^ second ->
  (forall w, length w = first + second -> exists i, nth_error idx (run g cur w) = Some i /\ i < nn) -> length v1 = first ->
  zsum (fun p => zsum (fun i2 =>
      spot (i * nn + j) (i2 * nn + nth (run g p (v1 ++ val_bits second i2)) idx 0) (p =? cur)) (seq 0 (2 ^ second))) live
  = msg_0_1o2 (j =? nth (run g cur (v1 ++ val_bits second i)) idx 0).
Proof.
  intros live nn idx first second cur v1 j i ND HC Hj Hi HX L1.
  rewrite zsum_single with (x := cur); auto.
  - rewrite zsum_single with (x := i); [|apply seq_NoDup|apply in_seq; lia|].
    + unfold spot. rewrite Nat.eqb_refl.
      destruct (Nat.eqb_spec j (nth (run g cur (v1 ++ val_bits second i)) idx 0)) as [->|NE].
      * rewrite Nat.eqb_refl. reflexivity.
      * destruct (Nat.eqb_spec (i * nn + j) (i * nn + nth (run g cur (v1 ++ val_bits second i)) idx 0)); [lia|reflexivity].
    + intros i2 Hi2 NE. apply in_seq in Hi2. unfold spot.
      destruct (HX (v1 ++ val_bits second i2)) as (k & Ek & Lk); [rewrite app_length, val_bits_length; lia|].
      rewrite (nth_error_nth _ _ 0 Ek). destruct (Nat.eqb_spec (i * nn + j) (i2 * nn + k)); [nia|reflexivity].
  - intros p Hp NE. apply zsum_zero. intros i2 _. unfold spot.
    destruct (Nat.eqb_spec p cur); [contradiction|]. destruct (_ =? _); reflexivity.
Qed.

Lemma second_bound : forall n k nn, k <= q -> width g n nn -> nn < 2 ^ max ->
  2 ^ Nat.min (k / 2) (max - Nat.log2_up nn) * nn <= N1.
Proof.
  intros n k nn Hk H0 H1. eapply Nat.le_trans; [|exact (proj2 HmaxN n nn H0 H1)]. rewrite Nat.mul_comm.
  apply Nat.mul_le_mono_l, Nat.pow_le_mono_r; [lia|]. apply Nat.min_le_compat_r, Nat.div_le_mono; lia.
Qed.

Definition flut_outcome (refuse : bool) (Q : flut T -> Prop) (r : res (flut T)) : Prop :=
  match r with Ok s' => refuse = false /\ Q s' | Fail f => refuse = true /\ f = FExit end.

Lemma flut_eval_ok : forall u v s, flut_inv u v s -> length v <= q -> v <> [] ->
  exists next, reach_set (length u + length v) next /\
    flut_outcome (2 ^ max <=? length next) (fun s' => flut_inv (u ++ v) [] s' /\ f_neval T s' = S (f_neval T s))
      (flut_eval_queued T s).
Proof.
  intros u v s HI Lv NEv. destruct HI as [Eg Em Eq Ef LW HL HMm HQu HWt].
  pose proof N1_pos as Hn. destruct NN as (A1 & A2 & A3 & A4 & A5 & A6).
  unfold flut_eval_queued. cbv zeta. rewrite Eg, Em, Eq, Ef.
  pose proof (Forall2_len _ _ _ HQu) as LQ. rewrite LQ. set (k := length v) in *.
  assert (K0 : 0 < k) by (subst k; destruct v; [congruence|cbn; lia]).
  destruct (Nat.eqb_spec k 0); [lia|]. destruct (Nat.leb_spec 31 k); [lia|].
  destruct (HMm k Lv) as (memo & Em1 & Hmemo). unfold at_ at 1. rewrite Em1. cbn [bind].
  destruct (flut_next_live_ok g memo (f_live T s) k Wg Hmemo (fun p => reach_lt _ _ p HL)) as (next & EN & IS & HNx).
  rewrite EN. cbn [bind].
  assert (HR : reach_set (length u + k) next) by (eapply reach_step; eauto).
  exists next. split; [exact HR|].
  pose proof (is_set_NoDup _ IS) as ND.
  destruct (st2idx_ok g next ND (fun p => reach_lt _ _ p HR)) as (idx & EI & LI & HIx). rewrite EI. cbn [bind].
  destruct (Nat.leb_spec 32 max); [lia|]. destruct (Nat.eqb_spec max 31); [lia|].
  destruct (Nat.leb_spec (2 ^ max) (length next)) as [RF|RF]; [split; reflexivity|].
  set (nn := length next) in *. set (second := Nat.min (k / 2) (max - Nat.log2_up nn)) in *.
  assert (S2 : second <= k / 2) by (subst second; lia).
  assert (KH : k / 2 <= k) by (apply Nat.div_le_upper_bound; lia).
  set (first := k - second) in *. assert (FS : first + second = k) by lia.
  rewrite FS, Nat.eqb_refl. cbn [assert_].
  set (cur := run g init u).
  assert (HC : In cur (f_live T s)) by (apply HL; exists u; auto).
  assert (HX : forall p w, In p (f_live T s) -> length w = first + second -> exists i, nth_error idx (run g p w) = Some i /\ i < nn).
  { intros p w Hp Lw. assert (In (run g p w) next) as Hn' by (apply HNx; exists p, w; auto with zarith).
    apply In_nth_error in Hn' as [i Ei]. exists i. split; [apply HIx, Ei|]. eapply nth_error_lt; eauto. }
  assert (N0 : 0 < nn).
  { destruct (HX cur v HC ltac:(lia)) as (i & _ & Hi). lia. }
  pose proof (second_bound (length u + k) k nn Lv (reach_width _ _ HR) RF) as SB. fold second in SB.
  set (e := flut_noise F q E (f_neval T s mod freq)) in *.
  assert (He : (0 <= e)%Z) by apply flut_noise_nonneg.
  set (e1 := (Z.of_nat (length (f_live T s)) * (Z.of_nat (2 ^ second) * e))%Z).
  assert (ENT : forall input1, input1 < 2 ^ first -> exists c,
     flut_entry T g memo (f_live T s) (f_weight T s) idx nn first second input1 = Ok c /\
     forall p, p < N1 -> near e1 (phR c p) (zsum (fun r => zsum (fun i2 =>
          spot p (i2 * nn + nth (run g r (val_bits first input1 ++ val_bits second i2)) idx 0) (r =? cur))
        (seq 0 (2 ^ second))) (f_live T s))).
  { intros input1 H1. apply entry_ok; auto. - rewrite FS; auto. - intros p; apply (reach_lt _ _ _ HL). }
  destruct (par_for_ok (flut_entry T g memo (f_live T s) (f_weight T s) idx nn first second) (seq 0 (2 ^ first))
             (repeat (trivial_TRLWELvl1_zero N1) (2 ^ first)) (seq_NoDup _ _)) as (table & ET & LT & PT & _).
  { intros p Hp. apply in_seq in Hp. rewrite repeat_length. lia. }
  { intros p Hp. apply in_seq in Hp. destruct (ENT p ltac:(lia)) as (c & -> & _). eauto. }
  rewrite ET. cbn [bind]. rewrite repeat_length in LT.
  (* first look-up *)
  rewrite <- (firstn_skipn first (f_queue T s)), <- (firstn_skipn first v) in HQu.
  assert (LV1 : length (firstn first v) = first) by (rewrite firstn_length; fold k; lia).
  assert (LV2 : length (skipn first v) = second) by (rewrite skipn_length; fold k; lia).
  assert (LQ1 : length (firstn first (f_queue T s)) = first) by (rewrite firstn_length; lia).
  assert (LQ2 : length (skipn first (f_queue T s)) = second) by (rewrite skipn_length; lia).
  apply Forall2_app_inv_l in HQu as (x1 & x2 & F1 & F2 & EX).
  assert (EX1 : x1 = firstn first v /\ x2 = skipn first v).
  { pose proof (Forall2_len _ _ _ F1) as L1. apply app_inj_len in EX; [|lia]. intuition. }
  destruct EX1 as [-> ->].
  destruct (lookup_ok T s0 s1 bit E OK NN _ _ table [] F1 ltac:(lia)) as (table1 & ws1 & EL1 & c1 & t0 & Ec1 & Et0 & P1);
    [rewrite LQ1; exact LT|].
  rewrite EL1. cbn [bind]. rewrite LQ1 in P1.
  pose proof (pow2_pos second) as PS.
  assert (LR : length (resize table1 (2 ^ second) (trivial_TRLWELvl1_zero N1)) = 2 ^ second) by apply resize_length.
  assert (ER0 : nth_error (resize table1 (2 ^ second) (trivial_TRLWELvl1_zero N1)) 0 = Some t0).
  { rewrite resize_nth by lia. replace (0 <? length table1) with true; [exact Et0|].
    symmetry. apply Nat.ltb_lt. eapply nth_error_lt; eauto. }
  unfold at_ at 1. rewrite ER0. cbn [bind].
  (* what t0 holds *)
  set (v1 := firstn first v) in *. set (v2 := skipn first v) in *.
  assert (HT0 : forall i j, i < 2 ^ second -> j < nn -> near (Z.of_nat first * e_cmux E + e1) (phR t0 (i * nn + j))
      (msg_0_1o2 (j =? nth (run g cur (v1 ++ val_bits second i)) idx 0))).
  { intros i j Hi Hj. assert (i * nn + j < N1) by nia.
    pose proof (bits_val_lt v1) as BV. rewrite LV1 in BV.
    destruct (PT (bits_val v1)) as (c & Ec & Hc); [apply in_seq; lia|].
    rewrite Ec1 in Hc. injection Hc as <-.
    destruct (ENT (bits_val v1) BV) as (c' & Ec' & Pc'). rewrite Ec in Ec'. injection Ec' as <-.
    eapply near_trans; [apply P1; auto|]. specialize (Pc' (i * nn + j) ltac:(auto)).
    rewrite (val_bits_val' first v1 LV1) in Pc'.
    rewrite (first_value (f_live T s) nn idx first second cur v1 j i) in Pc'; auto.
    apply is_set_NoDup, HL. }
  destruct (par_for_ok (flut_rotate T t0 nn) (seq 1 (2 ^ second - 1))
     (resize table1 (2 ^ second) (trivial_TRLWELvl1_zero N1)) (seq_NoDup _ _)) as (table2 & ET2 & LT2 & PT2 & QT2).
  { intros p Hp. apply in_seq in Hp. rewrite LR. lia. }
  { intros p Hp. apply in_seq in Hp. unfold flut_rotate. destruct (Nat.ltb_spec (2 * N1) (p * nn)); [nia|].
    apply mult_X_k_defined. lia. }
  rewrite ET2. cbn [bind]. rewrite LR in LT2.
  assert (HT2 : forall i, i < 2 ^ second -> exists c, nth_error table2 i = Some c /\ forall j, j < nn ->
      near (Z.of_nat first * e_cmux E + e1) (phR c j) (msg_0_1o2 (j =? nth (run g cur (v1 ++ val_bits second i)) idx 0))).
  { intros i Hi. destruct i as [|i'].
    - exists t0. rewrite QT2 by (rewrite in_seq; lia). split; [exact ER0|]. intros j Hj.
      specialize (HT0 0 j Hi Hj). exact HT0.
    - set (i := S i') in *. destruct (PT2 i) as (c & Ec & Hc); [apply in_seq; subst i; lia|].
      exists c. split; [exact Hc|]. intros j Hj. assert (i * nn + j < N1) by nia.
      unfold flut_rotate in Ec. destruct (Nat.ltb_spec (2 * N1) (i * nn)); [discriminate|].
      eapply near_l; [|apply (HT0 i j Hi Hj)].
      rewrite (TRLWE_mult_X_k_phase N1 Hn s1 t0 _ c Ec j ltac:(nia)).
      apply eqm_refl'. rewrite Nat2Z.inj_sub by lia.
      replace (Z.of_nat j - (Z.of_nat (2 * N1) - Z.of_nat (i * nn)))%Z with (Z.of_nat (i * nn + j) - Z.of_nat N1 - Z.of_nat N1)%Z by lia.
      rewrite !(ext_sub_n N1 Hn), (ext_low N1) by lia. rewrite Nat2Z.id. lia. }
  destruct (lookup_ok T s0 s1 bit E OK NN _ _ table2 ws1 F2 ltac:(lia)) as (table3 & ws3 & EL3 & c3 & nt & Ec3 & Ent & P3);
    [rewrite LQ2; exact LT2|].
  rewrite EL3. cbn [bind]. unfold at_ at 1. rewrite Ent. cbn [bind]. rewrite LQ2 in P3.
  destruct (Nat.eqb_spec freq 0); [lia|].
  (* what next_trlwe holds *)
  set (e2 := (Z.of_nat F * e + Z.of_nat q * e_cmux E)%Z).
  assert (HNT : forall j, j < nn -> near e2 (phR nt j) (msg_0_1o2 (j =? nth (run g init (u ++ v)) idx 0))).
  { intros j Hj. assert (j < N1) by nia.
    pose proof (bits_val_lt v2) as BV. rewrite LV2 in BV.
    destruct (HT2 (bits_val v2) BV) as (c & Ec & Pc). rewrite Ec3 in Ec. injection Ec as <-.
    specialize (Pc j Hj). rewrite (val_bits_val' second v2 LV2) in Pc.
    subst v1 v2. rewrite firstn_skipn in Pc. subst cur. rewrite <- run_app in Pc.
    eapply near_le; [eapply near_trans; [apply P3; auto|exact Pc]|]. subst e2 e1.
    assert (length (f_live T s) * 2 ^ second <= F).
    { apply Nat.mul_le_mono; [apply (reach_len _ _ HL)|]. apply Nat.pow_le_mono_r; [lia|].
      etransitivity; [exact S2|]. apply Nat.div_le_mono; lia. }
    assert (Z.of_nat (length (f_live T s)) * (Z.of_nat (2 ^ second) * e) <= Z.of_nat F * e)%Z by nia.
    nia. }
  set (fresh := S (f_neval T s) mod freq =? 0).
  set (body := fun st => do ix <- at_ idx st; Ok (flut_refresh T fresh nt ix)).
  assert (HB : forall p, In p next -> exists i, i < nn /\ nth_error idx p = Some i /\ body p = Ok (flut_refresh T fresh nt i)).
  { intros p Hp. apply In_nth_error in Hp as [i Ei]. exists i. split; [eapply nth_error_lt; eauto|].
    pose proof (HIx _ _ Ei) as Ex. split; [auto|]. unfold body, at_. rewrite Ex. reflexivity. }
  destruct (par_for_ok body next (f_weight T s) ND) as (weight & EW & LW' & PW & _).
  { intros p Hp. rewrite LW. apply (reach_lt _ _ _ HR Hp). }
  { intros p Hp. destruct (HB p Hp) as (i & _ & _ & ->). eauto. }
  rewrite EW. cbn [bind flut_outcome]. split; [reflexivity|]. split; [|reflexivity].
  constructor; cbn [f_graph f_weight f_queue f_max f_qsize f_live f_memo f_neval f_freq f_first f_second]; auto.
  - congruence.
  - rewrite app_length. exact HR.
  - intros p Hp. destruct (HB p Hp) as (i & Li & Ei & EB). destruct (PW p Hp) as (w & Ew & Hw).
    rewrite EB in Ew. injection Ew as <-. eexists. split; [exact Hw|].
    assert (CUR : (i =? nth (run g init (u ++ v)) idx 0) = (p =? run g init (u ++ v))).
    { destruct (HX cur v HC ltac:(lia)) as (j & Ej & Lj). subst cur. rewrite <- run_app in Ej.
      rewrite (nth_error_nth _ _ 0 Ej).
      destruct (Nat.eqb_spec p (run g init (u ++ v))) as [->|NE].
      - apply Nat.eqb_eq. congruence.
      - apply Nat.eqb_neq. intros ->. apply NE.
        apply In_nth_error in Hp as [i1 E1].
        assert (In (run g init (u ++ v)) next) as Hn' by (apply HR; exists (u ++ v); rewrite app_length; auto).
        apply In_nth_error in Hn' as [i2 E2].
        pose proof (HIx _ _ E1). pose proof (HIx _ _ E2). congruence. }
    specialize (HNT i Li). rewrite CUR in HNT. assert (LiN : i < N1) by nia.
    set (b := p =? run g init (u ++ v)) in *.
    pose proof (flut_noise_step (f_neval T s)) as MS. fold e in MS. fold e2 in MS.
    assert (TL : near (if fresh then e_br E else e2) (tlwe_phase N1 s1 (if fresh
        then sei T (BS_TLWE_0_1o2_to_TRLWE_0_1o2 T (iks T (sei T nt i))) 0 else sei T nt i)) (msg_0_1o2 b)).
    { destruct fresh.
      - eapply near_l; [apply (ok_sei _ _ _ _ _ OK); exact Hn|].
        apply (bs_half_half T s0 s1 bit E OK _ (e_iks E + e2)%Z b A3); [apply (ok_iks_len _ _ _ _ _ OK)| |lia].
        eapply near_trans; [apply (ok_iks _ _ _ _ _ OK)|].
        eapply near_l; [apply (ok_sei _ _ _ _ _ OK); exact LiN|exact HNT].
      - eapply near_l; [apply (ok_sei _ _ _ _ _ OK); exact LiN|exact HNT]. }
    assert (BND : ((if fresh then e_br E else e2) + e_pk E <= flut_noise F q E (S (f_neval T s) mod freq))%Z).
    { subst fresh. destruct (Nat.eqb_spec (S (f_neval T s) mod freq) 0) as [Z0|Z0].
      - rewrite Z0. cbn [flut_noise]. lia.
      - rewrite mod_succ_ne0 by auto. cbn [flut_noise]. subst e2 e. lia. }
    intros r Hr. unfold flut_refresh. cbv zeta.
    destruct (Nat.eqb_spec r 0) as [->|NR].
    + eapply near_le; [eapply near_trans; [apply (ok_pk_0 _ _ _ _ _ OK)|exact TL]|lia].
    + eapply near_le; [apply (ok_pk_i _ _ _ _ _ OK); lia|].
      assert (0 <= (if fresh then e_br E else e2))%Z; [|lia]. destruct fresh; [lia|]. subst e2. pose proof F_pos. nia.
Qed.


Lemma flut_new_inv : exists s, flut_new T g max q freq false = Ok s /\ flut_inv [] [] s.
Proof.
  unfold flut_new. pose proof (init_lt g Wg) as Hi. pose proof N1_pos as Hn.
  set (zero := trivial_TRLWELvl1_zero N1).
  assert (EW : foldM (fun w st => if st =? init then set_at w st (trivial_TRLWELvl1_1over2 N1) else Ok w)
                     (all_states g) (repeat zero (size g)) = Ok (upd init (trivial_TRLWELvl1_1over2 N1) (repeat zero (size g)))).
  { assert (G : forall l w, NoDup l -> length w = size g ->
        foldM (fun w st => if st =? init then set_at w st (trivial_TRLWELvl1_1over2 N1) else Ok w) l w =
        Ok (if smem init l then upd init (trivial_TRLWELvl1_1over2 N1) w else w)).
    { induction l as [|x l IH]; intros w ND Lw; [reflexivity|]. inversion ND as [|? ? NI ND']; subst. cbn [foldM smem existsb].
      destruct (Nat.eqb_spec x init) as [->|NE].
      - rewrite set_at_lt by lia. cbn [bind]. rewrite IH by (auto; rewrite upd_length; auto).
        rewrite (proj2 (smem_false init l)) by auto. unfold smem. cbn [existsb]. rewrite Nat.eqb_refl. reflexivity.
      - cbn [bind]. rewrite IH by auto. unfold smem. cbn [existsb].
        destruct (Nat.eqb_spec init x); [congruence|]. reflexivity. }
    rewrite G; [|apply seq_NoDup|apply repeat_length].
    replace (smem init (all_states g)) with true; [reflexivity|]. symmetry. apply smem_In, all_states_In, Hi. }
  rewrite EW. cbn [bind].
  destruct (memo_all_ok g q Wg Hq) as (ms & EM & PM). rewrite EM. cbn [bind].
  eexists. split; [reflexivity|].
  constructor; cbn [f_graph f_weight f_queue f_max f_qsize f_live f_memo f_neval f_freq f_first f_second]; auto.
  - rewrite upd_length. apply repeat_length.
  - split; [cbn; auto|]. intros p. split.
    + intros [<-|[]]. exists []. auto.
    + intros ([|] & L & <-); [left; reflexivity|discriminate].
  - intros p [<-|[]]. exists (trivial_TRLWELvl1_1over2 N1).
    split; [apply upd_eq; rewrite repeat_length; auto|].
    cbn [run fold_left]. rewrite Nat.eqb_refl. intros i Hi'. apply near_eqm; [apply flut_noise_nonneg|].
    unfold trivial_TRLWELvl1_1over2. rewrite trivial_phase by auto.
    destruct (Nat.eqb_spec i 0) as [->|NE].
    + rewrite nth_put_same by (rewrite repeat_length; auto). apply w32_m.
    + rewrite nth_put_other by auto. rewrite nth_repeat0 by auto. reflexivity.
Qed.

Lemma flut_feed_ok : forall u v s c b, flut_inv u v s -> bit c b -> length v < q \/ q = 0 /\ v = [] -> 
  if S (length v) <? q then exists s', flut_eval_one T s c = Ok s' /\ flut_inv u (v ++ [b]) s'
  else q = 0 \/ exists next, reach_set (length u + S (length v)) next /\
    flut_outcome (2 ^ max <=? length next) (fun s' => flut_inv (u ++ v ++ [b]) [] s') (flut_eval_one T s c).
Proof.
  intros u v s c b HI Hc LV. unfold flut_eval_one. cbv zeta. cbn [f_queue f_qsize].
  rewrite (fi_q _ _ _ HI), app_length, (Forall2_len _ _ _ (fi_queue _ _ _ HI)).
  replace (length v + length [c]) with (S (length v)) by (cbn; lia).
  assert (HI' : flut_inv u (v ++ [b]) (mkFlut T (f_graph T s) (f_weight T s) (f_queue T s ++ [c]) (f_max T s) q (f_live T s) (f_memo T s)
                  (f_neval T s) (f_freq T s) (f_first T s) (f_second T s))).
  { destruct HI as [Eg Em Eq Ef LW HL HMm HQu HWt].
    constructor; cbn [f_graph f_weight f_queue f_max f_qsize f_live f_memo f_neval f_freq f_first f_second]; auto.
    apply Forall2_app; auto. }
  destruct (Nat.ltb_spec (S (length v)) q) as [L|L]; [eauto|].
  destruct LV as [LV|[? _]]; [right|auto].
  destruct (flut_eval_ok u (v ++ [b]) _ HI') as (next & HR & HO); [rewrite app_length; cbn; lia|destruct v; discriminate|].
  exists next. rewrite app_length in HR. replace (length v + length [b]) with (S (length v)) in HR by (cbn; lia).
  split; [exact HR|]. destruct (flut_eval_queued T _) as [s'|f]; cbn [flut_outcome] in *; intuition.
Qed.

Lemma flut_sum_ok : forall u s, flut_inv u [] s -> exists acc,
  foldM (fun acc st => do f <- is_final_state g st;
           if f : bool then do w <- at_ (f_weight T s) st; Ok (TRLWELvl1_add N1 acc w) else Ok acc)
        (f_live T s) (trivial_TRLWELvl1_zero N1) = Ok acc /\
  decrypt_TLWELvl1_to_bit N1 (sei T acc 0) s1 = fin g (run g init u).
Proof.
  intros u s HI. destruct HI as [Eg Em Eq Ef LW HL HMm HQu HWt]. pose proof N1_pos as Hn.
  set (cur := run g init u) in *. set (e := flut_noise F q E (f_neval T s mod freq)) in *.
  assert (He : (0 <= e)%Z) by apply flut_noise_nonneg.
  destruct (noisy_fold (fun acc st => do f <- is_final_state g st;
           if f : bool then do w <- at_ (f_weight T s) st; Ok (TRLWELvl1_add N1 acc w) else Ok acc) N1 s1
     (fun p i => if i =? 0 then msg_0_1o2 (fin g p && (p =? cur)) else 0%Z) e (f_live T s) (trivial_TRLWELvl1_zero N1)) as (acc & EA & PA); [|exact He|].
  - intros p acc Hp. rewrite is_final_fin by (auto; apply (reach_lt _ _ _ HL Hp)). cbn [bind].
    destruct (fin g p).
    + destruct (HWt p Hp) as (w & Ew & Nw). unfold at_. rewrite Ew. cbn [bind]. eexists. split; [reflexivity|].
      intros i Hi'. cbn [andb]. eapply near_l; [|apply Nw, Hi'].
      rewrite (TRLWE_add_phase N1 Hn s1 acc w i Hi'). apply eqm_refl'. lia.
    + eexists. split; [reflexivity|]. intros i Hi'. apply near_eqm; auto. cbn [andb msg_0_1o2].
      apply eqm_refl'. destruct (i =? 0); lia.
  - exists acc. split; [exact EA|]. specialize (PA 0 Hn). rewrite zero_phase, Z.sub_0_r in PA by auto.
    rewrite zsum_single with (x := cur) in PA.
    + rewrite !Nat.eqb_refl, andb_true_r in PA.
      eapply decrypt_near; [eapply near_l; [apply (ok_sei _ _ _ _ _ OK); exact Hn|exact PA]|].
      pose proof (flut_noise_step (f_neval T s)) as MS. fold e in MS.
      pose proof (reach_len _ _ HL). pose proof (pow2_pos (q / 2)). destruct NN as (A1 & A2 & A3 & A4 & A5 & A6).
      assert (length (f_live T s) <= F) by nia. nia.
    + apply is_set_NoDup, HL.
    + apply HL. exists u. auto.
    + intros p Hp NE. cbn [Nat.eqb]. destruct (Nat.eqb_spec p cur); [contradiction|]. rewrite andb_false_r. reflexivity.
Qed.

Lemma flut_ask_ok : forall u v s, flut_inv u v s -> length v <= q ->
  exists next, reach_set (length u + length v) next /\
  match flut_result T s with
  | Ok (c, s') => (v = [] \/ length next < 2 ^ max) /\ flut_inv (u ++ v) [] s' /\ accepts g (u ++ v) = Ok (decrypt_TLWELvl1_to_bit N1 c s1)
  | Fail f => v <> [] /\ 2 ^ max <= length next /\ f = FExit
  end.
Proof.
  intros u v s HI LV.
  assert (DONE : forall u s, flut_inv u [] s -> exists c,
     (do acc <- foldM (fun acc st => do f <- is_final_state (f_graph T s) st;
                     if f : bool then do w <- at_ (f_weight T s) st; Ok (TRLWELvl1_add N1 acc w) else Ok acc)
                  (f_live T s) (trivial_TRLWELvl1_zero N1); Ok (sei T acc 0, s)) = Ok (c, s) /\
     accepts g u = Ok (decrypt_TLWELvl1_to_bit N1 c s1)).
  { intros u' s' H. destruct (flut_sum_ok u' s' H) as (acc & EA & DA). rewrite (fi_graph _ _ _ H), EA. cbn [bind].
    eexists. split; [reflexivity|]. rewrite accepts_run by auto. congruence. }
  unfold flut_result.
  destruct v as [|b v].
  - destruct (reach_exists (length u + 0)) as (next & HR). exists next. split; [exact HR|].
    unfold flut_eval_queued. cbv zeta. rewrite (Forall2_len _ _ _ (fi_queue _ _ _ HI)). cbn [length Nat.eqb bind].
    destruct (DONE u s HI) as (c & EC & DC). rewrite EC. rewrite app_nil_r. auto.
  - destruct (flut_eval_ok u (b :: v) s HI LV) as (next & HR & HO); [discriminate|].
    exists next. split; [exact HR|].
    destruct (flut_eval_queued T s) as [s'|f]; cbn [flut_outcome bind] in *.
    + destruct HO as [RF [HI' _]]. destruct (DONE _ s' HI') as (c & EC & DC). rewrite EC.
      apply Nat.leb_gt in RF. auto.
    + destruct HO as [RF ->]. apply Nat.leb_le in RF. split; [discriminate|auto].
Qed.

(** Whole histories *)
Lemma flut_play : 0 < q -> forall h hb, encrypts bit h hb -> forall u v s, flut_inv u v s -> length v < q ->
  match play (flut_eval_one T) (flut_result T) h s with
  | Ok (outs, s') => map (fun c => Ok (decrypt_TLWELvl1_to_bit N1 c s1)) outs = verdicts g (u ++ v) hb /\
      forall n k, In n (flushes q (length u) (length v) hb) -> width g n k -> k < 2 ^ max
  | Fail f => f = FExit /\ exists n k, In n (flushes q (length u) (length v) hb) /\ width g n k /\ 2 ^ max <= k
  end.
Proof.
  intros Q0 h hb HE. induction HE as [|x y h hb Hxy HE IH]; intros u v s HI LV.
  - cbn. split; [reflexivity|]. intros n k [].
  - destruct Hxy as [c b Hc|].
    + cbn [play verdicts flushes]. pose proof (flut_feed_ok u v s c b HI Hc (or_introl LV)) as HF.
      destruct (Nat.ltb_spec (S (length v)) q) as [L|L].
      * destruct HF as (s' & E' & I'). rewrite E'. cbn [bind].
        specialize (IH u (v ++ [b]) s' I'). rewrite app_length in IH. cbn [length] in IH.
        replace (length v + 1) with (S (length v)) in IH by lia. specialize (IH L). rewrite app_assoc in IH. exact IH.
      * destruct HF as [?|(next & HR & HO)]; [lia|].
        destruct (flut_eval_one T s c) as [s'|f]; cbn [flut_outcome bind] in *.
        -- destruct HO as [RF I']. apply Nat.leb_gt in RF. specialize (IH (u ++ v ++ [b]) [] s' I' Q0).
           rewrite app_nil_r, !app_length in IH. cbn [length] in IH. replace (length v + 1) with (S (length v)) in IH by lia.
           rewrite <- app_assoc.
           destruct (play _ _ h s') as [[outs s'']|f].
           ++ destruct IH as [IH1 IH2]. split; [exact IH1|].
              intros n k [<-|Hn'] HW; [|eapply IH2; eauto].
              rewrite (width_unique _ _ _ HW (reach_width _ _ HR)). exact RF.
           ++ destruct IH as (-> & n & k & I1 & I2 & I3). split; [auto|]. exists n, k. split; [right; exact I1|auto].
        -- destruct HO as [RF ->]. apply Nat.leb_le in RF. split; [auto|].
           exists (length u + S (length v)), (length next). split; [left; auto|]. split; [apply reach_width, HR|auto].
    + cbn [play verdicts flushes]. destruct (flut_ask_ok u v s HI ltac:(lia)) as (next & HR & HO).
      destruct (flut_result T s) as [[c s']|f]; cbn [bind].
      * destruct HO as (RF & I' & AC). specialize (IH (u ++ v) [] s' I' Q0).
        rewrite app_nil_r, app_length in IH. cbn [length] in IH.
        destruct (play _ _ h s') as [[outs s'']|f]; cbn [bind].
        -- destruct IH as [IH1 IH2]. split; [cbn [map]; rewrite IH1, AC; reflexivity|].
           intros n k Hn' HW. destruct (Nat.eqb_spec (length v) 0) as [Z0|Z0].
           ++ rewrite Z0, Nat.add_0_r in *. eapply IH2; eauto.
           ++ destruct Hn' as [<-|Hn']; [|eapply IH2; eauto].
              rewrite (width_unique _ _ _ HW (reach_width _ _ HR)). destruct RF as [->|RF]; [cbn in Z0; congruence|exact RF].
        -- destruct IH as (-> & n & k & I1 & I2 & I3). split; [auto|]. exists n, k. split; [|auto].
           destruct (Nat.eqb_spec (length v) 0) as [Z0|Z0]; [|right; exact I1].
           rewrite Z0, Nat.add_0_r in *. exact I1.
      * destruct HO as (NE & RF & ->). split; [auto|].
        exists (length u + length v), (length next). split; [|split; [apply reach_width, HR|auto]].
        destruct (Nat.eqb_spec (length v) 0) as [Z0|Z0]; [destruct v; [congruence|discriminate]|left; auto].
Qed.
End Flut.
