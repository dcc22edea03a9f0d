(** Look-up tables: lemmas. *)
From Coq Require Import List Arith Bool NArith ZArith Lia.
From Coq Require Import ZifyBool ZifyNat ZifyN.
Import ListNotations.
From Verif Require Import Base BaseFacts GraphModel Spec GraphFacts TorusModel TfheSpec TorusFacts TfheFacts RunnerModel RunnerFacts RunnerSpec.

(** The number whose binary digits are [bs], least significant first. *)
Fixpoint bits_val (bs : list bool) : nat :=
  match bs with [] => 0 | b :: bs' => Nat.b2n b + 2 * bits_val bs' end.
(** The k low binary digits of x, least significant first. *)
Definition val_bits (k x : nat) : list bool := map (Nat.testbit x) (seq 0 k).

Lemma bits_val_lt : forall bs, bits_val bs < 2 ^ length bs.
Proof. induction bs as [|b bs IH]; cbn [bits_val length]; [cbn; lia|]. rewrite Nat.pow_succ_r'. destruct b; cbn [Nat.b2n]; lia. Qed.
Lemma val_bits_S : forall k x, val_bits (S k) x = Nat.odd x :: val_bits k (Nat.div2 x).
Proof.
  intros k x. unfold val_bits. cbn [seq map]. rewrite Nat.bit0_odd. f_equal.
  rewrite <- seq_shift, map_map. apply map_ext. intros i. reflexivity.
Qed.
Lemma val_bits_val : forall bs, val_bits (length bs) (bits_val bs) = bs.
Proof.
  induction bs as [|b bs IH]; [reflexivity|]. cbn [length]. rewrite val_bits_S. cbn [bits_val].
  replace (Nat.odd (Nat.b2n b + 2 * bits_val bs)) with b.
  - f_equal. replace (Nat.div2 (Nat.b2n b + 2 * bits_val bs)) with (bits_val bs); [exact IH|].
    rewrite Nat.div2_div. destruct b; cbn [Nat.b2n].
    + replace (1 + 2 * bits_val bs) with (1 + bits_val bs * 2) by lia. rewrite Nat.div_add by lia. reflexivity.
    + replace (0 + 2 * bits_val bs) with (bits_val bs * 2) by lia. rewrite Nat.div_mul by lia. reflexivity.
  - rewrite Nat.odd_add_mul_2. destruct b; reflexivity.
Qed.
Lemma bits_val_of : forall k x, x < 2 ^ k -> bits_val (val_bits k x) = x.
Proof.
  induction k as [|k IH]; intros x H.
  - cbn in *. lia.
  - rewrite val_bits_S. cbn [bits_val]. rewrite IH.
    + rewrite (Nat.div2_odd x) at 3. lia.
    + rewrite Nat.pow_succ_r' in H. rewrite Nat.div2_div. apply Nat.div_lt_upper_bound; lia.
Qed.
Lemma val_bits_length : forall k x, length (val_bits k x) = k.
Proof. intros. unfold val_bits. rewrite map_length, seq_length. reflexivity. Qed.
Lemma bits_val_app : forall a b, bits_val (a ++ b) = bits_val a + 2 ^ length a * bits_val b.
Proof. induction a as [|x a IH]; intros b; cbn [app bits_val length]; [cbn; lia|]. rewrite IH, Nat.pow_succ_r'. lia. Qed.

Lemma Forall2_len : forall {A B} (R : A -> B -> Prop) l l', Forall2 R l l' -> length l = length l'.
Proof. induction 1; cbn; congruence. Qed.
Lemma pow2_pos : forall k, 0 < 2 ^ k.
Proof. intros. pose proof (Nat.pow_nonzero 2 k). lia. Qed.

Section L.
Context (T : tfhe).

(** Shape: for any operations, a look-up in a table of the right size succeeds. *)
Lemma lookup_level_ok : forall it half table tmp, half <= length tmp -> 2 * half <= length table ->
  exists tmp', lookup_level T it half table tmp = Ok (tmp', table) /\ length tmp' = length tmp /\
    forall j, j < half -> exists a b, nth_error table (2 * j + 1) = Some a /\ nth_error table (2 * j) = Some b /\
      nth_error tmp' j = Some (cmux T it a b).
Proof.
  intros it half table tmp H1 H2. unfold lookup_level.
  set (body := fun j => do a <- at_ table (j * 2 + 1); do b <- at_ table (j * 2); Ok (cmux T it a b)).
  assert (B : forall j, j < half -> exists a b, nth_error table (2 * j + 1) = Some a /\ nth_error table (2 * j) = Some b /\
     body j = Ok (cmux T it a b)).
  { intros j Hj. destruct (nth_error_some_lt table (2 * j + 1)) as [a Ea]; [lia|].
    destruct (nth_error_some_lt table (2 * j)) as [b Eb]; [lia|]. exists a, b. split; [auto|]. split; [auto|].
    unfold body, at_. replace (j * 2 + 1) with (2 * j + 1) by lia. replace (j * 2) with (2 * j) by lia.
    rewrite Ea, Eb. reflexivity. }
  destruct (par_for_ok body (seq 0 half) tmp (seq_NoDup _ _)) as (o & E & LO & PO & _).
  { intros q Hq. apply in_seq in Hq. lia. }
  { intros q Hq. apply in_seq in Hq. destruct (B q ltac:(lia)) as (a & b & _ & _ & ->). eauto. }
  rewrite E. cbn [bind]. exists o. split; [reflexivity|]. split; [auto|].
  intros j Hj. destruct (B j Hj) as (a & b & E1 & E2 & E3). exists a, b. split; [auto|]. split; [auto|].
  destruct (PO j) as (v & Ev & Hv); [apply in_seq; lia|]. rewrite E3 in Ev. injection Ev as <-. exact Hv.
Qed.

Context (s0 s1 : list Z) (bit : trgsw T -> bool -> Prop) (E : noise).
Hypothesis OK : tfhe_ok T s0 s1 bit E.
Hypothesis NN : noise_nonneg E.
Notation phR := (trlwe_phase (t_n1 T) s1).

Lemma lookup_levels_ok : forall cts bs, Forall2 bit cts bs -> cts <> [] -> forall table tmp timer,
  2 ^ length cts <= length table -> 2 ^ (length cts - 1) <= length tmp ->
  exists table' tmp' timer', lookup_levels T cts table tmp timer = Ok (table', tmp', timer') /\
    exists w w', nth_error table (bits_val bs) = Some w /\ nth_error table' 0 = Some w' /\
      forall i, i < t_n1 T -> near (Z.of_nat (length cts) * e_cmux E) (phR w' i) (phR w i).
Proof.
  intros cts bs HF. induction HF as [|c b cts bs Hc HF IH]; intros NE table tmp timer L1 L2; [congruence|].
  cbn [lookup_levels]. cbv zeta. cbn [length] in *.
  rewrite Nat.pow_succ_r' in L1. replace (S (length cts) - 1) with (length cts) in L2 by lia.
  destruct (lookup_level_ok c (2 ^ length cts) table tmp) as (tmp' & EL & LT & PT); [lia|lia|].
  rewrite EL. cbn [bind].
  pose proof (bits_val_lt bs) as LV. rewrite <- (Forall2_len _ _ _ HF) in LV.
  assert (STEP : forall j, j < 2 ^ length cts -> exists w w', nth_error table (Nat.b2n b + 2 * j) = Some w /\
      nth_error tmp' j = Some w' /\ forall i, i < t_n1 T -> near (e_cmux E) (phR w' i) (phR w i)).
  { intros j Hj. destruct (PT j Hj) as (x & y & Ex & Ey & Ez). destruct b; cbn [Nat.b2n].
    - exists x, (cmux T c x y). replace (1 + 2 * j) with (2 * j + 1) by lia. split; [auto|]. split; [auto|].
      intros i Hi. apply (ok_cmux _ _ _ _ _ OK c true x y i Hc Hi).
    - exists y, (cmux T c x y). split; [auto|]. split; [auto|].
      intros i Hi. apply (ok_cmux _ _ _ _ _ OK c false x y i Hc Hi). }
  destruct cts as [|c2 cts].
  - inversion HF; subst. cbn [lookup_levels]. do 3 eexists. split; [reflexivity|].
    destruct (STEP 0 ltac:(cbn; lia)) as (w & w' & Ew & Ew' & P). exists w, w'. cbn [bits_val].
    split; [exact Ew|]. split; [exact Ew'|]. intros i Hi. eapply near_le; [apply P, Hi|]. cbn [length]. lia.
  - destruct (IH ltac:(discriminate) tmp' table (timer ++ [(T_CMUX, 2 ^ length (c2 :: cts))])) as (t2 & m2 & r2 & E2 & w & w' & Ew & Ew' & P).
    { rewrite LT. cbn [length] in *. lia. }
    { cbn [length] in *. replace (S (length cts) - 1) with (length cts) by lia. rewrite Nat.pow_succ_r' in L1. lia. }
    do 3 eexists. split; [exact E2|].
    destruct (STEP (bits_val bs) LV) as (v & v' & Ev & Ev' & Q). rewrite Ew in Ev'. injection Ev' as <-.
    exists v, w'. cbn [bits_val]. split; [exact Ev|]. split; [exact Ew'|].
    intros i Hi. eapply near_le; [eapply near_trans; [apply P, Hi|apply Q, Hi]|]. cbn [length]. nia.
Qed.

Lemma lookup_timer_ok : forall cts bs table ws timer, Forall2 bit cts bs -> length cts < 31 ->
  length table = 2 ^ length cts ->
  exists table' tmp' timer', lookup_table_with_timer T table cts ws timer = Ok (table', tmp', timer') /\
    exists w w', nth_error table (bits_val bs) = Some w /\ nth_error table' 0 = Some w' /\
      forall i, i < t_n1 T -> near (Z.of_nat (length cts) * e_cmux E) (phR w' i) (phR w i).
Proof.
  intros cts bs table ws timer HF L31 LT. unfold lookup_table_with_timer.
  destruct (Nat.leb_spec 31 (length cts)); [lia|]. rewrite LT, Nat.eqb_refl. cbn [assert_].
  destruct (Nat.eqb_spec (length cts) 0) as [Z|Z].
  - destruct cts; [|discriminate]. inversion HF; subst. do 3 eexists. split; [reflexivity|].
    destruct (nth_error_some_lt table 0) as [w Ew]; [rewrite LT; cbn; lia|]. exists w, w.
    split; [auto|]. split; [auto|]. intros i Hi. apply near_refl. destruct NN. cbn. lia.
  - eapply lookup_levels_ok; eauto.
    + destruct cts; [cbn in Z; congruence|discriminate].
    + lia.
    + rewrite repeat_length. lia.
Qed.
Lemma lookup_ok : forall cts bs table ws, Forall2 bit cts bs -> length cts < 31 ->
  length table = 2 ^ length cts ->
  exists table' tmp', lookup_table T table cts ws = Ok (table', tmp') /\
    exists w w', nth_error table (bits_val bs) = Some w /\ nth_error table' 0 = Some w' /\
      forall i, i < t_n1 T -> near (Z.of_nat (length cts) * e_cmux E) (phR w' i) (phR w i).
Proof.
  intros cts bs table ws HF L31 LT. unfold lookup_table.
  destruct (lookup_timer_ok cts bs table ws [] HF L31 LT) as (t & m & r & -> & H).
  cbn [bind]. eauto.
Qed.
End L.
