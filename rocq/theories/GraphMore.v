(** Facts about Graph::transition64 and Graph::reversed_nfa_delta. *)
From Coq Require Import List Arith Bool NArith ZArith Lia.
Import ListNotations.
From Verif Require Import Base BaseFacts GraphModel Spec GraphFacts.

(** The low [n] bits of [x], least significant first. *)
Definition low_bits (x : N) (n : nat) : list bool :=
  map (fun i => N.testbit x (N.of_nat i)) (seq 0 n).

Lemma land_pow2 x i : negb (N.land x (2 ^ i) =? 0)%N = N.testbit x i.
Proof.
  destruct (N.testbit x i) eqn:E.
  - apply negb_true_iff, N.eqb_neq. intros H.
    assert (N.testbit (N.land x (2 ^ i)) i = false) by (rewrite H; apply N.bits_0).
    rewrite N.land_spec, N.pow2_bits_true, E in H0. discriminate.
  - apply negb_false_iff, N.eqb_eq, N.bits_inj_0. intros k. rewrite N.land_spec.
    destruct (N.eq_dec i k) as [<-|D]; [rewrite E; auto|].
    rewrite N.pow2_bits_false by auto. apply andb_false_r.
Qed.

Lemma run_from_map g {A} (f : A -> bool) l q :
  run_from g q (map f l) = foldM (fun d i => next_state g d (f i)) l q.
Proof.
  revert q. induction l as [|a l IH]; intros q; [reflexivity|].
  cbn. destruct (next_state g q (f a)); cbn; auto. apply IH.
Qed.

Lemma transition64_low g q x n : n <= 31 ->
  transition64 g q x (Z.of_nat n) = run_from g q (low_bits x n).
Proof.
  intros H. unfold transition64, low_bits. rewrite run_from_map.
  unfold transition64_iters. destruct (Z.ltb_spec (Z.of_nat n) 0); [lia|]. rewrite Nat2Z.id.
  apply foldM_ext. intros s i Hi. apply in_seq in Hi. unfold shift_int.
  destruct (Nat.ltb_spec i 31); [|lia]. cbn [bind]. rewrite land_pow2. reflexivity.
Qed.

Lemma land_hi x : (x < 2 ^ 32)%N ->
  negb (N.land x 18446744071562067968 =? 0)%N = N.testbit x 31.
Proof.
  intros H. rewrite <- land_pow2. f_equal. f_equal.
  apply N.bits_inj. intros k. rewrite !N.land_spec.
  destruct (N.ltb_spec k 32) as [L|L].
  - apply (f_equal (andb (N.testbit x k))).
    replace 18446744071562067968%N with (N.shiftl (N.ones 33) 31) by (vm_compute; reflexivity).
    destruct (N.eq_dec k 31) as [->|D]; [vm_compute; reflexivity|].
    rewrite N.shiftl_spec_low by lia. symmetry. apply N.pow2_bits_false. lia.
  - assert (N.testbit x k = false) as ->; [|cbn [andb]; reflexivity].
    destruct (N.eq_dec x 0) as [->|Hx]; [apply N.bits_0|].
    assert (N.log2 x < 32)%N by (apply N.log2_lt_pow2; lia).
    apply N.bits_above_log2. lia.
Qed.

Lemma transition64_32 g q x : (x < 2 ^ 32)%N ->
  transition64 g q x 32 = run_from g q (low_bits x 32).
Proof.
  intros H. unfold transition64, low_bits. rewrite run_from_map.
  change (transition64_iters 32) with 32.
  apply foldM_ext. intros s i Hi. apply in_seq in Hi. unfold shift_int.
  destruct (Nat.ltb_spec i 31); cbn [bind]; [rewrite land_pow2; reflexivity|].
  assert (i = 31) as -> by lia. rewrite Nat.eqb_refl. cbn [bind]. rewrite land_hi by auto. reflexivity.
Qed.

(** The mask of the last step of a 32-bit read has all bits from 31 on: for a 64-bit word the
    step reads a one exactly when the word is 2^31 or more. *)
Lemma land_sign x : (x < 2 ^ 64)%N ->
  negb (N.land x 18446744071562067968 =? 0)%N = (2 ^ 31 <=? x)%N.
Proof.
  intros H. replace 18446744071562067968%N with (N.shiftl (N.ones 33) 31) by (vm_compute; reflexivity).
  destruct (N.leb_spec (2 ^ 31) x) as [L|L].
  - apply negb_true_iff, N.eqb_neq. intros E.
    assert (T : N.testbit (N.land x (N.shiftl (N.ones 33) 31)) (N.log2 x) = false)
      by (rewrite E; apply N.bits_0).
    assert (X : (31 <= N.log2 x)%N) by (apply N.log2_le_pow2; lia).
    assert (Y : (N.log2 x < 64)%N) by (apply N.log2_lt_pow2; lia).
    rewrite N.land_spec, N.bit_log2, N.shiftl_spec_high', N.ones_spec_low in T by lia. discriminate.
  - apply negb_false_iff, N.eqb_eq, N.bits_inj_0. intros k. rewrite N.land_spec.
    destruct (N.ltb_spec k 31) as [K|K]; [rewrite N.shiftl_spec_low by lia; apply andb_false_r|].
    replace (N.testbit x k) with false; [reflexivity|].
    destruct (N.eq_dec x 0) as [->|Hx]; [symmetry; apply N.bits_0|].
    assert (N.log2 x < 31)%N by (apply N.log2_lt_pow2; lia).
    symmetry. apply N.bits_above_log2. lia.
Qed.

Lemma transition64_32_any g q x : (x < 2 ^ 64)%N ->
  transition64 g q x 32 = run_from g q (low_bits x 31 ++ [(2 ^ 31 <=? x)%N]).
Proof.
  intros H.
  assert (E : low_bits x 31 ++ [(2 ^ 31 <=? x)%N] =
    map (fun i => if i =? 31 then (2 ^ 31 <=? x)%N else N.testbit x (N.of_nat i)) (seq 0 32)).
  { change (seq 0 32) with (seq 0 31 ++ [31]). rewrite map_app. reflexivity. }
  rewrite E. unfold transition64. rewrite run_from_map.
  change (transition64_iters 32) with 32.
  apply foldM_ext. intros s i Hi. apply in_seq in Hi. unfold shift_int.
  destruct (Nat.ltb_spec i 31); cbn [bind].
  - destruct (Nat.eqb_spec i 31); [lia|]. rewrite land_pow2. reflexivity.
  - assert (i = 31) as -> by lia. rewrite Nat.eqb_refl. cbn [bind]. rewrite land_sign by auto. reflexivity.
Qed.

(** Beyond 32 the loop runs into the undefined shift. *)
Lemma transition64_undefined g q x len : wf_graph g -> q < size g ->
  (33 <= len \/ len < 0)%Z -> transition64 g q x len = Fail FUndefined.
Proof.
  intros W Hq H. unfold transition64.
  assert (exists k, transition64_iters len = 33 + k) as (k & ->).
  { unfold transition64_iters. destruct (Z.ltb_spec len 0); [exists 0; auto|].
    exists (Z.to_nat len - 33). lia. }
  rewrite Nat.add_comm. replace (k + 33) with (32 + S k) by lia. rewrite seq_app, foldM_app.
  assert (exists q', foldM (fun dst i => do m <- shift_int i;
             next_state g dst (negb (N.land x m =? 0)%N)) (seq 0 32) q = Ok q') as (q' & ->).
  { assert (G : forall n, n <= 32 -> exists q', foldM (fun dst i => do m <- shift_int i;
             next_state g dst (negb (N.land x m =? 0)%N)) (seq 0 n) q = Ok q' /\ q' < size g).
    { induction n as [|n IH]; intros Hn; [exists q; auto|].
      destruct IH as (q1 & E & L); [lia|]. rewrite seq_S, foldM_app, E. cbn [bind foldM].
      unfold shift_int. destruct (Nat.ltb_spec (0 + n) 31); cbn [bind].
      - rewrite next_state_nxt by auto. cbn. eexists; split; auto. apply nxt_lt; auto.
      - destruct (Nat.eqb_spec (0 + n) 31); [|lia]. cbn [bind].
        rewrite next_state_nxt by auto. cbn. eexists; split; auto. apply nxt_lt; auto. }
    destruct (G 32) as (q1 & E & _); eauto. }
  cbn [bind seq foldM]. reflexivity.
Qed.
