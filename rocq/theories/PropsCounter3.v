(** C50: what the tester of the test program checks.  A run on ciphertexts answers "yes" after an input exactly when one of the last
    twelve inputs was 1. *)
From Coq Require Import List Arith Bool NArith ZArith Lia.
Import ListNotations.
From Verif Require Import Base BaseFacts GraphModel BitsModel TorusModel TfheSpec RunnerSpec CounterModel CounterSpec PropsCounter.
Local Open Scope nat_scope.

(** One of the last [m] inputs up to input [k] was 1. *)
Definition recently (m : nat) (word : list bool) (k : nat) : Prop := exists j, j <= k < j + m /\ nth_error word j = Some true.

(** How many zeros there were since the last 1. *)
Definition since (o : option nat) (x : bool) : option nat := if x then Some 0 else option_map S o.
(** (proof) the plaintext runner after inputs with the last 1 that long ago *)
Definition after_ (o : option nat) (p : plain) : Prop :=
  p_btt p = test_btt /\ exists c, p_counter p = [c] /\ (c <= 10)%N /\
  match o with
  | None => (p_cur p = 0 \/ p_cur p = 3) /\ p_accept p = false
  | Some 0 => p_cur p = 1 /\ p_accept p = true
  | Some (S z) => if z <=? 10 then p_cur p = 2 /\ p_accept p = true /\ c = N.of_nat z else p_cur p = 3 /\ p_accept p = false
  end.
Lemma after_step : forall o p x, after_ o p -> exists p', plain_eval_one p x = Ok p' /\ after_ (since o x) p'.
Proof.
  intros o [b q a cs] x (Hb & c & Hc & Lc & H). cbn [p_btt p_cur p_counter p_accept] in *. subst b cs.
  unfold plain_eval_one. cbn [p_btt p_cur p_counter test_btt bt_spec length seq foldM at_ nth_error bind].
  assert (L : (c =? 2147483647)%N = false) by (apply N.eqb_neq; lia).
  assert (D : (q = 0 /\ o = None) \/ (q = 3 /\ match o with None => True | Some z => 11 < z end) \/ (q = 1 /\ o = Some 0) \/
              (q = 2 /\ exists z, o = Some (S z) /\ z <= 10 /\ c = N.of_nat z)).
  { destruct o as [[|z]|].
    - tauto.
    - destruct (z <=? 10) eqn:Z; [apply Nat.leb_le in Z; right; right; right; split; [tauto|]; exists z; tauto|].
      apply Nat.leb_gt in Z. right. left. split; [tauto|lia].
    - tauto. }
  clear H. destruct D as [(-> & ->)|[(-> & Z)|[(-> & ->)|(-> & z & -> & Z & E)]]];
    destruct (N.eqb_spec c 10) as [E10|N10]; destruct x; cbn -[Nat.leb]; unfold plain_inc; cbn -[Nat.leb]; rewrite ?L; cbn -[Nat.leb];
    (eexists; split; [reflexivity|]); (split; [reflexivity|]); cbn -[Nat.leb]; (eexists; split; [reflexivity|]); (split; [lia|]);
    try (split; [solve [auto]|reflexivity]); try (split; [reflexivity|split; [reflexivity|lia]]).
  all: try (destruct o as [z|]; cbn -[Nat.leb]; [|split; [auto|reflexivity]];
            destruct z as [|z]; [lia|]; assert (Q : (S z <=? 10) = false) by (apply Nat.leb_gt; lia); rewrite Q; auto).
  - assert (Q : (S z <=? 10) = false) by (apply Nat.leb_gt; lia). rewrite Q. auto.
  - assert (Q : (S z <=? 10) = true) by (apply Nat.leb_le; lia). rewrite Q. split; [reflexivity|]. split; [reflexivity|lia].
Qed.
Lemma after_new : after_ None (plain_new test_btt).
Proof. split; [reflexivity|]. exists 0%N. cbn. repeat split; auto. lia. Qed.
Lemma after_accept : forall o p, after_ o p -> (p_accept p = true <-> exists z, o = Some z /\ z < 12).
Proof.
  intros [[|z]|] p (_ & c & _ & _ & H).
  - split; [|tauto]. intros _. exists 0. split; [reflexivity|lia].
  - destruct (z <=? 10) eqn:Z; [apply Nat.leb_le in Z|apply Nat.leb_gt in Z]; split; try tauto.
    + intros _. exists (S z). split; [reflexivity|lia].
    + destruct H as [_ H]. congruence.
    + intros (z' & [= <-] & K). lia.
  - destruct H as [_ H]. split; [congruence|]. intros (z & K & _). discriminate.
Qed.
(** (proof) the distance to the last 1 *)
Lemma since_last : forall word o z, fold_left since word o = Some z <->
  (z < length word /\ nth_error word (length word - S z) = Some true /\ (forall j, length word - S z < j < length word -> nth_error word j = Some false)) \/
  (exists y, o = Some y /\ z = y + length word /\ forall j, j < length word -> nth_error word j = Some false).
Proof.
  induction word as [|x word IH] using rev_ind; intros o z.
  - cbn. split; [intros ->; right; exists z; repeat split; [lia|intros; lia]|]. intros [(K & _)|(y & -> & -> & _)]; [lia|f_equal; lia].
  - rewrite fold_left_app, app_length. cbn [fold_left length]. unfold since at 1.
    assert (N1 : forall j, j < length word -> nth_error (word ++ [x]) j = nth_error word j) by (intros; apply nth_error_app1; auto).
    assert (N2 : nth_error (word ++ [x]) (length word) = Some x) by (rewrite nth_error_app2, Nat.sub_diag by lia; reflexivity).
    destruct x.
    + split.
      * intros [= <-]. left. split; [lia|]. replace (length word + 1 - 1) with (length word) by lia. split; [exact N2|intros; lia].
      * intros [(K & E1 & E2)|(y & -> & -> & E)]; [|rewrite (E (length word)) in N2 by lia; discriminate].
        destruct z as [|z]; [reflexivity|]. rewrite (E2 (length word)) in N2 by lia. discriminate.
    + split.
      * destruct (fold_left since word o) as [z'|] eqn:F; [|discriminate]. cbn. intros [= <-].
        apply IH in F as [(K & E1 & E2)|(y & -> & -> & E)].
        -- left. split; [lia|]. replace (length word + 1 - S (S z')) with (length word - S z') by lia. rewrite N1 by lia.
           split; [exact E1|]. intros j Hj. destruct (Nat.eq_dec j (length word)) as [->|]; [exact N2|]. rewrite N1 by lia. apply E2. lia.
        -- right. exists y. split; [reflexivity|]. split; [lia|]. intros j Hj.
           destruct (Nat.eq_dec j (length word)) as [->|]; [exact N2|]. rewrite N1 by lia. apply E. lia.
      * intros [(K & E1 & E2)|(y & -> & -> & E)].
        -- destruct z as [|z]; [replace (length word + 1 - 1) with (length word) in E1 by lia; congruence|].
           replace (length word + 1 - S (S z)) with (length word - S z) in * by lia. rewrite N1 in E1 by lia.
           assert (F : fold_left since word o = Some z).
           { apply IH. left. split; [lia|]. split; [exact E1|]. intros j Hj. rewrite <- N1 by lia. apply E2. lia. }
           rewrite F. reflexivity.
        -- assert (F : fold_left since word (Some y) = Some (y + length word)).
           { apply IH. right. exists y. split; [reflexivity|]. split; [reflexivity|]. intros j Hj. rewrite <- N1 by lia. apply E. lia. }
           rewrite F. cbn. f_equal. lia.
Qed.
(** (proof) the last 1 is close exactly when there is a close 1 *)
Lemma since_recent : forall m word, 0 < length word ->
  ((exists z, fold_left since word None = Some z /\ z < m) <-> recently m word (length word - 1)).
Proof.
  intros m word HL. split.
  - intros (z & F & L). apply since_last in F as [(K & E & _)|(y & K & _)]; [|discriminate].
    exists (length word - S z). split; [lia|exact E].
  - intros (j & Hj & E). destruct (fold_left since word None) as [z|] eqn:F.
    + exists z. split; [reflexivity|]. apply since_last in F as [(K & _ & A)|(y & K & _)]; [|discriminate].
      destruct (le_lt_dec m z); [|auto]. rewrite A in E by lia. discriminate.
    + exfalso. revert F. clear HL Hj. revert j E. induction word as [|x word IH] using rev_ind; intros j E; [destruct j; discriminate|].
      rewrite fold_left_app. cbn [fold_left]. unfold since at 1. destruct x; [discriminate|].
      destruct (fold_left since word None) as [z|] eqn:F; [discriminate|]. intros _.
      destruct (lt_dec j (length word)) as [L|L]; [rewrite nth_error_app1 in E by auto; eapply IH; eauto|].
      rewrite nth_error_app2 in E by lia. destruct (j - length word) as [|[|]]; discriminate.
Qed.
Lemma after_play : forall word done p answers p', after_ (fold_left since done None) p ->
  play plain_eval_one (fun p => Ok (plain_result p, p)) (test_history word) p = Ok (answers, p') ->
  length answers = length word /\
  forall k b, nth_error answers k = Some b -> (b = true <-> exists z, fold_left since (done ++ firstn (S k) word) None = Some z /\ z < 12).
Proof.
  induction word as [|x word IH]; intros done p answers p' H; cbn [test_history flat_map app play].
  - intros [= <- _]. split; [reflexivity|]. intros [|k] b; discriminate.
  - destruct (after_step _ p x H) as (p1 & E1 & H1). rewrite E1. cbn [bind]. intros EP. apply bind_ok in EP as ((rs & p2) & EP & EQ).
    injection EQ as <- _. change (since (fold_left since done None) x) with (fold_left since [x] (fold_left since done None)) in H1.
    rewrite <- fold_left_app in H1. destruct (IH _ _ _ _ H1 EP) as [L A]. split; [cbn; lia|].
    intros [|k] b K; cbn [nth_error] in K.
    + injection K as <-. cbn [firstn]. exact (after_accept _ _ H1).
    + specialize (A k b K). rewrite <- app_assoc in A. exact A.
Qed.

Theorem C50_tester : forall T G s0 s1 bit E GE, tfhe_ok T s0 s1 bit E -> gates_ok T G s0 bit GE -> noise_nonneg E ->
  64 < t_n1 T / 2 -> t_n1 T / 2 + 1 <= t_n1 T -> btt_margin test_btt E GE ->
  forall order, (forall ev, valid_order 10 (order ev 0)) ->
  forall word cts, Forall2 bit cts word ->
  exists outs s',
    (do s <- runner_new T test_btt 1; play (runner_eval_one T G order) (runner_result T G order) (test_history cts) s) = Ok (outs, s') /\
    length outs = length word /\
    forall k c, nth_error outs k = Some c -> (TLWELvl1_decrypt (t_n1 T) c s1 = true <-> recently 12 word k).
Proof.
  intros T G s0 s1 bit E GE OK GOK NN HN HK HM order HO word cts HF.
  destruct (C50_test_passes T G s0 s1 bit E GE OK GOK NN HN HK HM order HO word cts HF) as (outs & s' & an & p' & ER & EP & EM).
  destruct (after_play word [] _ an p' after_new EP) as [L A].
  assert (LO : length outs = length word) by (rewrite <- L, <- EM, map_length; reflexivity).
  exists outs, s'. split; [exact ER|]. split; [exact LO|]. intros k c K.
  assert (KA : nth_error an k = Some (TLWELvl1_decrypt (t_n1 T) c s1)) by (rewrite <- EM, nth_error_map, K; reflexivity).
  assert (KL : k < length word) by (rewrite <- L; apply nth_error_Some; congruence).
  rewrite (A k _ KA). cbn [app].
  assert (FL : length (firstn (S k) word) = S k) by (rewrite firstn_length; lia).
  rewrite (since_recent 12 (firstn (S k) word)) by lia. rewrite FL. replace (S k - 1) with k by lia.
  unfold recently. split; intros (j & Hj & N); exists j; (split; [exact Hj|]).
  - rewrite <- (firstn_skipn (S k) word), nth_error_app1 by lia. exact N.
  - rewrite <- (firstn_skipn (S k) word), nth_error_app1 in N by lia. exact N.
Qed.

(** The ring of dimension 130 of PropsCounter.v: after a 1 the answer is "yes" for eleven more zeros and then "no". *)
Example C50_tester_nonvacuous : exists order : nat -> nat -> red,
  (forall ev, valid_order 10 (order ev 0)) /\ btt_margin test_btt (toy_noise 1000) (toy_gate_noise 1000) /\
  Forall2 (fun c b : bool => c = b) (true :: repeat false 13) (true :: repeat false 13) /\
  recently 12 (true :: repeat false 13) 11 /\ ~ recently 12 (true :: repeat false 13) 12 /\
  btt_answers test_btt 1 (test_history (true :: repeat false 13)) = Ok (repeat true 12 ++ [false; false]).
Proof.
  exists (btt_order test_btt). split; [apply C50_hyps|]. split; [apply C50_hyps|]. split; [repeat constructor|].
  split; [exists 0; split; [lia|reflexivity]|]. split; [|exact (proj1 C50_witness)].
  intros (j & Hj & N). destruct j as [|j]; [lia|]. do 12 (destruct j as [|j]; [discriminate|]). lia.
Qed.

Print Assumptions C50_tester.
