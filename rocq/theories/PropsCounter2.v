(** C50: which testers can be built, and that the one of the test program is one of them. *)
From Coq Require Import List Arith Bool NArith ZArith Lia.
Import ListNotations.
From Verif Require Import Base BaseFacts GraphModel CounterModel.
Local Open Scope nat_scope.

(** A list of edges is a tester when it lists, for every state in order, the edge taken on 0 and then the
    edge taken on 1. *)
Definition well_listed (delta : list Edge) : Prop :=
  (exists n, length delta = 2 * n) /\
  forall q e, (nth_error delta (2 * q) = Some e -> ed_from e = q /\ ed_input e = false) /\
              (nth_error delta (2 * q + 1) = Some e -> ed_from e = q /\ ed_input e = true).

Lemma all_edges (delta : list Edge) (f : Edge -> nat -> bool) l : (forall i, In i l -> i < length delta) ->
  let r := foldM (fun (_ : unit) i => do e <- at_ delta i; assert_ (f e i) (Ok tt)) l tt in
  (r = Ok tt /\ forall i e, In i l -> nth_error delta i = Some e -> f e i = true) \/
  (r = Fail FAssert /\ exists i e, In i l /\ nth_error delta i = Some e /\ f e i = false).
Proof.
  induction l as [|i l IH]; intros H; cbv zeta; cbn [foldM].
  - left. split; [reflexivity|]. intros i e [].
  - destruct (nth_error delta i) as [e|] eqn:E.
    2:{ apply nth_error_None in E. specialize (H i (or_introl eq_refl)). lia. }
    assert (EA : (do e <- at_ delta i; assert_ (f e i) (Ok tt)) = if f e i then Ok tt else Fail FAssert)
      by (unfold at_; rewrite E; reflexivity).
    rewrite EA. destruct (f e i) eqn:F; cbn [bind].
    + destruct IH as [[-> IH]|[-> (j & x & A & B & C)]]; [intros j Hj; apply H; right; exact Hj| |].
      * left. split; [reflexivity|]. intros j x [<-|Hj] Hx; [congruence|eauto].
      * right. split; [reflexivity|]. exists j, x. split; [right; exact A|auto].
    + right. split; [reflexivity|]. exists i, e. split; [left; reflexivity|auto].
Qed.

Theorem C50_constructed : forall init delta spec,
  (forall b, btt_new init delta spec = Ok b <-> init = 0 /\ well_listed delta /\ b = mkBTT delta spec) /\
  (~ (init = 0 /\ well_listed delta) -> btt_new init delta spec = Fail FAssert).
Proof.
  intros init delta spec.
  assert (K : (btt_new init delta spec = Ok (mkBTT delta spec) /\ init = 0 /\ well_listed delta) \/
              (btt_new init delta spec = Fail FAssert /\ ~ (init = 0 /\ well_listed delta))).
  { unfold btt_new. unfold assert_ at 1. destruct (init =? 0) eqn:EI.
    2:{ right. split; [reflexivity|]. intros [-> _]. discriminate. }
    apply Nat.eqb_eq in EI. unfold assert_ at 1. destruct (length delta mod 2 =? 0) eqn:EL.
    2:{ right. split; [reflexivity|]. intros [_ [[n Hn] _]]. rewrite Hn in EL. rewrite Nat.mul_comm, Nat.mod_mul in EL by lia. discriminate. }
    apply Nat.eqb_eq in EL.
    set (f := fun e i => (ed_from e =? i / 2) && eqb (ed_input e) (negb (i mod 2 =? 0))).
    assert (EF : forall l u, foldM (fun (_ : unit) i => do e <- at_ delta i;
                     assert_ (ed_from e =? i / 2) (assert_ (eqb (ed_input e) (negb (i mod 2 =? 0))) (Ok tt))) l u =
                   foldM (fun (_ : unit) i => do e <- at_ delta i; assert_ (f e i) (Ok tt)) l u).
    { induction l as [|i l IH]; intros u; cbn [foldM]; [reflexivity|]. destruct (at_ delta i) as [e|]; [|reflexivity]. cbn [bind].
      assert (EA : assert_ (ed_from e =? i / 2) (assert_ (eqb (ed_input e) (negb (i mod 2 =? 0))) (Ok tt)) = assert_ (f e i) (Ok tt)).
      { unfold f, assert_. destruct (ed_from e =? i / 2); reflexivity. }
      rewrite EA. destruct (assert_ (f e i) (Ok tt)); [apply IH|reflexivity]. }
    rewrite EF. destruct (all_edges delta f (seq 0 (length delta))) as [[-> H]|[-> (i & e & A & B & C)]].
    - intros i Hi. apply in_seq in Hi. lia.
    - left. split; [reflexivity|]. split; [exact EI|]. split; [exists (length delta / 2); apply Nat.div_exact; lia|].
      intros q e. split; intros Hq.
      + specialize (H (2 * q) e). rewrite in_seq in H.
        assert (Hl : nth_error delta (2 * q) <> None) by congruence. apply nth_error_Some in Hl.
        specialize (H ltac:(lia) Hq). unfold f in H. apply andb_true_iff in H as [H1 H2].
        apply Nat.eqb_eq in H1. apply eqb_prop in H2.
        replace (2 * q / 2) with q in H1 by (rewrite Nat.mul_comm, Nat.div_mul; lia).
        replace (2 * q mod 2) with 0 in H2 by (rewrite Nat.mul_comm, Nat.mod_mul; lia). auto.
      + specialize (H (2 * q + 1) e). rewrite in_seq in H.
        assert (Hl : nth_error delta (2 * q + 1) <> None) by congruence. apply nth_error_Some in Hl.
        specialize (H ltac:(lia) Hq). unfold f in H. apply andb_true_iff in H as [H1 H2].
        apply Nat.eqb_eq in H1. apply eqb_prop in H2.
        replace ((2 * q + 1) / 2) with q in H1 by (rewrite (Nat.mul_comm 2), Nat.div_add_l; [cbn; lia|lia]).
        replace ((2 * q + 1) mod 2) with 1 in H2 by (rewrite Nat.add_comm, (Nat.mul_comm 2), Nat.mod_add; [reflexivity|lia]). auto.
    - right. split; [reflexivity|]. intros [_ [_ W]]. apply not_true_iff_false in C. apply C. unfold f.
      pose proof (Nat.div_mod i 2 ltac:(lia)) as D. pose proof (Nat.mod_upper_bound i 2 ltac:(lia)) as M.
      destruct (W (i / 2) e) as [W0 W1].
      destruct (i mod 2) as [|[|m]] eqn:EM; [| |lia].
      + destruct W0 as [-> ->]; [rewrite <- B; f_equal; lia|]. rewrite Nat.eqb_refl. reflexivity.
      + destruct W1 as [-> ->]; [rewrite <- B; f_equal; lia|]. rewrite Nat.eqb_refl. reflexivity. }
  destruct K as [(E & EI & W)|(E & N)].
  - split; [|tauto]. intros b. rewrite E. split; [intros [= <-]; auto|]. intros (_ & _ & ->). reflexivity.
  - split; [|auto]. intros b. rewrite E. split; [discriminate|]. intros (A & B & _). tauto.
Qed.

(** The tester of the test program is accepted; it has nine states.  One edge moved, and it is not. *)
Example C50_constructed_nonvacuous :
  btt_new 0 (bt_delta test_btt) (bt_spec test_btt) = Ok test_btt /\ btt_size test_btt = 9 /\
  btt_new 0 (tl (bt_delta test_btt) ++ [mkEdge 9 0 false true [] [] None]) (bt_spec test_btt) = Fail FAssert /\
  btt_new 0 (tl (bt_delta test_btt)) (bt_spec test_btt) = Fail FAssert /\
  btt_new 1 (bt_delta test_btt) (bt_spec test_btt) = Fail FAssert.
Proof. vm_compute. repeat split. Qed.

(** Every state of the tester of the test program leads to states of it. *)
Example C50_closed : forallb (fun e => ed_to e <? btt_size test_btt) (bt_delta test_btt) = true.
Proof. reflexivity. Qed.

Print Assumptions C50_constructed.
