(** C52: the picture that spec2dot prints. *)
From Coq Require Import String.
From Coq Require Import List Arith Bool Ascii Lia.
Import ListNotations.
From Verif Require Import Base BaseFacts GraphModel Spec TextModel TextFacts TextClaims PropsText DotModel DotSpec DotFacts.
Local Open Scope list_scope.

(** ** C52: the printed text is well-formed DOT, has one reading, and that is the picture of the automaton. *)
Theorem C52_dot g : wf_graph g ->
  exists t l, dump_dot g = Ok t /\ dot_says t l /\ (forall l', dot_says t l' -> l' = l) /\ pictures l g.
Proof.
  intros W. destruct (dump_dot_says g W) as (t & E & S). exists t, (graph_stmts g).
  split; auto. split; auto. split; [|apply graph_pictures; auto]. intros l' S'. eapply dot_says_unique; eauto.
Qed.
Theorem C52_spec2dot spec g : from_istream spec = Ok g -> wf_graph g ->
  exists t l, do_spec2dot spec = Ok t /\ dot_says t l /\ (forall l', dot_says t l' -> l' = l) /\ pictures l g.
Proof. intros E W. unfold do_spec2dot. rewrite E. cbn [bind]. apply C52_dot. auto. Qed.
(** From the picture alone the automaton can be read off: its states, transitions, final states and
    initial state are those of any other automaton with the same picture. *)
Theorem C52_picture_determines l g g' : wf_graph g -> wf_graph g' -> pictures l g -> pictures l g' ->
  size g = size g' /\ initial_state g = initial_state g' /\
  (forall q b, next_state g q b = next_state g' q b) /\ forall q, q < size g -> is_final_state g q = is_final_state g' q.
Proof.
  intros W W' P P'.
  assert (S : forall h h', wf_graph h -> wf_graph h' -> pictures l h -> pictures l h' -> size h <= size h').
  { clear. intros h h' W W' P P'. destruct (le_lt_dec (size h) (size h')) as [|L]; auto.
    destruct (pic_state _ _ P (size h') L) as (a & H & _). apply (pic_node _ _ P') in H as [H|[H|(q & HQ & H)]].
    - exfalso. revert H. apply (show_not _ "node"). reflexivity.
    - exfalso. revert H. apply (show_not _ "I"). reflexivity.
    - apply show_inj in H. lia. }
  assert (ES : size g = size g') by (apply Nat.le_antisymm; eauto). split; auto. split; [|split].
  - assert (H : In (Edge (lit "I") (show_nat (initial_state g)) []) l) by (apply (pic_initial _ _ P); auto).
    apply (pic_initial _ _ P') in H as [H _]. apply show_inj in H. auto.
  - intros q b. destruct (le_lt_dec (size g) q) as [L|L].
    + rewrite !GraphFacts.next_state_out by lia. reflexivity.
    + rewrite (GraphFacts.next_state_nxt g) by auto.
      pose proof (GraphFacts.next_state_nxt g q b L) as H. apply (pic_edge _ _ P) in H; auto.
      apply (pic_edge _ _ P') in H; [auto|lia].
  - intros q L. rewrite !GraphFacts.is_final_fin by (auto; lia).
    assert (H : is_final_state g q = Ok true <-> is_final_state g' q = Ok true).
    { rewrite <- (pic_final _ _ P) by auto. rewrite <- (pic_final _ _ P') by lia. reflexivity. }
    rewrite !GraphFacts.is_final_fin in H by (auto; lia).
    destruct (GraphFacts.fin g q), (GraphFacts.fin g' q); auto; [destruct H as [H _]; discriminate H; auto|].
    destruct H as [_ H]. specialize (H eq_refl). discriminate.
Qed.

Example C52_nonvacuous : exists g t, from_istream ex_spec2 = Ok g /\ size g = 3 /\ wf_graph g /\ do_spec2dot ex_spec2 = Ok t /\ 100 < length t.
Proof.
  assert (E : exists g t, from_istream ex_spec2 = Ok g /\ size g = 3 /\ do_spec2dot ex_spec2 = Ok t /\ 100 < length t).
  { eexists. eexists. split; [vm_compute; reflexivity|]. split; [reflexivity|]. split; [vm_compute; reflexivity|].
    apply Nat.ltb_lt. vm_compute. reflexivity. }
  destruct E as (g & t & E & S & H). exists g, t. split; auto. split; auto. split; auto.
  apply (from_istream_build _ _ g (lines_of_getlines _)) in E as (rows & HR & HB).
  destruct rows as [|r rows]; [|apply (build_language (r :: rows)); [discriminate|exact HB]].
  exfalso. vm_compute in HB. injection HB as <-. cbn in S. discriminate.
Qed.

Print Assumptions C52_dot.
Print Assumptions C52_spec2dot.
Print Assumptions C52_picture_determines.
