(** Facts about the converters and about construction histories. *)
From Coq Require Import List Arith Bool NArith ZArith Ascii Lia.
Import ListNotations.
From Verif Require Import Base BaseFacts GraphModel Spec GraphFacts FromNfa GraphOps Minimize Quotient
  TextModel TextSpec TextFacts TextClaims AttFacts CliModel.

(** ** spec2spec *)
Lemma spec2spec_language spec g om orv on :
  from_istream spec = Ok g -> wf_graph g ->
  exists t g', do_spec2spec spec om orv on = Ok t /\ dump g' = Ok t /\ wf_graph g' /\
    (forall w, exists b, accepts g (if orv then rev w else w) = Ok b /\
                         accepts g' w = Ok (if on then negb b else b)) /\
    ((N.of_nat (size g') <= int_max + 1)%N -> from_istream t = Ok (with_sad g' [])).
Proof.
  intros E W. unfold do_spec2spec. rewrite E. cbn [bind].
  assert (A1 : exists g1, (if on then negated g else Ok g) = Ok g1 /\ wf_graph g1 /\
     forall w, exists b, accepts g w = Ok b /\ accepts g1 w = Ok (if on then negb b else b)).
  { destruct on.
    - destruct (negated_correct g W) as (g1 & E1 & W1 & _ & H). eauto.
    - exists g. split; auto. split; auto. intros w. rewrite accepts_run by auto. eauto. }
  destruct A1 as (g1 & E1 & W1 & L1). rewrite E1. cbn [bind].
  assert (A2 : exists g2, (if orv then reversed g1 else Ok g1) = Ok g2 /\ wf_graph g2 /\
     forall w, accepts g2 w = accepts g1 (if orv then rev w else w)).
  { destruct orv.
    - destruct (reversed_correct g1 W1) as (g2 & E2 & W2 & H & _). exists g2. split; auto. split; auto.
      intros w. destruct (H (rev w)) as (b & H1 & H2). rewrite rev_involutive in H2. congruence.
    - eauto. }
  destruct A2 as (g2 & E2 & W2 & L2). rewrite E2. cbn [bind].
  assert (A3 : exists g3, (if om then minimized g2 else Ok g2) = Ok g3 /\ wf_graph g3 /\
     forall w, accepts g3 w = accepts g2 w).
  { destruct om; [|eauto]. destruct (minimized_correct g2 W2) as (m & Em & Wm & Am & _). eauto. }
  destruct A3 as (g3 & E3 & W3 & L3). rewrite E3. cbn [bind].
  destruct (dump_ok g3 W3) as (t & Et). exists t, g3. split; auto. split; auto. split; auto.
  split; [|intros; apply dump_round_trip; auto].
  intros w. rewrite L3, L2. apply L1.
Qed.

(** ** Construction histories *)
Inductive built : Graph -> Prop :=
| b_ctor i f d g : graph_new i f d = Ok g -> built g
| b_nfa i f d g : from_nfa i f d = Ok g -> built g
| b_spec t g : from_istream t = Ok g -> built g
| b_att t g : from_att_istream t = Ok g -> built g
| b_reversed g g' : built g -> reversed g = Ok g' -> built g'
| b_minimized g g' : built g -> minimized g = Ok g' -> built g'
| b_unreach g g' : built g -> removed_unreachable g = Ok g' -> built g'
| b_grouped g g' : built g -> grouped_nondistinguishable g = Ok g' -> built g'
| b_negated g g' : built g -> negated g = Ok g' -> built g'
| b_reserve g d g' : built g -> reserve_states_at_depth g d = Ok g' -> built g'.

Definition closed (g : Graph) : Prop :=
  targets_ok (g_delta g) /\ length (g_finalvec g) = length (g_delta g).

Lemma closed_new i f d g : graph_new i f d = Ok g -> closed g.
Proof.
  intros H. apply graph_new_ok in H as (T & F & ->). split; auto. cbn.
  rewrite map_length, seq_length. reflexivity.
Qed.

Ltac unbind H := let E := fresh "E" in
  apply bind_ok in H as (? & E & H);
  match type of H with
  | context [match ?x with _ => _ end] => is_var x; destruct x as [? ?]
  | _ => idtac
  end.

Lemma closed_nfa i f d g : from_nfa i f d = Ok g -> closed g.
Proof.
  unfold from_nfa. intros H. apply bind_ok in H as (s & _ & H).
  destruct (get_or_create_state _ _ _) as [[q m] df]. apply bind_ok in H as (dl & _ & H).
  eapply closed_new; eauto.
Qed.

Lemma closed_removed g g' : removed_unreachable g = Ok g' -> closed g'.
Proof.
  unfold removed_unreachable. intros H.
  apply bind_ok in H as (? & _ & H). apply bind_ok in H as (? & _ & H).
  apply bind_ok in H as (? & _ & H). apply bind_ok in H as (? & _ & H). eapply closed_new; eauto.
Qed.
Lemma closed_grouped g g' : grouped_nondistinguishable g = Ok g' -> closed g'.
Proof.
  unfold grouped_nondistinguishable. intros H.
  apply bind_ok in H as (? & _ & H). apply bind_ok in H as (? & _ & H).
  apply bind_ok in H as (? & _ & H). apply bind_ok in H as (qt & _ & H).
  destruct (qt_init qt); [|discriminate]. eapply closed_new; eauto.
Qed.

Lemma built_closed g : built g -> closed g.
Proof.
  induction 1 as [i f d g H|i f d g H|t g H|t g H|g g' B IH H|g g' B IH H|g g' B IH H|g g' B IH H
                 |g g' B IH H|g d g' B IH H].
  - eapply closed_new; eauto.
  - eapply closed_nfa; eauto.
  - unfold from_istream in H. apply bind_ok in H as (s & _ & H).
    destruct (if _ =? _ then _ else _).
    + apply bind_ok in H as (dl & _ & H). destruct (match p_init s with [] => _ | _ => _ end); [discriminate|].
      eapply closed_new; eauto.
    + eapply closed_nfa; eauto.
  - unfold from_att_istream in H. apply bind_ok in H as ([fs d] & _ & H). eapply closed_nfa; eauto.
  - unfold reversed in H. apply bind_ok in H as (dl & _ & H). eapply closed_nfa; eauto.
  - unfold minimized in H. apply bind_ok in H as (dl & _ & H). eapply closed_grouped; eauto.
  - eapply closed_removed; eauto.
  - eapply closed_grouped; eauto.
  - unfold negated in H. apply bind_ok in H as (dl & _ & H). eapply closed_new; eauto.
  - unfold reserve_states_at_depth in H. apply bind_ok in H as (s & _ & H).
    apply bind_ok in H as (lv & _ & H). injection H as <-. exact IH.
Qed.

Lemma closed_run g q w : closed g -> q < size g ->
  exists q', run_from g q w = Ok q' /\ q' < size g /\ exists b, is_final_state g q' = Ok b.
Proof.
  intros [T F]. revert q. induction w as [|b w IH]; intros q Hq.
  - exists q. split; [reflexivity|]. split; auto. unfold is_final_state.
    destruct (nth_error (g_finalvec g) q) as [x|] eqn:E.
    + exists x. apply at_ok; auto.
    + apply nth_error_None in E. unfold size in Hq. lia.
  - cbn. rewrite next_state_nxt by auto. cbn.
    apply IH. unfold nxt, size in *.
    destruct (nth_error (g_delta g) q) eqn:E; [|apply nth_error_None in E; lia].
    apply T. eapply nth_error_In; eauto.
Qed.
