(** Property theorems C01-C13 about class Graph: statements only; the proofs are in
    FromNfa.v, GraphOps.v, Minimize.v, Quotient.v, GraphMore.v.
    Each theorem is followed by an [Example] showing that a concrete non-trivial case meets its
    hypotheses, and by [Print Assumptions]. *)
From Coq Require Import List Arith Bool NArith ZArith Lia.
Import ListNotations.
From Verif Require Import Base BaseFacts GraphModel Spec GraphFacts FromNfa GraphOps Minimize
  Quotient GraphMore.

(** * Sample automata *)

(** An NFA with two initial states, an empty transition list and a duplicate target:
    used with the initial states 0 and 1. *)
Definition ex_nfa : nfa_table :=
  [(0, [0], [0; 1; 1]); (1, [], [2]); (2, [2], [2])].

(** A DFA with an unreachable state (3), two equivalent states (1, 2) and a non-zero
    initial state. *)
Definition ex_rows : list (nat * nat * nat) :=
  [(0, 0, 1); (1, 0, 2); (2, 0, 2); (3, 4, 1); (4, 1, 0)].
Definition ex_dfa : Graph := graph_of 4 [1; 2] ex_rows.

(** The constructor accepts every consistent table, and the result is a well-formed graph
    whose API reads back the table. *)
Theorem constructor_wf init finals rows :
  init < length rows ->
  is_set finals -> (forall q, In q finals -> q < length rows) ->
  (forall q lbl q0 q1, nth_error rows q = Some (lbl, q0, q1) ->
     lbl = q /\ q0 < length rows /\ q1 < length rows) ->
  exists g, graph_new init finals rows = Ok g /\ wf_graph g /\
    size g = length rows /\ initial_state g = init /\
    (forall q lbl q0 q1, nth_error rows q = Some (lbl, q0, q1) ->
       next_state g q false = Ok q0 /\ next_state g q true = Ok q1 /\
       exists b, is_final_state g q = Ok b /\ (b = true <-> In q finals)).
Proof.
  intros Hi HS HF HR.
  assert (HT : targets_ok rows).
  { intros r Hr b. apply In_nth_error in Hr as (q & Hq). destruct r as [[l a] c].
    destruct (HR _ _ _ _ Hq) as (_ & A & B). destruct b; auto. }
  exists (graph_of init finals rows). split; [apply graph_new_good; auto|].
  split; [apply graph_of_wf; auto; intros q l a c Hq; apply (HR _ _ _ _ Hq)|].
  split; [reflexivity|]. split; [reflexivity|].
  intros q l a c Hq. rewrite !next_state_nth. cbn [graph_of g_delta]. rewrite Hq.
  split; [reflexivity|]. split; [reflexivity|].
  unfold is_final_state, at_. cbn [graph_of g_finalvec].
  assert (q < length rows) by (eapply nth_error_lt; eauto).
  rewrite nth_error_map, nth_error_seq by auto. cbn. eexists; split; [reflexivity|].
  apply smem_In.
Qed.

Example constructor_wf_nonvacuous :
  4 < length ex_rows /\ is_set [1; 2] /\ (forall q, In q [1; 2] -> q < length ex_rows) /\
  (forall q lbl q0 q1, nth_error ex_rows q = Some (lbl, q0, q1) ->
     lbl = q /\ q0 < length ex_rows /\ q1 < length ex_rows).
Proof.
  split; [cbn; lia|]. split; [cbn; lia|]. split; [cbn; intros; lia|].
  intros q l a b H. do 5 (destruct q; [cbn in *; injection H as <- <- <-; lia|]).
  destruct q; discriminate.
Qed.

Lemma ex_dfa_wf : wf_graph ex_dfa.
Proof.
  destruct constructor_wf_nonvacuous as (A & B & C & D).
  destruct (constructor_wf 4 [1; 2] ex_rows A B C D) as (g & E & W & _).
  replace ex_dfa with g; auto. vm_compute in E. injection E as <-. reflexivity.
Qed.

(** * C01: determinisation preserves the language.
    [dfa_decides g L]: running [g] never fails and accepts exactly the words of [L]. *)
Theorem C01_from_nfa_language inits finals rows g :
  is_set inits ->
  from_nfa inits finals rows = Ok g ->
  dfa_decides g (nfa_accepts inits finals rows).
Proof. exact (from_nfa_language inits finals rows g). Qed.

Example C01_nonvacuous : exists g, is_set [0; 1] /\ from_nfa [0; 1] [2] ex_nfa = Ok g /\ size g = 4.
Proof. eexists. split; [cbn; lia|]. split; [vm_compute; reflexivity|reflexivity]. Qed.

(** * C02: determinisation terminates on every input and rejects exactly the NFAs with a
    reachable state that has no row. *)
Theorem C02_from_nfa_total inits finals rows :
  is_set inits ->
  (nfa_no_dangling inits rows ->
     exists g, from_nfa inits finals rows = Ok g /\ wf_graph g /\ initial_state g = 0 /\
       (forall q, q < size g -> dfa_reaches g q) /\ size g <= 2 ^ length rows) /\
  (~ nfa_no_dangling inits rows -> from_nfa inits finals rows = Fail FOutOfRange).
Proof.
  intros HS. destruct (from_nfa_ok_iff inits finals rows HS) as [H1 H2]. split; auto.
  intros H. apply H1 in H as (g & E). exists g. split; auto.
  split; [eapply from_nfa_wf; eauto|]. split.
  - pose proof (from_nfa_spec inits finals rows HS) as G. rewrite E in G. tauto.
  - split; [eapply from_nfa_reachable; eauto|eapply from_nfa_size; eauto].
Qed.

Example C02_nonvacuous_ok : nfa_no_dangling [0; 1] ex_nfa.
Proof.
  apply (proj1 (from_nfa_ok_iff [0; 1] [2] ex_nfa ltac:(cbn; lia))).
  eexists. vm_compute. reflexivity.
Qed.
Example C02_nonvacuous_dangling : ~ nfa_no_dangling [0] [(0, [1], [0]); (1, [7], [])].
Proof.
  intros H. enough (7 < 2) by lia. apply (H 0 [false; false] 7); [cbn; auto|].
  eapply path_cons with (q1 := 1); [exists 0, [1], [0]; cbn; auto|].
  eapply path_cons with (q1 := 7); [exists 1, [7], []; cbn; auto|]. constructor.
Qed.

(** * C03: reversal accepts exactly the mirrored words. *)
Theorem C03_reversed_language g : wf_graph g ->
  exists g', reversed g = Ok g' /\ wf_graph g' /\
    forall w, (dfa_accepts g' w <-> dfa_accepts g (rev w)) /\
              (dfa_rejects g' w <-> dfa_rejects g (rev w)).
Proof.
  intros W. destruct (reversed_correct g W) as (g' & E & W' & A & _). exists g'.
  split; auto. split; auto. intros w. destruct (A (rev w)) as (b & A1 & A2).
  rewrite rev_involutive in A2. unfold dfa_accepts, dfa_rejects. rewrite A1, A2. tauto.
Qed.
Example C03_nonvacuous : wf_graph ex_dfa. Proof. exact ex_dfa_wf. Qed.

(** * C04: minimisation terminates without failure and preserves the language. *)
Theorem C04_minimized_language g : wf_graph g ->
  exists m, minimized g = Ok m /\ wf_graph m /\ forall w, accepts m w = accepts g w.
Proof. intros W. destruct (minimized_correct g W) as (m & E & W' & A & _). eauto. Qed.
Example C04_nonvacuous : wf_graph ex_dfa /\ exists m, minimized ex_dfa = Ok m /\ size m = 3.
Proof. split; [exact ex_dfa_wf|]. eexists. split; [vm_compute; reflexivity|reflexivity]. Qed.

(** * C05: no DFA with the same language is smaller; minimising twice changes nothing. *)
Theorem C05_minimized_minimal g m h :
  wf_graph g -> minimized g = Ok m ->
  wf_graph h -> (forall w, accepts h w = accepts g w) ->
  size m <= size h.
Proof.
  intros W E Wh A. destruct (minimized_correct g W) as (m' & E' & Wm & Am & R & D).
  rewrite E in E'. injection E' as <-.
  apply minimal; auto. intros w. rewrite Am, A. reflexivity.
Qed.

Theorem C05_minimized_idempotent_size g m m2 :
  wf_graph g -> minimized g = Ok m -> minimized m = Ok m2 -> size m2 = size m.
Proof.
  intros W E1 E2. destruct (minimized_correct g W) as (m' & E' & Wm & Am & R & D).
  rewrite E1 in E'. injection E' as <-.
  destruct (minimized_correct m Wm) as (m' & E' & Wm2 & Am2 & R2 & D2).
  rewrite E2 in E'. injection E' as <-.
  apply Nat.le_antisymm.
  - apply minimal; auto. 
  - apply minimal; auto.
Qed.
Example C05_nonvacuous : exists m, wf_graph ex_dfa /\ minimized ex_dfa = Ok m /\
  wf_graph ex_dfa /\ (forall w, accepts ex_dfa w = accepts ex_dfa w) /\ size m < size ex_dfa /\
  exists m2, minimized m = Ok m2.
Proof.
  eexists. split; [exact ex_dfa_wf|]. split; [vm_compute; reflexivity|].
  split; [exact ex_dfa_wf|]. split; [auto|]. split; [cbn; lia|].
  eexists. vm_compute. reflexivity.
Qed.

(** * C06: removing unreachable states. *)
Theorem C06_removed_unreachable g : wf_graph g ->
  exists g', removed_unreachable g = Ok g' /\ wf_graph g' /\
    (forall w, accepts g' w = accepts g w) /\
    (forall q, q < size g' -> dfa_reaches g' q) /\
    (exists R, NoDup R /\ (forall q, In q R <-> dfa_reaches g q) /\ length R = size g').
Proof. exact (removed_unreachable_claim g). Qed.
Example C06_nonvacuous : wf_graph ex_dfa /\ exists g', removed_unreachable ex_dfa = Ok g' /\ size g' = 4.
Proof. split; [exact ex_dfa_wf|]. eexists. split; [vm_compute; reflexivity|reflexivity]. Qed.

(** * C07: merging states keeps the language, and any two states of the result differ on
    some word.  Unreachable states are allowed in [g]. *)
Theorem C07_grouped g : wf_graph g ->
  exists g', grouped_nondistinguishable g = Ok g' /\ wf_graph g' /\
    (forall w, accepts g' w = accepts g w) /\
    (forall p q, p < size g' -> q < size g' -> p <> q ->
       exists w p1 q1 a b, run_from g' p w = Ok p1 /\ run_from g' q w = Ok q1 /\
         is_final_state g' p1 = Ok a /\ is_final_state g' q1 = Ok b /\ a <> b).
Proof.
  intros W. destruct (grouped_claim g W) as (g' & E & W' & A & D & _).
  exists g'. split; auto.
Qed.
Example C07_nonvacuous : wf_graph ex_dfa /\ exists g', grouped_nondistinguishable ex_dfa = Ok g' /\ size g' = 4.
Proof. split; [exact ex_dfa_wf|]. eexists. split; [vm_compute; reflexivity|reflexivity]. Qed.

(** * C08: negation is complement, with the same transitions and initial state. *)
Theorem C08_negated g : wf_graph g ->
  exists g', negated g = Ok g' /\ wf_graph g' /\
    size g' = size g /\ initial_state g' = initial_state g /\
    (forall q b, next_state g' q b = next_state g q b) /\
    forall w, (dfa_accepts g' w <-> dfa_rejects g w) /\ (dfa_rejects g' w <-> dfa_accepts g w).
Proof.
  intros W. destruct (negated_correct g W) as (g' & E & W' & HS & A). exists g'.
  split; auto. split; auto. split; auto.
  assert (ED : g_delta g' = g_delta g /\ g_init g' = g_init g).
  { unfold negated in E. apply bind_ok in E as (nf & _ & E). apply graph_new_ok in E as (_ & _ & ->).
    cbn. auto. }
  destruct ED as [ED EI].
  split; [exact EI|]. split; [intros; unfold next_state; rewrite ED; reflexivity|].
  intros w. destruct (A w) as (b & A1 & A2). unfold dfa_accepts, dfa_rejects. rewrite A1, A2.
  destruct b; cbn; split; split; congruence.
Qed.
Example C08_nonvacuous : wf_graph ex_dfa. Proof. exact ex_dfa_wf. Qed.

(** * C10: predecessor lists are the exact inverse of next_state. *)
Theorem C10_prev_states g q b : wf_graph g ->
  (q < size g ->
     exists ps, prev_states g q b = Ok ps /\ NoDup ps /\
       forall p, In p ps <-> p < size g /\ next_state g p b = Ok q) /\
  (size g <= q -> prev_states g q b = Fail FOutOfRange).
Proof. intros W. split; [exact (prev_states_correct g q b W)|exact (prev_states_out g q b W)]. Qed.
Example C10_nonvacuous : wf_graph ex_dfa /\ prev_states ex_dfa 1 true = Ok [0; 3].
Proof. split; [exact ex_dfa_wf|reflexivity]. Qed.

(** * C11: states_at_depth is exact bounded reachability. *)
Theorem C11_states_at_depth g depth : wf_graph g ->
  exists g', reserve_states_at_depth g depth = Ok g' /\
    (* reserving changes nothing else that can be observed *)
    size g' = size g /\ initial_state g' = initial_state g /\
    (forall q b, next_state g' q b = next_state g q b) /\
    (forall q, is_final_state g' q = is_final_state g q) /\
    (forall k, depth <= k -> states_at_depth g' k = Fail FOutOfRange) /\
    forall k, k < depth -> exists l, states_at_depth g' k = Ok l /\ is_set l /\
      forall q, In q l <-> exists w, length w = k /\ run_from g (initial_state g) w = Ok q.
Proof.
  intros W. destruct (states_at_depth_correct g depth W) as (g' & E & W' & ED & EF & EI & H1 & H2).
  exists g'. split; auto. unfold size, initial_state, next_state, is_final_state.
  rewrite ED, EI. split; auto. split; auto. split; auto. split; auto.
  intros q. unfold reserve_states_at_depth in E.
  apply bind_ok in E as (? & _ & E). apply bind_ok in E as (? & _ & E). injection E as <-.
  reflexivity.
Qed.
Example C11_nonvacuous : wf_graph ex_dfa /\ exists g',
  reserve_states_at_depth ex_dfa 4 = Ok g' /\ states_at_depth g' 2 = Ok [0; 1; 2].
Proof. split; [exact ex_dfa_wf|]. eexists. split; vm_compute; reflexivity. Qed.

(** * C12: track_live_states is exact reachability from a list of states. *)
Theorem C12_track_live_states g qs depth : wf_graph g ->
  (forall q, In q qs -> q < size g) ->
  exists L, track_live_states g qs depth = Ok L /\ length L = S depth /\
    nth_error L 0 = Some qs /\
    forall k l, nth_error L k = Some l -> (0 < k -> is_set l) /\
      forall p, In p l <-> exists q w, In q qs /\ length w = k /\ run_from g q w = Ok p.
Proof. exact (track_live_states_correct g qs depth). Qed.
Example C12_nonvacuous : wf_graph ex_dfa /\ (forall q, In q [3; 1] -> q < size ex_dfa) /\
  track_live_states ex_dfa [3; 1] 1 = Ok [[3; 1]; [0; 1; 2; 4]].
Proof. split; [exact ex_dfa_wf|]. split; [cbn; intros; lia|reflexivity]. Qed.

(** * C13: transition64.  The full claim is
      forall g q x len, len <= 64 -> transition64 g q x len = run over the low len bits of x.
    It holds up to 31 bits, and for 32 bits when x fits 32 bits; it fails beyond. *)
Theorem C13_transition64_partial g q x n : n <= 31 ->
  transition64 g q x (Z.of_nat n) =
  run_from g q (map (fun i => N.testbit x (N.of_nat i)) (seq 0 n)).
Proof. exact (transition64_low g q x n). Qed.

Theorem C13_transition64_32bit g q x : (x < 2 ^ 32)%N ->
  transition64 g q x 32 = run_from g q (map (fun i => N.testbit x (N.of_nat i)) (seq 0 32)).
Proof. exact (transition64_32 g q x). Qed.

(** What a 32-bit read does on every 64-bit word: the low 31 bits are read as they should, and the
    last bit read is one exactly when the word is 2^31 or more, i.e. when any bit from 31 on is set.
    So it is the run over the low 32 bits whenever bit 31 is set or the word fits 32 bits. *)
Theorem C13_transition64_32_exact g q x : (x < 2 ^ 64)%N ->
  transition64 g q x 32 =
    run_from g q (map (fun i => N.testbit x (N.of_nat i)) (seq 0 31) ++ [(2 ^ 31 <=? x)%N]) /\
  (N.testbit x 31 = true \/ (x < 2 ^ 32)%N ->
   transition64 g q x 32 = run_from g q (map (fun i => N.testbit x (N.of_nat i)) (seq 0 32))).
Proof.
  intros H. split; [exact (transition64_32_any g q x H)|].
  intros [B|B]; [|exact (transition64_32 g q x B)].
  rewrite (transition64_32_any g q x H).
  change (seq 0 32) with (seq 0 31 ++ [31]). rewrite map_app. cbn [map].
  change (N.of_nat 31) with 31%N. rewrite B.
  replace (2 ^ 31 <=? x)%N with true; [reflexivity|]. symmetry. apply N.leb_le.
  destruct (N.le_gt_cases (2 ^ 31) x) as [|L]; auto. exfalso.
  destruct (N.eq_dec x 0) as [->|Hx]; [rewrite N.bits_0 in B; discriminate|].
  assert (N.log2 x < 31)%N by (apply N.log2_lt_pow2; lia).
  rewrite N.bits_above_log2 in B by lia. discriminate.
Qed.

(** Length 32, x = 2^32: bits 0..31 are all zero, but the last step reads a one, because
    1 << 31 is sign-extended. *)
Theorem C13_transition64_refuted : exists g q x,
  wf_graph g /\ q < size g /\ (x < 2 ^ 64)%N /\
  exists q1 q2, transition64 g q x 32 = Ok q1 /\
    run_from g q (map (fun i => N.testbit x (N.of_nat i)) (seq 0 32)) = Ok q2 /\ q1 <> q2.
Proof.
  exists (graph_of 0 [1] [(0, 0, 1); (1, 0, 1)]), 0, 4294967296%N.
  split.
  { apply graph_of_wf; cbn; auto; try lia.
    - intros r [<-|[<-|[]]] [|]; cbn; lia.
    - intros q l a b. destruct q as [|[|[|q]]]; cbn; congruence. }
  split; [cbn; lia|]. split; [vm_compute; reflexivity|].
  exists 1, 0. split; [vm_compute; reflexivity|]. split; [vm_compute; reflexivity|lia].
Qed.

(** Longer (or negative) lengths always reach an undefined shift. *)
Theorem C13_transition64_undefined g q x len : wf_graph g -> q < size g ->
  (33 <= len \/ len < 0)%Z -> transition64 g q x len = Fail FUndefined.
Proof. exact (transition64_undefined g q x len). Qed.
Example C13_nonvacuous : transition64 ex_dfa 4 5 3 = run_from ex_dfa 4 [true; false; true] /\
  wf_graph ex_dfa /\ 4 < size ex_dfa.
Proof. split; [reflexivity|]. split; [exact ex_dfa_wf|cbn; lia]. Qed.

Print Assumptions constructor_wf.
Print Assumptions C01_from_nfa_language.
Print Assumptions C02_from_nfa_total.
Print Assumptions C03_reversed_language.
Print Assumptions C04_minimized_language.
Print Assumptions C05_minimized_minimal.
Print Assumptions C05_minimized_idempotent_size.
Print Assumptions C06_removed_unreachable.
Print Assumptions C07_grouped.
Print Assumptions C08_negated.
Print Assumptions C10_prev_states.
Print Assumptions C11_states_at_depth.
Print Assumptions C12_track_live_states.
Print Assumptions C13_transition64_partial.
Print Assumptions C13_transition64_32bit.
Print Assumptions C13_transition64_32_exact.
Print Assumptions C13_transition64_refuted.
Print Assumptions C13_transition64_undefined.
