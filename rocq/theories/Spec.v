(** Independent specification of automata: textbook definitions over plain tables.
    Nothing here refers to the model's algorithms; only the outcome type and the public
    API queries (initial_state / next_state / is_final_state / size) are used to
    talk about a Graph. *)
From Coq Require Import List Arith Bool.
Import ListNotations.
From Verif Require Import Base GraphModel.

(** * Nondeterministic automata given by a transition table: row [q] lists the
    0-successors and the 1-successors of state [q]. *)
Notation nfa_table := (list (nat * list nat * list nat)) (only parsing).

Definition nfa_edge (dn : nfa_table) (q : nat) (b : bool) (q' : nat) : Prop :=
  exists lbl d0 d1, nth_error dn q = Some (lbl, d0, d1) /\ In q' (if b then d1 else d0).

Inductive nfa_path (dn : nfa_table) : nat -> list bool -> nat -> Prop :=
| path_nil q : nfa_path dn q [] q
| path_cons q b q1 w q2 :
    nfa_edge dn q b q1 -> nfa_path dn q1 w q2 -> nfa_path dn q (b :: w) q2.

Definition nfa_accepts (inits finals : list nat) (dn : nfa_table) (w : list bool) : Prop :=
  exists q q', In q inits /\ nfa_path dn q w q' /\ In q' finals.

(** Every state some word can reach has a row of its own. *)
Definition nfa_no_dangling (inits : list nat) (dn : nfa_table) : Prop :=
  forall q w q', In q inits -> nfa_path dn q w q' -> q' < length dn.

(** * Graphs seen through their API. *)
(** [g] accepts / rejects [w] (the run never throws). *)
Definition dfa_accepts (g : Graph) (w : list bool) : Prop := accepts g w = Ok true.
Definition dfa_rejects (g : Graph) (w : list bool) : Prop := accepts g w = Ok false.

(** The language of [g] is [L] and every word is decided without a failure. *)
Definition dfa_decides (g : Graph) (L : list bool -> Prop) : Prop :=
  forall w, (dfa_accepts g w <-> L w) /\ (dfa_rejects g w <-> ~ L w) /\
            (dfa_accepts g w \/ dfa_rejects g w).

(** What the public constructor returns (possibly followed by
    reserve_states_at_depth), for a row-labelled table and an initial state that exists. *)
Definition wf_graph (g : Graph) : Prop :=
  graph_new (g_init g) (g_final g) (g_delta g) =
    Ok (mkGraph (g_delta g) (g_parents0 g) (g_parents1 g) [] (g_final g) (g_finalvec g) (g_init g))
  /\ (forall q l q0 q1, nth_error (g_delta g) q = Some (l, q0, q1) -> l = q)
  /\ g_init g < length (g_delta g)
  /\ is_set (g_final g).

(** Every state is reached by some word. *)
Definition dfa_reaches (g : Graph) (q : nat) : Prop :=
  exists w, run_from g (initial_state g) w = Ok q.
