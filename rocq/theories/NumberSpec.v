(** Specification for C70: sets of states, and renumbering the states of a specification. *)
From Coq Require Import List Arith Bool.
Import ListNotations.
From Verif Require Import Base GraphModel Spec TextSpec.

(** The specification [t] has the rows [rows]. *)
Definition describes (t : list Ascii.ascii) (rows : list arow) : Prop :=
  exists ls, lines_of t ls /\ rows_of 0 ls rows.

(** After reading [w] the automaton can be in state [q]. *)
Definition can_be_in (rows : list arow) (w : list bool) (q : nat) : Prop :=
  exists i, In i (inits_of rows) /\ nfa_path (table_of rows) i w q.
(** After [u] it can be in the same states as after [v]. *)
Definition brought_together (rows : list arow) (u v : list bool) : Prop :=
  forall q, can_be_in rows u q <-> can_be_in rows v q.
(** It accepts [w]. *)
Definition rows_accept (rows : list arow) (w : list bool) : Prop :=
  exists q, can_be_in rows w q /\ In q (finals_of rows).

(** The same rows with the states numbered differently: state q of [rows] is state [r q] of [rows'].
    The order of the targets in a row and repetitions do not matter. *)
Definition renumbered (r : nat -> nat) (rows rows' : list arow) : Prop :=
  length rows' = length rows /\
  (forall q, q < length rows -> r q < length rows) /\
  (forall p q, p < length rows -> q < length rows -> r p = r q -> p = q) /\
  (forall i, i < length rows -> (In i (inits_of rows) <-> In (r i) (inits_of rows'))) /\
  (forall q i f q0s q1s, nth_error rows q = Some (i, f, q0s, q1s) ->
     exists i' p0s p1s, nth_error rows' (r q) = Some (i', f, p0s, p1s) /\
       (forall x, In x p0s <-> exists y, In y q0s /\ x = r y) /\
       (forall x, In x p1s <-> exists y, In y q1s /\ x = r y)).
