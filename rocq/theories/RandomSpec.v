(** Specification vocabulary for the randomised tests: monitors and automata that agree on a word. *)
From Coq Require Import List Arith Bool.
Import ListNotations.
From Verif Require Import Base GraphModel Spec LtlModel LtlSpec.

(** No edge of the monitor leads to a state without edges. *)
Definition no_dead_ends (M : monitor) : Prop := forall q q' c, In (q', c) (m_out M q) -> m_out M q' <> [].

(** [g] gives the monitor's verdict on [w] when it reads [v] *)
Definition agrees (M : monitor) (n : nat) (w : list bool) (g : Graph) (v : list bool) : Prop :=
  (whole M n w -> dfa_accepts g v) /\ (~ whole M n w -> dfa_rejects g v).
Definition agrees_opt (M : monitor) (n : nat) (w : list bool) (g : option Graph) (v : list bool) : Prop :=
  match g with Some g => agrees M n w g v | None => True end.

