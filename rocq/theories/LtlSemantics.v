(** Specification of LTL and of monitoring: textbook semantics over infinite sequences of valuations,
    the prefixes that can still be continued to a model, and what Spot guarantees about the monitor of
    a formula.  Nothing here refers to the model's algorithms. *)
From Coq Require Import List Arith Bool.
Import ListNotations.
From Verif Require Import LtlModel LtlSpec.

(** Formulas over p0, p1, ... *)
Inductive ltl :=
| LTrue | LFalse | LP (i : nat) | LNot (a : ltl) | LAnd (a b : ltl) | LOr (a b : ltl)
| LX (a : ltl) | LU (a b : ltl) | LR (a b : ltl).
Definition LF (a : ltl) : ltl := LU LTrue a.
Definition LG (a : ltl) : ltl := LR LFalse a.
Definition LImp (a b : ltl) : ltl := LOr (LNot a) b.

(** [holds s i a]: a holds at time i of the sequence s; bit k of [s i] is the value of p<k> then. *)
Fixpoint holds (s : nat -> list bool) (i : nat) (a : ltl) : Prop :=
  match a with
  | LTrue => True
  | LFalse => False
  | LP p => nth_error (s i) p = Some true
  | LNot a => ~ holds s i a
  | LAnd a b => holds s i a /\ holds s i b
  | LOr a b => holds s i a \/ holds s i b
  | LX a => holds s (S i) a
  | LU a b => exists j, i <= j /\ holds s j b /\ forall k, i <= k < j -> holds s k a
  | LR a b => forall j, i <= j -> holds s j b \/ exists k, i <= k < j /\ holds s k a
  end.

(** A sequence of valuations of p0 .. p<n-1>; its first k valuations. *)
Definition trace (n : nat) (s : nat -> list bool) : Prop := forall i, length (s i) = n.
Definition upto (s : nat -> list bool) (k : nat) : list (list bool) := map s (seq 0 k).

(** What has been seen, [vals], can still be continued to a sequence on which the formula holds. *)
Definition possible (n : nat) (a : ltl) (vals : list (list bool)) : Prop :=
  exists s, trace n s /\ upto s (length vals) = vals /\ holds s 0 a.

(** Spot's contract for the monitor of a formula: after one or more valuations, the monitor has a run if
    and only if they can be continued to a model.  (Before the first valuation the monitor of an
    unsatisfiable formula is in its initial state like every other.) *)
Definition monitors (M : monitor) (n : nat) (a : ltl) : Prop :=
  monitor_ok M n /\
  forall vals, vals <> [] -> Forall (fun v => length v = n) vals ->
    ((exists q, monitor_run M (m_init M) vals q) <-> possible n a vals).

(** The safety formulas: negation only in front of propositions, no "until". *)
Fixpoint safe (a : ltl) : Prop :=
  match a with
  | LTrue | LFalse | LP _ | LNot (LP _) => True
  | LAnd a b | LOr a b | LR a b => safe a /\ safe b
  | LX a => safe a
  | LNot _ | LU _ _ => False
  end.
(** The negation of a formula, pushed inwards. *)
Fixpoint dual (a : ltl) : ltl :=
  match a with
  | LTrue => LFalse | LFalse => LTrue | LP p => LNot (LP p) | LNot a => a
  | LAnd a b => LOr (dual a) (dual b) | LOr a b => LAnd (dual a) (dual b)
  | LX a => LX (dual a) | LU a b => LR (dual a) (dual b) | LR a b => LU (dual a) (dual b)
  end.
