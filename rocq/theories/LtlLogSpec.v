(** Specification vocabulary for C84: what ltl2spec logs with --verbose. *)
From Coq Require Import String.
From Coq Require Import List Arith Bool NArith Ascii.
Import ListNotations.
From Verif Require Import Base GraphModel TextModel DotModel LtlModel LtlSpec.
Local Open Scope list_scope.

(** The condition of a transition can be met, and the propositions that matter for it are among p0 .. p<n-1>. *)
Definition fit (M : monitor) (n : nat) (c : bdd) : Prop := can_hold c /\ forall v, tests c v -> exists i, i < n /\ m_var M i = Some v.

(** A state is reached; a transition is begun; its two closing lines; a count of propositions. *)
Definition state_line (ns s : nat) : text := show_nat s ++ lit "/" ++ show_nat ns.
Definition edge_line (s d : nat) : text := show_nat s ++ lit " " ++ show_nat d.
Definition closing (s d : nat) : list text := [edge_line s d ++ lit " END TABLE BEGIN"; edge_line s d ++ lit " END TABLE END"].
Definition count_line (n : nat) (t : text) : Prop := exists k, 1 <= k <= n /\ t = show_nat k.

Section Log.
Context (M : monitor) (n : nat).

(** A transition from s to d that has been translated: it is named, counts of propositions follow, then the number of a state, and the end. *)
Definition edge_done (s : nat) (e : nat * bdd) (l : list text) : Prop :=
  fit M n (snd e) /\ exists counts a, Forall (count_line n) counts /\
    l = edge_line s (fst e) :: counts ++ show_nat a :: closing s (fst e).
(** One at which the translation stops: it is named, and the end is missing. *)
Definition edge_open (s : nat) (e : nat * bdd) (l : list text) : Prop :=
  exists counts, Forall (count_line n) counts /\
    (l = edge_line s (fst e) :: counts \/ exists a, l = edge_line s (fst e) :: counts ++ [show_nat a]).
(** A state with its transitions. *)
Definition state_done (s : nat) (l : list text) : Prop :=
  exists parts, Forall2 (edge_done s) (m_out M s) parts /\ l = state_line (m_ns M) s :: concat parts.

(** The log of a monitor that is translated: state by state. *)
Definition complete (l : list text) : Prop :=
  exists parts, Forall2 state_done (seq 0 (m_ns M)) parts /\ l = concat parts.
(** The log of a monitor that is not: as above up to the transition [e] from [s], which is the last one named. *)
Definition stops_at (s : nat) (e : nat * bdd) (l : list text) : Prop :=
  s < m_ns M /\ exists before later parts edges open,
    m_out M s = before ++ e :: later /\
    Forall2 state_done (seq 0 s) parts /\ Forall2 (edge_done s) before edges /\ edge_open s e open /\
    l = concat parts ++ state_line (m_ns M) s :: concat edges ++ open.
End Log.

(** A condition as BuDDy keeps it: no node with two equal branches. *)
Fixpoint reduced (c : bdd) : Prop := match c with BN _ low high => low <> high /\ reduced low /\ reduced high | _ => True end.
