(** Specification of monitors: truth of a condition, runs, and what Spot guarantees. *)
From Coq Require Import List Arith Bool.
Import ListNotations.
From Verif Require Import Base GraphModel LtlModel.

(** [sat M val b]: the valuation [val] (bit i is the value of p<i>) satisfies the condition. *)
Inductive sat (M : monitor) (val : list bool) : bdd -> Prop :=
| sat_true : sat M val BT
| sat_low v low high i : m_var M i = Some v -> nth_error val i = Some false -> sat M val low -> sat M val (BN v low high)
| sat_high v low high i : m_var M i = Some v -> nth_error val i = Some true -> sat M val high -> sat M val (BN v low high).

(** [monitor_run M q vals q']: the monitor can go from q to q' reading the valuations. *)
Inductive monitor_run (M : monitor) : nat -> list (list bool) -> nat -> Prop :=
| run_nil q : monitor_run M q [] q
| run_cons q val c q1 vals q2 :
    In (q1, c) (m_out M q) -> sat M val c -> monitor_run M q1 vals q2 -> monitor_run M q (val :: vals) q2.

(** The variables of a condition are propositions p<i>, from <= i < n, tested in ascending order. *)
Inductive ordered (M : monitor) (n : nat) : nat -> bdd -> Prop :=
| ordered_false i : ordered M n i BF
| ordered_true i : ordered M n i BT
| ordered_node i j v low high : i <= j < n -> m_var M j = Some v ->
    ordered M n (S j) low -> ordered M n (S j) high -> ordered M n i (BN v low high).

(** A monitor over the propositions p0 .. p<n-1> as Spot builds it: the states exist, different
    propositions have different variables, registered in ascending order, and no condition is
    unsatisfiable. *)
Record monitor_ok (M : monitor) (n : nat) : Prop := mkMonitorOk {
  mo_init : m_init M < m_ns M;
  mo_dst : forall q q' c, q < m_ns M -> In (q', c) (m_out M q) -> q' < m_ns M;
  mo_vars : forall i j v, i < n -> j < n -> m_var M i = Some v -> m_var M j = Some v -> i = j;
  mo_ordered : forall q q' c, q < m_ns M -> In (q', c) (m_out M q) -> ordered M n 0 c;
  mo_sat : forall q q' c, q < m_ns M -> In (q', c) (m_out M q) -> exists val, length val = n /\ sat M val c }.

(** The bit words of the monitor: whole valuations, one after the other. *)
Definition whole (M : monitor) (n : nat) (w : list bool) : Prop :=
  exists vals q, Forall (fun val => length val = n) vals /\ w = concat vals /\ monitor_run M (m_init M) vals q.
(** ... and possibly the beginning of one more valuation that some edge permits. *)
Definition whole_or_begun (M : monitor) (n : nat) (w : list bool) : Prop :=
  exists vals q rest, Forall (fun val => length val = n) vals /\ w = concat vals ++ rest /\ monitor_run M (m_init M) vals q /\
    (rest = [] \/ exists q' c more, In (q', c) (m_out M q) /\ length (rest ++ more) = n /\ sat M (rest ++ more) c).

(** [tests c v]: some valuation of the variables that makes [c] true tests [v]. *)
Inductive can_hold : bdd -> Prop :=
| hold_true : can_hold BT
| hold_low v low high : can_hold low -> can_hold (BN v low high)
| hold_high v low high : can_hold high -> can_hold (BN v low high).
Inductive tests : bdd -> nat -> Prop :=
| tests_here v low high : can_hold (BN v low high) -> tests (BN v low high) v
| tests_low v low high u : tests low u -> tests (BN v low high) u
| tests_high v low high u : tests high u -> tests (BN v low high) u.
