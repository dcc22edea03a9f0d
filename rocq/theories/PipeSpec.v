(** What a pipeline of `homfa spec2spec` calls amounts to, for C73.  Nothing here refers to the code. *)
From Coq Require Import List Arith Bool.
Import ListNotations.

(** The options given to one call. *)
Record call := mkCall { minimizing : bool; reversing : bool; negating : bool }.

(** [calls] from left to right: `spec2spec ... | spec2spec ... | ...` *)
Definition reversals (calls : list call) : nat := length (filter reversing calls).
Definition negations (calls : list call) : nat := length (filter negating calls).
Definition minimizes (calls : list call) : bool := existsb minimizing calls.

(** The five things that can come out, up to negation. *)
Inductive shape := AsIs | Minimal | Reversed | MinimalReversed | TwiceReversed.

(** Without --reversed only the presence of --minimized counts, and so it is with one --reversed.
    From the second --reversed on only the parity of their number counts. *)
Definition shape_of (minimized : bool) (reversals : nat) : shape :=
  match reversals with
  | 0 => if minimized then Minimal else AsIs
  | 1 => if minimized then MinimalReversed else Reversed
  | _ => if Nat.even reversals then TwiceReversed else MinimalReversed
  end.

(** The effect of a pipeline: its shape, and whether the number of --negated is odd. *)
Definition effect (calls : list call) : shape * bool :=
  (shape_of (minimizes calls) (reversals calls), Nat.odd (negations calls)).

(** One call or two with a given effect. *)
Definition short (e : shape * bool) : list call :=
  match fst e with
  | AsIs => [mkCall false false (snd e)]
  | Minimal => [mkCall true false (snd e)]
  | Reversed => [mkCall false true (snd e)]
  | MinimalReversed => [mkCall true true (snd e)]
  | TwiceReversed => [mkCall false true false; mkCall false true (snd e)]
  end.
