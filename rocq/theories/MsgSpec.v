(** Specification vocabulary for C78: what a reader of specifications must say about the text it reads. *)
From Coq Require Import String.
From Coq Require Import List Arith Bool NArith Ascii.
Import ListNotations.
From Verif Require Import Base GraphModel Spec TextSpec TextModel DotModel MsgModel.
Local Open Scope list_scope.

(** A number that does not fit into a C++ int. *)
Definition too_large (s : text) : Prop := exists v, decimal s v /\ (2147483647 < v)%N.

(** The first entry of a list of targets that is no int: an empty one, or one that is too large. *)
Inductive wrong := Empty | Large.
Inductive first_wrong : text -> wrong -> Prop :=
| fw_empty f : first_wrong (","%char :: f) Empty
| fw_large s : too_large s -> first_wrong s Large
| fw_large_more s f : too_large s -> first_wrong (s ++ ","%char :: f) Large
| fw_later s n f w : int_number s n -> first_wrong f w -> first_wrong (s ++ ","%char :: f) w.

(** The complaint: an error message, or none because an exception is not caught. *)
Definition list_complaint (w : wrong) : option text :=
  match w with Empty => Some (lit "Expected number as comma separted state, but got  (stoi)") | Large => None end.

(** [bad_row q l c]: the line [l] is a row but cannot be the row of state [q], and [c] is the complaint.
    The 0-targets are looked at first, then the 1-targets, the state number last. *)
Inductive bad_row (q : nat) (l : text) : option text -> Prop :=
| bad_zero i n f f0 f1 w : row_format l i n f f0 f1 -> first_wrong f0 w -> bad_row q l (list_complaint w)
| bad_one i n f f0 f1 q0s w : row_format l i n f f0 f1 -> targets f0 q0s -> first_wrong f1 w -> bad_row q l (list_complaint w)
| bad_large i n f f0 f1 q0s q1s : row_format l i n f f0 f1 -> targets f0 q0s -> targets f1 q1s -> too_large n -> bad_row q l None
| bad_number i n f f0 f1 q0s q1s k : row_format l i n f f0 f1 -> targets f0 q0s -> targets f1 q1s -> int_number n k -> k <> q ->
    bad_row q l (Some (lit "Invalid state number: " ++ show_nat k ++ lit " != " ++ show_nat q)).

(** An AT&T line of the right shape, whatever the size of its numbers. *)
Definition att_shaped (l : text) : Prop :=
  (exists a b c, a <> [] /\ Forall Digit a /\ b <> [] /\ Forall Digit b /\ (c = "0"%char \/ c = "1"%char) /\
     l = a ++ "009"%char :: b ++ "009"%char :: [c]) \/
  (l <> [] /\ Forall Digit l).

(** The lines that are not rows, each reported with one message. *)
Inductive skips : list text -> list note -> Prop :=
| skips_nil : skips [] []
| skips_row l ls ns : is_row l -> skips ls ns -> skips (l :: ls) ns
| skips_other l ls ns : ~ is_row l -> skips ls ns -> skips (l :: ls) ((LInfo, lit "Skip line """ ++ l ++ lit """") :: ns).

(** A complaint as it appears: the message followed by the announcement of a backtrace and the backtrace, and exit;
    or no message and an uncaught std::out_of_range. *)
Definition complains {A} (trace : text) (before : list note) (c : option text) : said A :=
  match c with
  | Some m => (before ++ [(LError, m); (LError, lit "Preparing backtrace..."); (LError, trace)], Fail FExit)
  | None => (before, Fail FOutOfRange)
  end.
