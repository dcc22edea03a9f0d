(** Specification for C71: what a truncated specification can be read as. *)
From Coq Require Import List Arith Bool NArith Ascii.
Import ListNotations.
From Verif Require Import Base GraphModel BitsModel.

(** Every use of the automaton throws. *)
Definition useless (g : Graph) : Prop :=
  size g = 0 /\ (forall q, is_final_state g q = Fail FOutOfRange) /\ (forall q b, next_state g q b = Fail FOutOfRange).

(** [g'] has the first [k + 1] states of [g] and differs from them in one place: the last 1-successor that
    was read is smaller than the one that was written, which had at least two digits. *)
Definition last_number_cut (g g' : Graph) : Prop :=
  exists k, size g' = S k /\ k < size g /\
    (forall q, q <= k -> is_final_state g' q = is_final_state g q) /\
    (forall q, q <= k -> next_state g' q false = next_state g q false) /\
    (forall q, q < k -> next_state g' q true = next_state g q true) /\
    exists written read, next_state g k true = Ok written /\ next_state g' k true = Ok read /\
      read < written /\ 10 <= written.

(** The row of the initial state is missing, the first row took its place, and the rows that were read are
    all there is to them. *)
Definition initial_row_cut (g g' : Graph) : Prop :=
  0 < size g' /\ size g' <= initial_state g /\ initial_state g' = 0 /\
  forall q, q < size g' -> is_final_state g' q = is_final_state g q /\ forall b, next_state g' q b = next_state g q b.

(** Running the plaintext automaton of file [p] never gives an answer, or always what file [out] gives. *)
Definition run_fails_or_agrees (p out : list ascii) : Prop :=
  (forall input ap b, do_run_dfa_plain p input ap <> Ok b) \/
  (forall input ap, do_run_dfa_plain p input ap = do_run_dfa_plain out input ap).
