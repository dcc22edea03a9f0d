(** The manual of the program counter.  Written without the parser of CtestCliModel.v. *)
From Coq Require Import String.
From Coq Require Import List Arith Bool NArith Ascii.
Import ListNotations.
From Verif Require Import Base GraphModel TextModel DotModel CliModel CmdModel MainSpec JoinedSpec.
Local Open Scope list_scope.

(** A number of threads: decimal, at least 1, and an int. *)
Definition threads (t : text) (n : nat) : Prop := t = show_nat n /\ 0 < n /\ (N.of_nat n < 2 ^ 31)%N.
(** The command lines: nothing, or --cpu with a number, in one word or two. *)
Inductive counter_line : list text -> option nat -> Prop :=
| cl_none : counter_line [] None
| cl_two t n : threads t n -> counter_line [lit "--cpu"; t] (Some n)
| cl_one t n : threads t n -> counter_line [lit "--cpu=" ++ t] (Some n).
(** Another spelling that CLI11 may read as a number, or one that is no number of threads. *)
Definition strange_threads (t : text) : Prop :=
  ((exists c, In c t /\ 48 <= nat_of_ascii c <= 57) \/ t = lit "true") /\ forall n, ~ threads t n.
(** What is left open: strange words (see [strange]) other than --name=value, and strange numbers. *)
Definition counter_outside (argv : list text) : Prop :=
  exists w, In w argv /\
    ((strange w /\ ~ name_value [] w) \/ strange_threads w \/ exists t, w = lit "--cpu=" ++ t /\ strange_threads t).
