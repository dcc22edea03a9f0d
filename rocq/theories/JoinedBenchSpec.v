(** The command lines of the benchmark program in which an option may be written with its value in one word. *)
From Coq Require Import String.
From Coq Require Import List Arith Bool NArith ZArith Ascii Permutation.
Import ListNotations.
From Verif Require Import Base GraphModel TextModel CliModel DotModel TorusModel CmdModel LtlModel MainModel MainSpec JoinedSpec.
Local Open Scope list_scope.

(** As [bench_line], in any spelling. *)
Definition bench_joined_line (argv : list text) (method : string) (o : list (string * option text)) : Prop :=
  exists (v : bool) items w, written_as items w /\ argv = (if v then [lit "--verbose"] else []) ++ lit method :: w /\
    Permutation (options items) o /\ positionals items = [].
(** The flags of the benchmark program. *)
Definition bench_flags : list string := ["--verbose"; "--spec-reversed"; "--sanitize-result"]%string.
(** What is still left open (compare [still_outside]). *)
Definition bench_still_outside (argv : list text) : Prop :=
  (exists w, In w argv /\ strange w /\ ~ name_value bench_flags w) \/
  (exists w, In w argv /\ (strange_number w \/ exists n v, w = n ++ "="%char :: v /\ strange_number v)) \/
  (exists a b c n, argv = a ++ lit n :: b ++ lit n :: c /\ In n bench_flags) \/
  (exists pre c post, argv = pre ++ lit c :: post /\ In c commands /\ pre <> [] /\ pre <> [lit "--verbose"]).
