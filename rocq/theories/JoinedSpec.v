(** Command lines in which an option may be written with its value in one word.  Written without the parser of
    JoinedModel.v. *)
From Coq Require Import String.
From Coq Require Import List Arith Bool NArith Ascii Permutation.
Import ListNotations.
From Verif Require Import Base GraphModel TextModel CliModel DotModel TorusModel CmdModel LtlModel MainModel MainSpec.
Local Open Scope list_scope.

(** The ways to write the items after the subcommand: every option as "--name value" or, if the value is not empty,
    as "--name=value". *)
Inductive written_as : list item -> list text -> Prop :=
| wa_nil : written_as [] []
| wa_two n v items w : written_as items w -> written_as (Opt n v :: items) (lit n :: v :: w)
| wa_one n v items w : v <> [] -> written_as items w -> written_as (Opt n v :: items) ((lit n ++ "="%char :: v) :: w)
| wa_flag n items w : written_as items w -> written_as (Flag n :: items) (lit n :: w)
| wa_pos v items w : written_as items w -> written_as (Pos v :: items) (v :: w).

(** As [command_line], in any of these spellings. *)
Definition joined_line (argv : list text) (c : list string) (o : list (string * option text)) (p : list text) : Prop :=
  exists g items w, general g /\ written_as items w /\ argv = g ++ map lit c ++ w /\
    Permutation (options items) o /\ positionals items = p /\ Forall plain_word p.

(** The flags of the program. *)
Definition flags : list string :=
  ["--verbose"; "--quiet"; "--minimized"; "--reversed"; "--negated"; "--spec-reversed"; "--make-all-live-states-final"]%string.
(** A word "--name=value": a name that begins with a letter and is none of the flags [fl], and a value. *)
Definition name_value (fl : list string) (w : text) : Prop :=
  exists c n v, w = lit "--" ++ (c :: n) ++ "="%char :: v /\ ~ In "="%char (c :: n) /\ v <> [] /\
    c <> "-"%char /\ 33 < nat_of_ascii c /\ forall x, In x fl -> lit "--" ++ c :: n <> lit x.
(** What is still left open: strange words that are not of this form, strange numbers, also after "=", a flag that is
    repeated, and the name of a subcommand where an option or a positional argument is due. *)
Definition still_outside (argv : list text) : Prop :=
  (exists w, In w argv /\ strange w /\ ~ name_value flags w) \/
  (exists w, In w argv /\ (strange_number w \/ exists n v, w = n ++ "="%char :: v /\ strange_number v)) \/
  (exists a b c n, argv = a ++ lit n :: b ++ lit n :: c /\ In n flags) \/
  (exists pre c post, argv = pre ++ lit c :: post /\ In c commands /\ ~ general pre /\
     ~ exists g, general g /\ pre = g ++ [lit "run"] /\ In c run_commands).
