(** The command line of src/benchmark.cpp with options that are written "--name=value" (see JoinedModel.v). *)
From Coq Require Import String.
From Coq Require Import List Arith Bool NArith ZArith Ascii.
Import ListNotations.
From Verif Require Import Base GraphModel TextModel DotModel BitsModel TorusModel RunnerModel ParModel StreamModel
  ClientModel CmdModel TimeModel MainModel BenchModel JoinedModel.
Local Open Scope list_scope.

(** (auxiliary) a word in the place of the subcommand that is none, src/benchmark.cpp:446-447, 561: as [no_command], the only
    option of the program itself being the flag --verbose *)
Definition b_no_command (a : text) : fault :=
  if dashed a && odd_word a then
    match joined a with
    | Some (n, _) => if is_name n "--verbose" then FUndefined else FExit
    | None => FUndefined
    end
  else FExit.
(** src/benchmark.cpp:446-447, 462, 561: the flag --verbose, then a subcommand, which is required *)
Fixpoint b_parse_joined_from (seen : bool) (f : fs) (argv : list text) : res Args :=
  match argv with
  | [] => Fail FExit
  | a :: rest =>
      if is_name a "--verbose" then if seen then Fail FUndefined else b_parse_joined_from true f rest
      else match find_sub b_subs a with Some s => parse_sub_joined f s rest | None => Fail (b_no_command a) end
  end.
(** src/benchmark.cpp:444-596  main; [argv] without the name of the program *)
Definition bench_main_joined (T : tfhe) (Y : crypto T) (clock : nat -> text) (times : nat -> Z) (f : fs) (now : tm) (argv : list text) : res report :=
  do A <- b_parse_joined_from false f argv;
  b_dispatch T Y clock times f A (print "time" (current_time_str now) []).
