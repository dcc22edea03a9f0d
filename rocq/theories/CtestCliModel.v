(** The command line of the program counter (src/counter.cpp:745-774).  CLI11 as in MainModel.v and JoinedModel.v: "--cpu n" or
    "--cpu=n", at most once, and nothing else.  TBB's arena is not modelled: CtestModel.v allows every interleaving of the
    tests, so that those of an arena with n threads are among them. *)
From Coq Require Import String.
From Coq Require Import List Arith Bool NArith Ascii.
Import ListNotations.
From Verif Require Import Base GraphModel TextModel TorusModel CmdModel MainModel JoinedModel CrashModel CtestModel.
Local Open Scope list_scope.

(** src/counter.cpp:750-751 (CLI11_PARSE): the values given for --cpu.  There are no positional arguments and no subcommands. *)
Fixpoint cpu_values (argv : list text) : res (list text) :=
  match argv with
  | [] => Ok []
  | a :: rest =>
      if negb (dashed a) then Fail FExit
      else if odd_word a then
        match joined a with
        | Some (n, v) => if is_name n "--cpu" then do l <- cpu_values rest; Ok (v :: l) else Fail FExit
        | None => Fail FUndefined
        end
      else if is_name a "--cpu" then
        match rest with
        | [] => Fail FExit
        | v :: rest' => do l <- cpu_values rest'; Ok (v :: l)
        end
      else Fail FExit
  end.
(** src/counter.cpp:748-750: std::optional<int>.  Other spellings than plain decimal, numbers that are no int, and 0, for which
    TBB promises nothing, are left open. *)
Definition cpu_number (v : text) : res nat :=
  match read_num v with
  | Some n => if (0 <? n)%N && (n <? 2 ^ 31)%N then Ok (N.to_nat n) else Fail FUndefined
  | None => if odd_number v then Fail FUndefined else Fail FExit
  end.
(** src/counter.cpp:747-751; an option that is given twice is refused *)
Definition ctest_parse (argv : list text) : res (option nat) :=
  do vs <- cpu_values argv;
  match vs with
  | [] => Ok None
  | [v] => do n <- cpu_number v; Ok (Some n)
  | _ => Fail FExit
  end.

Section Keys.
Context {SK BK : Type} (save_sk : SK -> list N) (save_bk : BK -> list N)
        (read_sk : list N -> option SK) (read_bk : list N -> option BK).
(** src/counter.cpp:745-771: the threads that are asked for, the keys that the test is given, and the files *)
Definition ctest_main (f : fs) (sk : SK) (bk : BK) (argv : list text) : res (option nat * (SK * BK * fs)) :=
  do c <- ctest_parse argv;
  do k <- main_keys save_sk save_bk read_sk read_bk f sk bk;
  Ok (c, k).
End Keys.
