(** Model of test_homfa.sh: the command lines of its checks, and when it stops.

    The program test0 and the first lines (72-80) are in Test0Model.v; test_plain_random (line 73, a
    comment) is in RandomModel.v.  Not modelled: the file _test_stderr with the collected messages, and the colours of the error
    messages.  The shell runs with -e: the first check that fails ends the script.  Inside $( ) the
    option -e is off, and the exit statuses are tested by nostderr instead. *)
From Coq Require Import String.
From Coq Require Import List Arith Bool NArith Ascii.
Import ListNotations.
From Verif Require Import Base GraphModel TextModel CliModel DotModel TorusModel CmdModel LtlModel MainModel.
Local Open Scope list_scope.

(** test_homfa.sh:26-58: the first argument of enc_run_dec *)
Inductive mode :=
| offline_dfa | online_dfa_reversed | online_dfa_reversed_with_rev_spec | online_dfa_qtrlwe2
| dfa_plain | online_dfa_blockbackstream.
(** test_homfa.sh:61-69: check_true or check_false, and its four arguments *)
Record test := mkTest { t_expect : bool; t_mode : mode; t_ap : text; t_spec : text; t_in : text }.

(** (auxiliary) literal words of a command line, test_homfa.sh:25-59 *)
Definition args (l : list string) : list text := map lit l.
(** test_homfa.sh:28, 33, 38, 43, 51 *)
Definition enc_args (ap input : text) : list text :=
  args ["enc"; "--ap"]%string ++ [ap] ++ args ["--key"; "_test_sk"; "--in"]%string ++ [input] ++ args ["--out"; "_test_in"]%string.
(** test_homfa.sh:30, 35, 40, 45, 53 *)
Definition dec_args : list text := args ["dec"; "--key"; "_test_sk"; "--in"; "_test_out"]%string.
(** test_homfa.sh:29, 34, 39, 44, 52: the options common to the runs *)
Definition run_args (name : string) (spec : text) (more : list string) : list text :=
  args ["run"; name; "--bkey"; "_test_bk"; "--spec"]%string ++ [spec] ++ args ["--in"; "_test_in"; "--out"; "_test_out"]%string ++ args more.
(** test_homfa.sh:25-59  enc_run_dec: the commands, one after the other.  The constants are those of
    lines 7-11. *)
Definition enc_run_dec (m : mode) (ap spec input : text) : list (list text) :=
  match m with
  | offline_dfa =>
      [enc_args ap input; run_args "offline" spec ["--bootstrapping-freq"; "8000"]%string; dec_args]
  | online_dfa_reversed =>
      [enc_args ap input; run_args "reversed" spec ["--out-freq"; "15"; "--bootstrapping-freq"; "8000"]%string; dec_args]
  | online_dfa_reversed_with_rev_spec =>
      [enc_args ap input;
       run_args "reversed" spec ["--spec-reversed"; "--out-freq"; "15"; "--bootstrapping-freq"; "8000"]%string; dec_args]
  | online_dfa_qtrlwe2 =>
      [enc_args ap input;
       run_args "flut" spec ["--out-freq"; "15"; "--max-second-lut-depth"; "8"; "--queue-size"; "15"; "--bootstrapping-freq"; "1"]%string;
       dec_args]
  | dfa_plain =>
      [args ["run"; "plain"; "--ap"]%string ++ [ap] ++ args ["--spec"]%string ++ [spec] ++ args ["--in"]%string ++ [input]]
  | online_dfa_blockbackstream =>
      [enc_args ap input; run_args "block" spec ["--out-freq"; "15"; "--queue-size"; "15"]%string; dec_args]
  end.

Section Script.
Context (T : tfhe) (Y : crypto T) (spot : spot_lib).

(** test_homfa.sh:19-23  nostderr, for commands one after the other inside $( ) : every execution,
    whatever the random choices [coin] and the order in which threads proceed, leaves files and an
    output for which [Q] holds; a command that fails ends the subshell with a failure. *)
Fixpoint commands_end (f : fs) (cmds : list (list text)) (out : text) (Q : res (fs * text) -> Prop) : Prop :=
  match cmds with
  | [] => Q (Ok (f, out))
  | argv :: rest =>
      forall coin,
        match main T Y spot f [] coin argv with
        | Fail e => Q (Fail FExit)
        | Ok (Writes f') => commands_end f' rest out Q
        | Ok (Prints t) => commands_end f rest (out ++ t) Q
        | Ok (Runs c) => exists r, run_ends T Y (Ok c) f r /\
                           match r with Ok f' => commands_end f' rest out Q | Fail e => Q (Fail FExit) end
        end
  end.

(** test_homfa.sh:61-69  check_true and check_false, one after the other (lines 86-140) *)
Fixpoint checks_end (f : fs) (l : list test) (Q : res fs -> Prop) : Prop :=
  match l with
  | [] => Q (Ok f)
  | t :: rest =>
      commands_end f (enc_run_dec (t_mode t) (t_ap t) (t_spec t) (t_in t)) [] (fun r =>
        match r with
        | Fail e => Q (Fail FExit)
        | Ok (f', res) => if path_eqb res (if t_expect t then [c_1] else [c_0]) then checks_end f' rest Q else Q (Fail FExit)
        end)
  end.

(** (auxiliary) "[ -f name ] || command", test_homfa.sh:83-84 *)
Definition unless_there (f : fs) (name : text) (argv : list text) (Q : res fs -> Prop) : Prop :=
  match f name with
  | Some _ => Q (Ok f)
  | None => commands_end f [argv] [] (fun r => match r with Ok (f', _) => Q (Ok f') | Fail e => Q (Fail e) end)
  end.
(** test_homfa.sh:82-140: the keys, then the checks *)
Definition script_ends (f : fs) (l : list test) (Q : res fs -> Prop) : Prop :=
  unless_there f (lit "_test_sk") (args ["genkey"; "--out"; "_test_sk"]%string) (fun r =>
    match r with
    | Fail e => Q (Fail e)
    | Ok f1 => unless_there f1 (lit "_test_bk") (args ["genbkey"; "--key"; "_test_sk"; "--out"; "_test_bk"]%string) (fun r =>
        match r with Fail e => Q (Fail e) | Ok f2 => checks_end f2 l Q end)
    end).
End Script.

(** * bench.sh and bench_ltl.sh *)
(** bench.sh:30 (without "multitime -n5") *)
Definition bench_run (spec : text) : list text :=
  args ["run-offline-dfa"; "--bkey"; "_test_bk"; "--spec"]%string ++ [spec] ++ args ["--in"; "_test_in"; "--out"; "_test_out"]%string.
(** bench_ltl.sh:28 (without "multitime -n5") *)
Definition bench_ltl_run : list text :=
  args ["run-online-dfa"; "--method"; "qtrlwe2"; "--bkey"; "_test_bk"; "--spec"; "_test_spec"; "--in"; "_test_in"; "--out"; "_test_out"]%string.

(** * The files in test/ *)
(** test/01.spec:1-9 *)
Definition spec_01 : text := lit ">0* 1   2
1   3   4
2   3   0
3   5   6
4   7   8
5   3   4
6   3   0
7   4   4
8   0   0
".
(** test/01_rev.spec:1-9 *)
Definition spec_01_rev : text := lit ">0*	1	2
1	3	4
2	3	5
3	3	3
4	6	7
5*	8	8
6	4	3
7	5	3
8	5	5
".
(** test/10.spec:1-9 *)
Definition spec_10 : text := lit ">0*	0	1
1	1	2
2	2	3
3	3	4
4	4	5
5	5	6
6	6	7
7	7	8
8	8	0
".
(** test/10_rev.spec:1-9 *)
Definition spec_10_rev : text := lit ">0*	0	1
1	1	2
2	2	3
3	3	4
4	4	5
5	5	6
6	6	7
7	7	8
8	8	0
".

(** test_homfa.sh:87-140: the checks *)
Definition checks : list test :=
  let t := fun m ap spec input => mkTest true m (lit ap) (lit spec) (lit input) in
  let f := fun m ap spec input => mkTest false m (lit ap) (lit spec) (lit input) in
  [
   t dfa_plain "2" "test/01.spec" "test/01-01.in";
   f dfa_plain "2" "test/01.spec" "test/01-02.in";
   t dfa_plain "2" "test/01.spec" "test/01-03.in";
   f dfa_plain "2" "test/01.spec" "test/01-04.in";
   t dfa_plain "2" "test/01.spec" "test/01-05.in";
   f dfa_plain "2" "test/01.spec" "test/01-06.in";
   t dfa_plain "2" "test/01.spec" "test/01-07.in";
   f dfa_plain "2" "test/01.spec" "test/01-08.in";
   t dfa_plain "9" "test/10.spec" "test/10-01.in";
   f dfa_plain "9" "test/10.spec" "test/10-02.in";
   t dfa_plain "9" "test/10.spec" "test/10-03.in";
   t offline_dfa "2" "test/01.spec" "test/01-01.in";
   f offline_dfa "2" "test/01.spec" "test/01-02.in";
   t offline_dfa "2" "test/01.spec" "test/01-03.in";
   f offline_dfa "2" "test/01.spec" "test/01-04.in";
   t offline_dfa "2" "test/01.spec" "test/01-05.in";
   f offline_dfa "2" "test/01.spec" "test/01-06.in";
   t offline_dfa "9" "test/10.spec" "test/10-01.in";
   f offline_dfa "9" "test/10.spec" "test/10-02.in";
   t offline_dfa "9" "test/10.spec" "test/10-03.in";
   t online_dfa_reversed "2" "test/01.spec" "test/01-07.in";
   f online_dfa_reversed "2" "test/01.spec" "test/01-08.in";
   t online_dfa_reversed "2" "test/01.spec" "test/01-01.in";
   f online_dfa_reversed "2" "test/01.spec" "test/01-02.in";
   t online_dfa_reversed "2" "test/01.spec" "test/01-03.in";
   t online_dfa_reversed_with_rev_spec "2" "test/01_rev.spec" "test/01-07.in";
   f online_dfa_reversed_with_rev_spec "2" "test/01_rev.spec" "test/01-08.in";
   t online_dfa_reversed "9" "test/10.spec" "test/10-01.in";
   f online_dfa_reversed "9" "test/10.spec" "test/10-02.in";
   t online_dfa_reversed "9" "test/10.spec" "test/10-03.in";
   t online_dfa_qtrlwe2 "2" "test/01.spec" "test/01-07.in";
   f online_dfa_qtrlwe2 "2" "test/01.spec" "test/01-08.in";
   t online_dfa_qtrlwe2 "2" "test/01.spec" "test/01-01.in";
   f online_dfa_qtrlwe2 "2" "test/01.spec" "test/01-02.in";
   t online_dfa_qtrlwe2 "2" "test/01.spec" "test/01-03.in";
   t online_dfa_qtrlwe2 "9" "test/10.spec" "test/10-01.in";
   f online_dfa_qtrlwe2 "9" "test/10.spec" "test/10-02.in";
   t online_dfa_qtrlwe2 "9" "test/10.spec" "test/10-03.in";
   t online_dfa_blockbackstream "2" "test/01.spec" "test/01-07.in";
   f online_dfa_blockbackstream "2" "test/01.spec" "test/01-08.in";
   t online_dfa_blockbackstream "2" "test/01.spec" "test/01-01.in";
   f online_dfa_blockbackstream "2" "test/01.spec" "test/01-02.in";
   t online_dfa_blockbackstream "2" "test/01.spec" "test/01-03.in";
   t online_dfa_blockbackstream "9" "test/10.spec" "test/10-01.in";
   f online_dfa_blockbackstream "9" "test/10.spec" "test/10-02.in";
   t online_dfa_blockbackstream "9" "test/10.spec" "test/10-03.in"]%string.

(** (auxiliary) the comments of test_homfa.sh:87-97: a pattern repeated *)
Definition times {A} (l : list A) (n : nat) : list A := concat (repeat l n).
(** test/01-01.in ... test/10-03.in, and the specifications.  A byte holds a valuation of 2 bits, two bytes
    one of 9 bits. *)
Definition test_files : list (string * list N) :=
  [("test/01.spec"%string, map N_of_ascii spec_01); ("test/01_rev.spec"%string, map N_of_ascii spec_01_rev);
   ("test/10.spec"%string, map N_of_ascii spec_10); ("test/10_rev.spec"%string, map N_of_ascii spec_10_rev);
   ("test/01-01.in"%string, times [3] 800); ("test/01-02.in"%string, times [1] 800); ("test/01-03.in"%string, times [0; 1; 2; 2; 3] 160);
   ("test/01-04.in"%string, [1] ++ times [0; 1] 160 ++ [2] ++ times [0; 2] 160); ("test/01-05.in"%string, times [0; 1; 2; 2; 3] 800);
   ("test/01-06.in"%string, [1] ++ times [0; 1] 800 ++ [2] ++ times [0; 2] 1200); ("test/01-07.in"%string, times [3] 4);
   ("test/01-08.in"%string, times [1] 4); ("test/10-01.in"%string, times [255; 1] 100); ("test/10-02.in"%string, times [255; 0] 100);
   ("test/10-03.in"%string, times [255; 0] 90)]%N.
