(** Model of test_benchmark.sh: the command lines of its runs, its comparisons, and when it stops.

    The shell runs with -eu, without pipefail: a command that fails, or a pipeline whose last command
    fails, ends the script; what happens inside <( ) does not.  The arguments of run_test are words
    that the shell leaves as they are (they are not quoted in lines 27-64).  Not modelled: the trace of
    -x, the output of diff, and what the files hold after a failure. *)
From Coq Require Import String.
From Coq Require Import List Arith Bool NArith ZArith Ascii.
Import ListNotations.
From Verif Require Import Base TextModel DotModel TorusModel CmdModel TimeModel BenchModel ScriptModel.
Local Open Scope list_scope.

(** test_benchmark.sh:22-72: the first argument of run_benchmark; "qtrlwe2" is another name of "flut" *)
Inductive bmode := B_offline | B_reversed | B_flut | B_bbs | B_plain.
(** test_benchmark.sh:15-73  run_benchmark: the words of the command.  The constants are those of lines
    6-7. *)
Definition run_benchmark (m : bmode) (ap_size spec_filepath input_filepath output_freq : text) : list text :=
  match m with
  | B_offline => args ["offline"; "--spec"]%string ++ [spec_filepath] ++ args ["--in"]%string ++ [input_filepath] ++
      args ["--bootstrapping-freq"; "30000"; "--ap"]%string ++ [ap_size]
  | B_reversed => args ["reversed"; "--spec"]%string ++ [spec_filepath] ++ args ["--in"]%string ++ [input_filepath] ++
      args ["--bootstrapping-freq"; "30000"; "--out-freq"]%string ++ [output_freq] ++ args ["--ap"]%string ++ [ap_size] ++
      args ["--spec-reversed"]%string
  | B_flut => args ["qtrlwe2"; "--spec"]%string ++ [spec_filepath] ++ args ["--in"]%string ++ [input_filepath] ++
      args ["--bootstrapping-freq"; "1"; "--out-freq"]%string ++ [output_freq] ++ args ["--ap"]%string ++ [ap_size] ++
      args ["--queue-size"; "15"; "--max-second-lut-depth"; "8"]%string
  | B_bbs => args ["bbs"; "--spec"]%string ++ [spec_filepath] ++ args ["--in"]%string ++ [input_filepath] ++
      args ["--out-freq"]%string ++ [output_freq] ++ args ["--ap"]%string ++ [ap_size] ++ args ["--queue-size"]%string ++ [output_freq]
  | B_plain => args ["plain"; "--spec"]%string ++ [spec_filepath] ++ args ["--in"]%string ++ [input_filepath] ++
      args ["--out-freq"]%string ++ [output_freq] ++ args ["--ap"]%string ++ [ap_size]
  end.

(** test_benchmark.sh:29: the file that every run of the program writes *)
Definition log_file : text := lit "_test_log".
(** test_benchmark.sh:82: the last result of the plain run *)
Definition last_file : text := lit "_test_log_plain_last".
(** test_benchmark.sh:84: the results of the plain run *)
Definition plain_file : text := lit "_test_log_plain".

(** (auxiliary) "cat name", test_benchmark.sh:82-93 *)
Definition cat (f : fs) (name : text) : text := match f name with Some b => map ascii_of_N b | None => [] end.
(** (auxiliary) "> name", test_benchmark.sh:29, 82, 84 *)
Definition redirect (f : fs) (name content : text) : fs := write f name (map N_of_ascii content).
(** (auxiliary) the line begins with the letters of p, test_benchmark.sh:82 *)
Fixpoint begins (p line : text) : bool :=
  match p, line with
  | [], _ => true
  | c :: p', d :: line' => Ascii.eqb c d && begins p' line'
  | _, [] => false
  end.
(** (auxiliary) lines as they are printed by grep and tail, test_benchmark.sh:82-93 *)
Definition unlines (l : list text) : text := concat (map (fun line => line ++ [c_nl]) l).
(** test_benchmark.sh:82-93: grep -E "^result"; its status is a failure if it prints nothing *)
Definition grep_result (t : text) : text := unlines (filter (begins (lit "result")) (getlines c_nl [] t)).
(** test_benchmark.sh:82: tail -1 *)
Definition tail_1 (t : text) : text :=
  match rev (getlines c_nl [] t) with [] => [] | line :: _ => unlines [line] end.

Section BenchScript.
Context (T : tfhe) (Y : crypto T).
(** the durations that can be measured *)
Context (measurable : (nat -> text) -> (nat -> Z) -> Prop).

(** test_benchmark.sh:24-68: the program is run on the words [argv], and what it prints goes to the
    log, which is emptied first.  Every execution, whatever the time, the durations and the order of
    the lines of the table, leaves files for which [Q] holds, or fails. *)
Definition benchmark_ends (f : fs) (argv : list text) (Q : res fs -> Prop) : Prop :=
  let f := redirect f log_file [] in
  forall clock times now, measurable clock times ->
    match bench_main T Y clock times f now argv with
    | Fail e => Q (Fail e)
    | Ok (out, None) => Q (Ok (redirect f log_file (concat (map line_text out))))
    | Ok (out, Some samples) => forall r, dumpCSV samples r ->
        match r with
        | Fail e => Q (Fail e)
        | Ok csv => Q (Ok (redirect f log_file (concat (map line_text out) ++ csv)))
        end
    end.
(** (auxiliary) -e: what follows is done if the command succeeded, test_benchmark.sh:1 *)
Definition proceed (Q : res fs -> Prop) (next : fs -> Prop) (r : res fs) : Prop :=
  match r with Fail e => Q (Fail e) | Ok f => next f end.
(** test_benchmark.sh:86-87, 88-89, 90-91, 92-93: a run, and the comparison of the results with a file *)
Definition compare_ends (f : fs) (argv : list text) (file : text) (Q : res fs -> Prop) : Prop :=
  benchmark_ends f argv (proceed Q (fun f =>
    if path_eqb (cat f file) (grep_result (cat f log_file)) then Q (Ok f) else Q (Fail FExit))).

(** test_benchmark.sh:76-79: the arguments of run_test *)
Record btest := mkBTest { bt_ap : text; bt_spec : text; bt_rev : text; bt_in : text }.
(** test_benchmark.sh:75-94  run_test.  OUTPUT_FREQ is set in line 5. *)
Definition run_test_ends (f : fs) (t : btest) (Q : res fs -> Prop) : Prop :=
  let run m spec freq := run_benchmark m (bt_ap t) spec (bt_in t) freq in
  benchmark_ends f (run B_plain (bt_spec t) (lit "1")) (proceed Q (fun f =>
    let f := redirect f last_file (tail_1 (grep_result (cat f log_file))) in
    benchmark_ends f (run B_plain (bt_spec t) (lit "30")) (proceed Q (fun f =>
      let results := grep_result (cat f log_file) in
      let f := redirect f plain_file results in
      match results with
      | [] => Q (Fail FExit)
      | _ =>
          compare_ends f (run B_offline (bt_spec t) (lit "0")) last_file (proceed Q (fun f =>
          compare_ends f (run B_reversed (bt_rev t) (lit "30")) plain_file (proceed Q (fun f =>
          compare_ends f (run B_flut (bt_spec t) (lit "30")) plain_file (proceed Q (fun f =>
          compare_ends f (run B_bbs (bt_spec t) (lit "30")) plain_file Q))))))
      end)))).
(** test_benchmark.sh:96-104: the tests, one after the other *)
Fixpoint bench_script_ends (f : fs) (l : list btest) (Q : res fs -> Prop) : Prop :=
  match l with
  | [] => Q (Ok f)
  | t :: rest => run_test_ends f t (proceed Q (fun f => bench_script_ends f rest Q))
  end.
End BenchScript.

(** test_benchmark.sh:96-104 *)
Definition bench_tests : list btest :=
  let t := fun ap spec spec_rev input => mkBTest (lit ap) (lit spec) (lit spec_rev) (lit input) in
  [t "2" "test/01.spec" "test/01_rev.spec" "test/01-01.in";
   t "2" "test/01.spec" "test/01_rev.spec" "test/01-02.in";
   t "2" "test/01.spec" "test/01_rev.spec" "test/01-03.in";
   t "2" "test/01.spec" "test/01_rev.spec" "test/01-04.in";
   t "2" "test/01.spec" "test/01_rev.spec" "test/01-05.in";
   t "2" "test/01.spec" "test/01_rev.spec" "test/01-06.in";
   t "9" "test/10.spec" "test/10_rev.spec" "test/10-01.in";
   t "9" "test/10.spec" "test/10_rev.spec" "test/10-02.in";
   t "9" "test/10.spec" "test/10_rev.spec" "test/10-03.in"]%string.
