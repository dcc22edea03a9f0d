(** Model of the benchmark program, src/benchmark.cpp.

    What the program prints is the list of the key/value pairs given to print, in order, followed
    for two of the methods by the table of the time recorder.  Measured durations are inputs:
    [clock n] is the duration printed in line n, [times n] the duration of the n-th entry of the
    recorder.  If the program fails, its outcome is the failure; the lines printed before it are
    part of the model of BenchOutModel.v.  Key generation succeeds; one key pair is fixed by [crypto].  The
    parallel loops of the runners are the sequential ones of RunnerModel.v (see ParModel.v).
    spdlog's level (565-566) is not modelled. *)
From Coq Require Import String.
From Coq Require Import List Arith Bool NArith ZArith Ascii.
Import ListNotations.
From Verif Require Import Base GraphModel TextModel DotModel BitsModel TorusModel RunnerModel ParModel StreamModel
  ClientModel CmdModel TimeModel MainModel.
Local Open Scope list_scope.

(** src/benchmark.cpp:14-23  current_time_str, from the members of std::tm (tm_year counts from
    1900, tm_mon from 0) *)
Record tm := mkTm { tm_year : Z; tm_mon : nat; tm_mday : nat; tm_hour : nat; tm_min : nat; tm_sec : nat }.
(** src/benchmark.cpp:14-23 *)
Definition current_time_str (t : tm) : text :=
  show_Z (tm_year t + 1900) ++ lit "-" ++ show_nat (tm_mon t) ++ lit "-" ++ show_nat (tm_mday t) ++ lit "_" ++
  show_nat (tm_hour t) ++ lit "-" ++ show_nat (tm_min t) ++ lit "-" ++ show_nat (tm_sec t).

(** A printed line: key and value, src/benchmark.cpp:25-29 *)
Definition line : Type := (text * text)%type.
(** src/benchmark.cpp:25-29  print *)
Definition print (key : string) (value : text) (out : list line) : list line := out ++ [(lit key, value)].
(** (auxiliary) operator<< of a bool, src/benchmark.cpp:28 *)
Definition show_bool (b : bool) : text := if b then lit "1" else lit "0".
(** src/benchmark.cpp:28: the characters of a line *)
Definition line_text (l : line) : text := fst l ++ ","%char :: snd l ++ [c_nl].

(** (auxiliary) the kinds of the recorder, src/timeit.hpp:14-18 *)
Definition kind_of (t : RunnerModel.target) : TimeModel.target :=
  match t with
  | T_CIRCUIT_BOOTSTRAPPING => CircuitBootstrapping
  | T_BOOTSTRAPPING => Bootstrapping
  | T_CMUX => Cmux
  end.
(** (auxiliary) the samples of a runner's recorder with their durations, src/timeit.cpp:19-23 *)
Definition samples_of (times : nat -> Z) (timer : list (RunnerModel.target * nat)) : list sample :=
  map (fun '(i, (t, n)) => mkSample (kind_of t) (N.of_nat n) (times i)) (combine (seq 0 (length timer)) timer).

(** src/benchmark.cpp:101-105, 144-148, 189-193: the members of the three online runners.  result_
    is not initialised. *)
Record bench (R : Type) := mkBench { bn_runner : R; bn_freq : nat; bn_num : nat; bn_result : option tlwe }.
Arguments mkBench {R}.
Arguments bn_runner {R}.
Arguments bn_freq {R}.
Arguments bn_num {R}.
Arguments bn_result {R}.
(** src/benchmark.cpp:108-116, 151-163, 196-205: the constructors *)
Definition bench_new {R} (r : R) (output_freq : nat) : bench R := mkBench r output_freq 0 None.
(** src/benchmark.cpp:138-141, 183-186, 228-231  result *)
Definition bench_result {R} (s : bench R) : res tlwe := match bn_result s with Some c => Ok c | None => Fail FUndefined end.

Section Bench.
Context (T : tfhe) (Y : crypto T).
Context (clock : nat -> text) (times : nat -> Z).
Notation N1 := (t_n1 T).

(** src/benchmark.cpp:31-36  print_elapsed, after the function has run *)
Definition print_elapsed (key : string) (out : list line) : list line := print key (clock (length out)) out.

(** src/benchmark.cpp:38-61  enc_run_dec_loop.  [run] is runner.run, which may print; [result] is
    runner.result.  The random choices of an encryption are numbered by the line it precedes. *)
Definition enc_run_dec_loop {R} (run : R -> trgsw T -> list line -> res (bool * R * list line)) (result : R -> res tlwe)
    (input_file : list N) (num_ap : nat) (runner : R) (out : list line) : res (R * list line) :=
  each_input_bit input_file num_ap
    (fun '(runner, out) input =>
       let enc_input := c_enc T Y (length out) input in
       let out := print_elapsed "enc" out in
       do '(output_exists, runner, out) <- run runner enc_input out;
       let out := print_elapsed "run" out in
       if output_exists : bool then
         do c <- result runner;
         let out := print_elapsed "dec" out in
         Ok (runner, print "result" (show_bool (decrypt_TLWELvl1_to_bit N1 c (c_key T Y))) out)
       else Ok (runner, out))
    (runner, out).

(** src/benchmark.cpp:64-99  OfflineBenchRunner; result_ begins as zeros *)
Record offline_bench := mkOB { ob_runner : backstream; ob_result : tlwe; ob_remaining : nat }.
(** src/benchmark.cpp:71-79 *)
Definition offline_bench_new (f : fs) (spec_filename : text) (input_size boot_interval : nat) (sanitize_result : bool)
  : res offline_bench :=
  do gr <- from_file f spec_filename;
  do r <- offline_new T gr input_size boot_interval true sanitize_result;
  Ok (mkOB r [] input_size).
(** src/benchmark.cpp:86-93  run.  remaining_input_size_ wraps below 0. *)
Definition offline_bench_run (s : offline_bench) (input : trgsw T) : res offline_bench :=
  do r <- offline_eval_one T (ob_runner s) input;
  match ob_remaining s with
  | O => Ok (mkOB r (ob_result s) (N.to_nat (2 ^ 64 - 1)))
  | S m => if m =? 0 then do c <- offline_result T r; Ok (mkOB r c m) else Ok (mkOB r (ob_result s) m)
  end.

(** src/benchmark.cpp:130-135, 175-180, 220-225: the common end of the three run functions.
    num_processed_ does not wrap (2^64 inputs); x % 0 is undefined. *)
Definition bench_run {R} (eval_one : R -> trgsw T -> res R) (ask : R -> res (tlwe * R)) (s : bench R) (input : trgsw T)
  : res (bool * bench R) :=
  do r <- eval_one (bn_runner s) input;
  let n := S (bn_num s) in
  if bn_freq s =? 0 then Fail FUndefined
  else if negb (n mod bn_freq s =? 0) then Ok (false, mkBench r (bn_freq s) n (bn_result s))
  else do '(c, r) <- ask r; Ok (true, mkBench r (bn_freq s) n (Some c)).
(** src/benchmark.cpp:128-136  OnlineDFA2BenchRunner::run *)
Definition bench2_run (s : bench backstream) (input : trgsw T) (out : list line) : res (bool * bench backstream * list line) :=
  do '(b, s) <- bench_run (online2_eval_one T) (fun r => do c <- online2_result T r; Ok (c, r)) s input; Ok (b, s, out).
(** src/benchmark.cpp:170-181  OnlineDFA3BenchRunner::run *)
Definition bench3_run (s : bench (RunnerModel.flut T)) (input : trgsw T) (out : list line)
  : res (bool * bench (RunnerModel.flut T) * list line) :=
  let out := print "num_live_states" (show_nat (length (f_live T (bn_runner s)))) out in
  let out := print "first_lut_depth" (show_nat (f_first T (bn_runner s))) out in
  let out := print "second_lut_depth" (show_nat (f_second T (bn_runner s))) out in
  do '(b, s) <- bench_run (flut_eval_one T) (flut_result T) s input; Ok (b, s, out).
(** src/benchmark.cpp:217-226  OnlineDFA4BenchRunner::run *)
Definition bench4_run (s : bench (RunnerModel.block T)) (input : trgsw T) (out : list line)
  : res (bool * bench (RunnerModel.block T) * list line) :=
  let out := print "num_live_states" (show_nat (length (k_live T (bn_runner s)))) out in
  do '(b, s) <- bench_run (block_eval_one T) (block_result T) s input; Ok (b, s, out).

(** What a method prints: its lines, and the samples of the recorder whose table is printed last *)
(** src/benchmark.cpp:234-442 *)
Definition report : Type := (list line * option (list sample))%type.

(** src/benchmark.cpp:234-263  do_plain.  x % 0 is undefined. *)
Definition do_plain (f : fs) (spec_filename input_filename : text) (output_freq num_ap : nat) (out : list line) : res report :=
  let out := print "config-method" (lit "plain") out in
  let out := print "config-spec" spec_filename out in
  let out := print "config-input" input_filename out in
  let out := print "config-num_ap" (show_nat num_ap) out in
  do gr <- from_file f spec_filename;
  let out := print "config-spec_num_states" (show_nat (size gr)) out in
  do input <- open_file f input_filename;
  do input_size <- each_input_bit input num_ap (fun n _ => Ok (S n)) 0;
  let out := print "config-input_size" (show_nat input_size) out in
  do input <- open_file f input_filename;
  do '(_, _, out) <- each_input_bit input num_ap
    (fun '(cur, i, out) b =>
       do cur <- next_state gr cur b;
       let out := print "state" (show_nat cur) out in
       let i := S i in
       if output_freq =? 0 then Fail FUndefined
       else if i mod output_freq =? 0 then
         do final <- is_final_state gr cur;
         Ok (cur, i, if final : bool then print "result" (lit "1") out else print "result" (lit "0") out)
       else Ok (cur, i, out))
    (initial_state gr, 0, out);
  Ok (out, None).

(** src/benchmark.cpp:265-319  do_offline *)
Definition do_offline (f : fs) (spec_filename input_filename : text) (bootstrapping_freq num_ap : nat) (sanitize_result : bool)
    (out : list line) : res report :=
  let out := print "config-method" (lit "offline") out in
  let out := print "config-spec" spec_filename out in
  let out := print "config-input" input_filename out in
  let out := print "config-bootstrapping_freq" (show_nat bootstrapping_freq) out in
  let out := print "config-num_ap" (show_nat num_ap) out in
  let out := print "config-sanitize_result" (show_bool sanitize_result) out in
  let out := print_elapsed "skey" out in
  let out := print_elapsed "bkey" out in
  do input <- open_file f input_filename;
  do input_bits <- each_input_bit input num_ap (fun v b => Ok (v ++ [b])) [];
  do runner <- offline_bench_new f spec_filename (length input_bits) bootstrapping_freq sanitize_result;
  let out := print_elapsed "init" out in
  let out := print "config-spec_num_states" (show_nat (size (b_graph (ob_runner runner)))) out in
  let out := print "config-input_size" (show_nat (length input_bits)) out in
  do '(runner, out) <- foldM (fun '(runner, out) input =>
         let enc_input := c_enc T Y (length out) input in
         let out := print_elapsed "enc" out in
         do runner <- offline_bench_run runner enc_input;
         Ok (runner, print_elapsed "run" out))
       (rev input_bits) (runner, out);
  let out := print_elapsed "dec" out in
  Ok (print "result" (show_bool (decrypt_TLWELvl1_to_bit N1 (ob_result runner) (c_key T Y))) out, None).

(** src/benchmark.cpp:321-360  do_reversed *)
Definition do_reversed (f : fs) (spec_filename input_filename : text) (output_freq bootstrapping_freq num_ap : nat)
    (spec_reversed sanitize_result : bool) (out : list line) : res report :=
  let out := print "config-method" (lit "reversed") out in
  let out := print "config-spec" spec_filename out in
  let out := print "config-input" input_filename out in
  let out := print "config-output_freq" (show_nat output_freq) out in
  let out := print "config-bootstrapping_freq" (show_nat bootstrapping_freq) out in
  let out := print "config-num_ap" (show_nat num_ap) out in
  let out := print "config-sanitize_result" (show_bool sanitize_result) out in
  let out := print_elapsed "skey" out in
  let out := print_elapsed "bkey" out in
  do gr <- from_file f spec_filename;
  do r <- online2_new T gr bootstrapping_freq spec_reversed true sanitize_result;
  let runner := bench_new r output_freq in
  let out := print_elapsed "init" out in
  let out := print "config-spec_num_states" (show_nat (size (b_graph r))) out in
  do input <- open_file f input_filename;
  do input_size <- each_input_bit input num_ap (fun n _ => Ok (S n)) 0;
  let out := print "config-input_size" (show_nat input_size) out in
  do input <- open_file f input_filename;
  do '(runner, out) <- enc_run_dec_loop bench2_run bench_result input num_ap runner out;
  Ok (out, Some (samples_of times (b_timer (bn_runner runner)))).

(** src/benchmark.cpp:362-403  do_qtrlwe2 *)
Definition do_qtrlwe2 (f : fs) (spec_filename input_filename : text)
    (output_freq max_second_lut_depth queue_size bootstrapping_freq num_ap : nat) (sanitize_result : bool)
    (out : list line) : res report :=
  let out := print "config-method" (lit "qtrlwe2") out in
  let out := print "config-spec" spec_filename out in
  let out := print "config-input" input_filename out in
  let out := print "config-output_freq" (show_nat output_freq) out in
  let out := print "config-max_second_lut_depth" (show_nat max_second_lut_depth) out in
  let out := print "config-queue_size" (show_nat queue_size) out in
  let out := print "config-bootstrapping_freq" (show_nat bootstrapping_freq) out in
  let out := print "config-num_ap" (show_nat num_ap) out in
  let out := print "config-sanitize_result" (show_bool sanitize_result) out in
  let out := print_elapsed "skey" out in
  let out := print_elapsed "bkey" out in
  do gr <- from_file f spec_filename;
  do r <- flut_new T gr max_second_lut_depth queue_size bootstrapping_freq sanitize_result;
  let runner := bench_new r output_freq in
  let out := print_elapsed "init" out in
  let out := print "config-spec_num_states" (show_nat (size (f_graph T r))) out in
  do input <- open_file f input_filename;
  do input_size <- each_input_bit input num_ap (fun n _ => Ok (S n)) 0;
  let out := print "config-input_size" (show_nat input_size) out in
  do input <- open_file f input_filename;
  do '(_, out) <- enc_run_dec_loop bench3_run bench_result input num_ap runner out;
  Ok (out, None).

(** src/benchmark.cpp:405-442  do_bbs.  One of its keys is misspelt. *)
Definition do_bbs (f : fs) (spec_filename input_filename : text) (output_freq queue_size num_ap : nat) (sanitize_result : bool)
    (out : list line) : res report :=
  let out := print "config-method" (lit "bbs") out in
  let out := print "config-spec" spec_filename out in
  let out := print "config-input" input_filename out in
  let out := print "config-output_freq" (show_nat output_freq) out in
  let out := print "config-queue_size" (show_nat queue_size) out in
  let out := print "config-num_ap" (show_nat num_ap) out in
  let out := print "config-sanitize_reuslt" (show_bool sanitize_result) out in
  let out := print_elapsed "skey" out in
  let out := print_elapsed "bkey" out in
  do gr <- from_file f spec_filename;
  do r <- block_new T gr queue_size sanitize_result;
  let runner := bench_new r output_freq in
  let out := print_elapsed "init" out in
  let out := print "config-spec_num_states" (show_nat (size (k_graph T r))) out in
  do input <- open_file f input_filename;
  do input_size <- each_input_bit input num_ap (fun n _ => Ok (S n)) 0;
  let out := print "config-input_size" (show_nat input_size) out in
  do input <- open_file f input_filename;
  do '(runner, out) <- enc_run_dec_loop bench4_run bench_result input num_ap runner out;
  Ok (out, Some (samples_of times (k_timer T (bn_runner runner)))).

(** * main.  The command line is treated as in MainModel.v; the enum of src/benchmark.cpp:449-455
    is represented by the corresponding constructors of TYPE. *)
(** src/benchmark.cpp:463-478 *)
Definition b_plain : sub := mkSub ["plain"%string] BENCH_PLAIN
  [mkOpt "--ap" (ToNum Fnum_ap) true PositiveNumber; mkOpt "--spec" (ToText Fspec) true ExistingFile;
   mkOpt "--in" (ToText Finput) true ExistingFile; mkOpt "--out-freq" (ToNum Foutput_freq) true PositiveNumber].
(** src/benchmark.cpp:479-495 *)
Definition b_offline : sub := mkSub ["offline"%string] BENCH_OFFLINE
  [mkOpt "--ap" (ToNum Fnum_ap) true PositiveNumber;
   mkOpt "--bootstrapping-freq" (ToNum Fbootstrapping_freq) true PositiveNumber;
   mkOpt "--spec" (ToText Fspec) true ExistingFile; mkOpt "--in" (ToText Finput) true ExistingFile;
   mkOpt "--sanitize-result" (ToFlag Fsanitize_result) false NoCheck].
(** src/benchmark.cpp:496-514 *)
Definition b_reversed : sub := mkSub ["reversed"%string] BENCH_REVERSE
  [mkOpt "--ap" (ToNum Fnum_ap) true PositiveNumber; mkOpt "--out-freq" (ToNum Foutput_freq) true PositiveNumber;
   mkOpt "--bootstrapping-freq" (ToNum Fbootstrapping_freq) true PositiveNumber;
   mkOpt "--spec" (ToText Fspec) true ExistingFile; mkOpt "--in" (ToText Finput) true ExistingFile;
   mkOpt "--spec-reversed" (ToFlag Fis_spec_reversed) false NoCheck;
   mkOpt "--sanitize-result" (ToFlag Fsanitize_result) false NoCheck].
(** src/benchmark.cpp:515-540 *)
Definition b_qtrlwe2 : sub := mkSub ["qtrlwe2"%string] BENCH_FLUT
  [mkOpt "--ap" (ToNum Fnum_ap) true PositiveNumber; mkOpt "--out-freq" (ToNum Foutput_freq) true PositiveNumber;
   mkOpt "--queue-size" (ToNum Fqueue_size) true PositiveNumber;
   mkOpt "--bootstrapping-freq" (ToNum Fbootstrapping_freq) true PositiveNumber;
   mkOpt "--spec" (ToText Fspec) true ExistingFile; mkOpt "--in" (ToText Finput) true ExistingFile;
   mkOpt "--max-second-lut-depth" (ToNum Fmax_second_lut_depth) true PositiveNumber;
   mkOpt "--sanitize-result" (ToFlag Fsanitize_result) false NoCheck].
(** src/benchmark.cpp:541-559 *)
Definition b_bbs : sub := mkSub ["bbs"%string] BENCH_BLOCK
  [mkOpt "--ap" (ToNum Fnum_ap) true PositiveNumber; mkOpt "--out-freq" (ToNum Foutput_freq) true PositiveNumber;
   mkOpt "--queue-size" (ToNum Fqueue_size) true PositiveNumber;
   mkOpt "--spec" (ToText Fspec) true ExistingFile; mkOpt "--in" (ToText Finput) true ExistingFile;
   mkOpt "--sanitize-result" (ToFlag Fsanitize_result) false NoCheck].
(** src/benchmark.cpp:462-559 *)
Definition b_subs : list sub := [b_plain; b_offline; b_reversed; b_qtrlwe2; b_bbs].

(** src/benchmark.cpp:446-447, 462, 561: the flag --verbose, then a subcommand, which is required *)
Fixpoint b_parse_from (seen : bool) (f : fs) (argv : list text) : res Args :=
  match argv with
  | [] => Fail FExit
  | a :: rest =>
      if is_name a "--verbose" then if seen then Fail FUndefined else b_parse_from true f rest
      else match find_sub b_subs a with Some s => parse_sub f s rest | None => if dashed a && odd_word a then Fail FUndefined else Fail FExit end
  end.
(** src/benchmark.cpp:568-593: the switch *)
Definition b_dispatch (f : fs) (A : Args) (out : list line) : res report :=
  do s <- value (a_text A Fspec);
  do i <- value (a_text A Finput);
  do n <- value (a_num A Fnum_ap);
  match a_type A with
  | BENCH_PLAIN => do k <- value (a_num A Foutput_freq); do_plain f s i k n out
  | BENCH_OFFLINE => do m <- value (a_num A Fbootstrapping_freq); do_offline f s i m n (a_flag A Fsanitize_result) out
  | BENCH_REVERSE => do k <- value (a_num A Foutput_freq); do m <- value (a_num A Fbootstrapping_freq);
      do_reversed f s i k m n (a_flag A Fis_spec_reversed) (a_flag A Fsanitize_result) out
  | BENCH_FLUT => do k <- value (a_num A Foutput_freq); do d <- value (a_num A Fmax_second_lut_depth);
      do q <- value (a_num A Fqueue_size); do m <- value (a_num A Fbootstrapping_freq);
      do_qtrlwe2 f s i k d q m n (a_flag A Fsanitize_result) out
  | BENCH_BLOCK => do k <- value (a_num A Foutput_freq); do q <- value (a_num A Fqueue_size);
      do_bbs f s i k q n (a_flag A Fsanitize_result) out
  | _ => Fail FUndefined
  end.
(** src/benchmark.cpp:444-596  main; [argv] without the name of the program.  All the variables that
    the chosen method uses have been set, because their options are required. *)
Definition bench_main (f : fs) (now : tm) (argv : list text) : res report :=
  do A <- b_parse_from false f argv;
  b_dispatch f A (print "time" (current_time_str now) []).
End Bench.
