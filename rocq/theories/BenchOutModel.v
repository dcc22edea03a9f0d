(** Model of src/benchmark.cpp again, this time with what has been printed when the program stops
    for whatever reason.  BenchModel.v has the outcome only; C74_same shows that the two agree.

    A computation gets the lines printed so far and returns the lines printed when it ends, and its
    outcome.  print ends every line with std::endl (src/benchmark.cpp:28), which hands it over at
    once: a program killed at any moment has printed the first k of these lines for some k, and
    possibly the beginning of the next one.  The rest is as in BenchModel.v. *)
From Coq Require Import String.
From Coq Require Import List Arith Bool NArith ZArith Ascii.
Import ListNotations.
From Verif Require Import Base GraphModel TextModel DotModel BitsModel TorusModel RunnerModel ParModel StreamModel
  ClientModel CmdModel TimeModel MainModel BenchModel.
Local Open Scope list_scope.

(** (auxiliary) sequencing, in the order of the statements of src/benchmark.cpp *)
Definition traced (A : Type) : Type := list line -> list line * res A.
(** (auxiliary) the end of a function of src/benchmark.cpp:38-596 *)
Definition tret {A} (a : A) : traced A := fun out => (out, Ok a).
(** (auxiliary) a call that prints nothing, e.g. src/benchmark.cpp:243 *)
Definition tres {A} (r : res A) : traced A := fun out => (out, r).
(** (auxiliary) the next statement of a function of src/benchmark.cpp:38-596 *)
Definition tbind {A B} (m : traced A) (k : A -> traced B) : traced B :=
  fun out => let '(out, r) := m out in match r with Ok a => k a out | Fail e => (out, Fail e) end.
Notation "'tdo' x <- m ; k" := (tbind m (fun x => k)) (at level 200, x name, m at level 100, k at level 200).
Notation "'tdo' ' p <- m ; k" := (tbind m (fun p => k)) (at level 200, p strict pattern, m at level 100, k at level 200).
Notation "m ;; k" := (tbind m (fun _ => k)) (at level 199, right associativity).
(** src/benchmark.cpp:25-29  print *)
Definition say (key : string) (value : text) : traced unit := fun out => (print key value out, Ok tt).
(** (auxiliary) the number of lines printed so far, which numbers the random choices (BenchModel.v) *)
Definition lines_so_far : traced nat := fun out => (out, Ok (length out)).
(** (auxiliary) loops, e.g. src/utility.hpp:22-26 *)
Fixpoint tfoldM {A S} (f : S -> A -> traced S) (l : list A) (s : S) : traced S :=
  match l with
  | [] => tret s
  | a :: l' => tdo s <- f s a; tfoldM f l' s
  end.
(** src/utility.hpp:16-28  each_input_bit for a function that prints (see BitsModel.v) *)
Fixpoint each_bit_from {S} (rest : nat) (num_ap : nat) (func : S -> bool -> traced S) (bytes : list N) (s : S) : traced S :=
  match bytes with
  | [] => tres (assert_ (rest =? 0) (Ok s))
  | v :: bytes' =>
      let rest0 := if rest =? 0 then num_ap else rest in
      let '(bs, rest') := byte_bits 8 v rest0 in
      tdo s <- tfoldM func bs s;
      each_bit_from rest' num_ap func bytes' s
  end.
(** src/utility.hpp:9-30 *)
Definition each_bit {S} (bytes : list N) (num_ap : nat) (func : S -> bool -> traced S) (s : S) : traced S :=
  each_bit_from 0 num_ap func bytes s.

Section Bench.
Context (T : tfhe) (Y : crypto T).
Context (clock : nat -> text) (times : nat -> Z).
Notation N1 := (t_n1 T).

(** src/benchmark.cpp:31-36  print_elapsed, after the function has run *)
Definition say_elapsed (key : string) : traced unit := fun out => (print_elapsed clock key out, Ok tt).

(** src/benchmark.cpp:38-61  enc_run_dec_loop: the body of the loop *)
Definition enc_run_dec {R} (step : R -> trgsw T -> traced (bool * R)) (result : R -> res tlwe) (runner : R) (input : bool) : traced R :=
  tdo n <- lines_so_far;
  say_elapsed "enc";;
  tdo '(output_exists, runner) <- step runner (c_enc T Y n input);
  say_elapsed "run";;
  if output_exists : bool then
    tdo c <- tres (result runner);
    say_elapsed "dec";;
    say "result" (show_bool (decrypt_TLWELvl1_to_bit N1 c (c_key T Y)));;
    tret runner
  else tret runner.

(** src/benchmark.cpp:128-136  OnlineDFA2BenchRunner::run *)
Definition bench2_step (s : bench backstream) (input : trgsw T) : traced (bool * bench backstream) :=
  tres (bench_run T (online2_eval_one T) (fun r => do c <- online2_result T r; Ok (c, r)) s input).
(** src/benchmark.cpp:170-181  OnlineDFA3BenchRunner::run *)
Definition bench3_step (s : bench (RunnerModel.flut T)) (input : trgsw T) : traced (bool * bench (RunnerModel.flut T)) :=
  say "num_live_states" (show_nat (length (f_live T (bn_runner s))));;
  say "first_lut_depth" (show_nat (f_first T (bn_runner s)));;
  say "second_lut_depth" (show_nat (f_second T (bn_runner s)));;
  tres (bench_run T (flut_eval_one T) (flut_result T) s input).
(** src/benchmark.cpp:217-226  OnlineDFA4BenchRunner::run *)
Definition bench4_step (s : bench (RunnerModel.block T)) (input : trgsw T) : traced (bool * bench (RunnerModel.block T)) :=
  say "num_live_states" (show_nat (length (k_live T (bn_runner s))));;
  tres (bench_run T (block_eval_one T) (block_result T) s input).

(** src/benchmark.cpp:234-263  do_plain *)
Definition do_plain_t (f : fs) (spec_filename input_filename : text) (output_freq num_ap : nat) : traced (option (list sample)) :=
  say "config-method" (lit "plain");;
  say "config-spec" spec_filename;;
  say "config-input" input_filename;;
  say "config-num_ap" (show_nat num_ap);;
  tdo gr <- tres (from_file f spec_filename);
  say "config-spec_num_states" (show_nat (size gr));;
  tdo input <- tres (open_file f input_filename);
  tdo input_size <- tres (each_input_bit input num_ap (fun n _ => Ok (S n)) 0);
  say "config-input_size" (show_nat input_size);;
  tdo input <- tres (open_file f input_filename);
  tdo _ <- each_bit input num_ap
    (fun '(cur, i) b =>
       tdo cur <- tres (next_state gr cur b);
       say "state" (show_nat cur);;
       let i := S i in
       if output_freq =? 0 then tres (Fail FUndefined)
       else if i mod output_freq =? 0 then
         tdo final <- tres (is_final_state gr cur);
         (if final : bool then say "result" (lit "1") else say "result" (lit "0"));;
         tret (cur, i)
       else tret (cur, i))
    (initial_state gr, 0);
  tret None.

(** src/benchmark.cpp:265-319  do_offline *)
Definition do_offline_t (f : fs) (spec_filename input_filename : text) (bootstrapping_freq num_ap : nat) (sanitize_result : bool)
  : traced (option (list sample)) :=
  say "config-method" (lit "offline");;
  say "config-spec" spec_filename;;
  say "config-input" input_filename;;
  say "config-bootstrapping_freq" (show_nat bootstrapping_freq);;
  say "config-num_ap" (show_nat num_ap);;
  say "config-sanitize_result" (show_bool sanitize_result);;
  say_elapsed "skey";;
  say_elapsed "bkey";;
  tdo input <- tres (open_file f input_filename);
  tdo input_bits <- tres (each_input_bit input num_ap (fun v b => Ok (v ++ [b])) []);
  tdo runner <- tres (offline_bench_new T f spec_filename (length input_bits) bootstrapping_freq sanitize_result);
  say_elapsed "init";;
  say "config-spec_num_states" (show_nat (size (b_graph (ob_runner runner))));;
  say "config-input_size" (show_nat (length input_bits));;
  tdo runner <- tfoldM (fun runner input =>
         tdo n <- lines_so_far;
         say_elapsed "enc";;
         tdo runner <- tres (offline_bench_run T runner (c_enc T Y n input));
         say_elapsed "run";;
         tret runner)
       (rev input_bits) runner;
  say_elapsed "dec";;
  say "result" (show_bool (decrypt_TLWELvl1_to_bit N1 (ob_result runner) (c_key T Y)));;
  tret None.

(** src/benchmark.cpp:321-360  do_reversed *)
Definition do_reversed_t (f : fs) (spec_filename input_filename : text) (output_freq bootstrapping_freq num_ap : nat)
    (spec_reversed sanitize_result : bool) : traced (option (list sample)) :=
  say "config-method" (lit "reversed");;
  say "config-spec" spec_filename;;
  say "config-input" input_filename;;
  say "config-output_freq" (show_nat output_freq);;
  say "config-bootstrapping_freq" (show_nat bootstrapping_freq);;
  say "config-num_ap" (show_nat num_ap);;
  say "config-sanitize_result" (show_bool sanitize_result);;
  say_elapsed "skey";;
  say_elapsed "bkey";;
  tdo gr <- tres (from_file f spec_filename);
  tdo r <- tres (online2_new T gr bootstrapping_freq spec_reversed true sanitize_result);
  say_elapsed "init";;
  say "config-spec_num_states" (show_nat (size (b_graph r)));;
  tdo input <- tres (open_file f input_filename);
  tdo input_size <- tres (each_input_bit input num_ap (fun n _ => Ok (S n)) 0);
  say "config-input_size" (show_nat input_size);;
  tdo input <- tres (open_file f input_filename);
  tdo runner <- each_bit input num_ap (enc_run_dec bench2_step bench_result) (bench_new r output_freq);
  tret (Some (samples_of times (b_timer (bn_runner runner)))).

(** src/benchmark.cpp:362-403  do_qtrlwe2 *)
Definition do_qtrlwe2_t (f : fs) (spec_filename input_filename : text)
    (output_freq max_second_lut_depth queue_size bootstrapping_freq num_ap : nat) (sanitize_result : bool)
  : traced (option (list sample)) :=
  say "config-method" (lit "qtrlwe2");;
  say "config-spec" spec_filename;;
  say "config-input" input_filename;;
  say "config-output_freq" (show_nat output_freq);;
  say "config-max_second_lut_depth" (show_nat max_second_lut_depth);;
  say "config-queue_size" (show_nat queue_size);;
  say "config-bootstrapping_freq" (show_nat bootstrapping_freq);;
  say "config-num_ap" (show_nat num_ap);;
  say "config-sanitize_result" (show_bool sanitize_result);;
  say_elapsed "skey";;
  say_elapsed "bkey";;
  tdo gr <- tres (from_file f spec_filename);
  tdo r <- tres (flut_new T gr max_second_lut_depth queue_size bootstrapping_freq sanitize_result);
  say_elapsed "init";;
  say "config-spec_num_states" (show_nat (size (f_graph T r)));;
  tdo input <- tres (open_file f input_filename);
  tdo input_size <- tres (each_input_bit input num_ap (fun n _ => Ok (S n)) 0);
  say "config-input_size" (show_nat input_size);;
  tdo input <- tres (open_file f input_filename);
  tdo _ <- each_bit input num_ap (enc_run_dec bench3_step bench_result) (bench_new r output_freq);
  tret None.

(** src/benchmark.cpp:405-442  do_bbs *)
Definition do_bbs_t (f : fs) (spec_filename input_filename : text) (output_freq queue_size num_ap : nat) (sanitize_result : bool)
  : traced (option (list sample)) :=
  say "config-method" (lit "bbs");;
  say "config-spec" spec_filename;;
  say "config-input" input_filename;;
  say "config-output_freq" (show_nat output_freq);;
  say "config-queue_size" (show_nat queue_size);;
  say "config-num_ap" (show_nat num_ap);;
  say "config-sanitize_reuslt" (show_bool sanitize_result);;
  say_elapsed "skey";;
  say_elapsed "bkey";;
  tdo gr <- tres (from_file f spec_filename);
  tdo r <- tres (block_new T gr queue_size sanitize_result);
  say_elapsed "init";;
  say "config-spec_num_states" (show_nat (size (k_graph T r)));;
  tdo input <- tres (open_file f input_filename);
  tdo input_size <- tres (each_input_bit input num_ap (fun n _ => Ok (S n)) 0);
  say "config-input_size" (show_nat input_size);;
  tdo input <- tres (open_file f input_filename);
  tdo runner <- each_bit input num_ap (enc_run_dec bench4_step bench_result) (bench_new r output_freq);
  tret (Some (samples_of times (k_timer T (bn_runner runner)))).

(** src/benchmark.cpp:568-593: the switch *)
Definition b_dispatch_t (f : fs) (A : Args) : traced (option (list sample)) :=
  tdo s <- tres (value (a_text A Fspec));
  tdo i <- tres (value (a_text A Finput));
  tdo n <- tres (value (a_num A Fnum_ap));
  match a_type A with
  | BENCH_PLAIN => tdo k <- tres (value (a_num A Foutput_freq)); do_plain_t f s i k n
  | BENCH_OFFLINE => tdo m <- tres (value (a_num A Fbootstrapping_freq)); do_offline_t f s i m n (a_flag A Fsanitize_result)
  | BENCH_REVERSE => tdo k <- tres (value (a_num A Foutput_freq)); tdo m <- tres (value (a_num A Fbootstrapping_freq));
      do_reversed_t f s i k m n (a_flag A Fis_spec_reversed) (a_flag A Fsanitize_result)
  | BENCH_FLUT => tdo k <- tres (value (a_num A Foutput_freq)); tdo d <- tres (value (a_num A Fmax_second_lut_depth));
      tdo q <- tres (value (a_num A Fqueue_size)); tdo m <- tres (value (a_num A Fbootstrapping_freq));
      do_qtrlwe2_t f s i k d q m n (a_flag A Fsanitize_result)
  | BENCH_BLOCK => tdo k <- tres (value (a_num A Foutput_freq)); tdo q <- tres (value (a_num A Fqueue_size));
      do_bbs_t f s i k q n (a_flag A Fsanitize_result)
  | _ => tres (Fail FUndefined)
  end.
(** src/benchmark.cpp:444-596  main *)
Definition bench_main_t (f : fs) (now : tm) (argv : list text) : list line * res (option (list sample)) :=
  (tdo A <- tres (b_parse_from false f argv);
   say "time" (current_time_str now);;
   b_dispatch_t f A) [].
End Bench.
