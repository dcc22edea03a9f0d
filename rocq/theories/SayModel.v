(** What homfa writes to the standard error: main (src/main.cpp:537-755) and the commands other than the runs on ciphertexts, with
    their messages.  What a run on ciphertexts logs once it has begun is in LogModel (C76).

    Messages of level debug are left out (only ltl2spec, see LtlLogModel, and the runs on ciphertexts have some), and so are the time stamp and the name
    in front of a message (src/error.hpp:18-20).  That the results are those of MainModel is C79_same. *)
From Coq Require Import String.
From Coq Require Import List Arith Bool NArith ZArith Ascii.
Import ListNotations.
From Verif Require Import Base GraphModel TextModel CliModel DotModel BitsModel TorusModel StreamModel CmdModel LtlModel MainModel MsgModel.
Local Open Scope list_scope.

(** src/main.cpp:554-583  how the program was built and where it runs *)
Record setting := mkSetting {
  e_debug : bool;                   (* HOMFA_BUILD_DEBUG *)
  e_revision : option text;         (* HOMFA_GIT_REVISION *)
  e_profile : bool;                 (* HOMFA_ENABLE_PROFILE *)
  e_cpuprofile : option text;       (* getenv("CPUPROFILE") *)
  e_heapprofile : option text;      (* getenv("HEAPPROFILE") *)
  e_concurrency : nat;              (* hardware_concurrency() *)
  e_program : text }.               (* argv[0] *)

(** (auxiliary) spdlog::info, e.g. src/main.cpp:542 *)
Definition info (t : text) : note := (LInfo, t).
(** src/main.cpp:539, 584 *)
Definition rule : note := info (lit "===================================").
(** src/main.cpp:537-585  dumpBasicInfo; [argv] without the name of the program *)
Definition dump_basic_info (E : setting) (argv : list text) : list note :=
  [rule;
   info (lit "  _   _                 _____ _    ");
   info (lit " | | | | ___  _ __ ___ |  ___/ \   ");
   info (lit " | |_| |/ _ \| '_ ` _ \| |_ / _ \  ");
   info (lit " |  _  | (_) | | | | | |  _/ ___ \ ");
   info (lit " |_| |_|\___/|_| |_| |_|_|/_/   \_\");
   info (lit "                                   ");
   info (lit "Built with:");
   info (c_tab :: lit "Type: " ++ lit (if e_debug E then "debug" else "release"));
   info (c_tab :: lit "Git revision: " ++ match e_revision E with Some r => r | None => lit "unknown" end);
   info (c_tab :: lit "Profiling: " ++ lit (if e_profile E then "enabled" else "disabled"));
   info (lit "Executed with:");
   info (c_tab :: lit "Args: " ++ concat (map (fun a => a ++ lit " ") (e_program E :: argv)));
   info (c_tab :: lit "Env var: " ++
         match e_cpuprofile E with Some v => lit "CPUPROFILE=" ++ v ++ lit " " | None => [] end ++
         match e_heapprofile E with Some v => lit "HEAPPROFILE=" ++ v ++ lit " " | None => [] end);
   info (c_tab :: lit "Concurrency:" ++ c_tab :: show_nat (e_concurrency E));
   rule].

(** (auxiliary) messages before a computation, src/main.cpp:662 *)
Definition first {A} (l : list note) (m : said A) : said A := (l ++ fst m, snd m).
(** (auxiliary) what is done with the result of a computation, src/main.cpp:663-752 *)
Definition then_ {A B} (m : said A) (k : A -> B) : said B := after m (fun a => mute (Ok (k a))).

Section Say.
Context (trace : text) (T : tfhe) (Y : crypto T) (spot : spot_lib).

(** src/main.cpp:219-223  print_result *)
Definition print_result_said (res : bool) : said text :=
  ([info (lit "Result (bool): " ++ lit (if res then "true" else "false"))], Ok (print_result res)).

(** src/archive.hpp:19-31  read_from_archive: what is thrown while reading ends in error_die; the assert is not an exception *)
Definition archive_said {A} (p : text) (r : res A) : said A :=
  match r with
  | Fail FExit => error_die trace (lit "Invalid archive: " ++ p)
  | _ => mute r
  end.

(** src/main.cpp:231-237  do_genbkey *)
Definition do_genbkey_said (f : fs) (skey_filename output_filename : text) : said fs :=
  after (archive_said skey_filename (read_skey T Y f skey_filename)) (fun _ => mute (Ok (write f output_filename (c_bkey T Y)))).
(** src/main.cpp:239-251  do_enc *)
Definition do_enc_said (f : fs) (skey_filename input_filename output_filename : text) (num_ap : nat) (coin : nat) : said fs :=
  after (archive_said skey_filename (read_skey T Y f skey_filename)) (fun _ => mute (
  let f := write f output_filename [] in
  do input <- open_file f input_filename;
  do '(_, bytes) <- each_input_bit input num_ap
                      (fun '(coin, bytes) b => Ok (S coin, bytes ++ save (c_save T Y (c_enc T Y coin b)))) (coin, []);
  Ok (write f output_filename bytes))).
(** src/main.cpp:466-472  do_dec *)
Definition do_dec_said (f : fs) (skey_filename input_filename : text) : said text :=
  after (archive_said skey_filename (read_skey T Y f skey_filename)) (fun _ =>
  after (archive_said input_filename (do b <- open_file f input_filename; read_tlwe (t_n1 T) b)) (fun enc_res =>
  print_result_said (decrypt_TLWELvl1_to_bit (t_n1 T) enc_res (c_key T Y)))).
(** src/main.cpp:524-535  do_run_dfa_plain *)
Definition run_plain_said (f : fs) (spec_filename input_filename : text) (num_ap : nat) : said text :=
  after (from_file_said trace f spec_filename) (fun gr =>
  after (mute (do input <- open_file f input_filename;
               do q <- each_input_bit input num_ap (fun q b => next_state gr q b) (initial_state gr);
               is_final_state gr q)) (fun res =>
  print_result_said res)).

(** src/main.cpp:485-487, 499-503, 517-521: the specification from the standard input or from a file *)
Definition spec_said (f : fs) (stdin : text) (name : option text) : said Graph :=
  let name := match name with Some n => n | None => lit "-" end in
  if is_name name "-" then from_istream_said trace stdin else from_file_said trace f name.
(** src/main.cpp:508-512 *)
Definition att_said (f : fs) (stdin : text) (name : option text) : said Graph :=
  let name := match name with Some n => n | None => lit "-" end in
  if is_name name "-" then from_att_istream_said trace stdin else from_att_file_said trace f name.
(** src/main.cpp:482-495  do_spec2spec *)
Definition do_spec2spec_said (gr : said Graph) (opt_minimized opt_reversed opt_negated : bool) : said text :=
  after gr (fun gr => mute (
  do gr <- (if opt_negated then negated gr else Ok gr);
  do gr <- (if opt_reversed then reversed gr else Ok gr);
  do gr <- (if opt_minimized then minimized gr else Ok gr);
  dump gr)).

(** src/main.cpp:662-752  the switch of main *)
Definition dispatch_said (f : fs) (stdin : text) (coin : nat) (A : Args) : said action :=
  match a_type A with
  | GENKEY => mute (dispatch T Y spot f stdin coin A)
  | GENBKEY => after (mute (do k <- value (a_text A Fskey); do o <- value (a_text A Foutput); Ok (k, o))) (fun '(k, o) =>
      then_ (do_genbkey_said f k o) Writes)
  | ENC => after (mute (do k <- value (a_text A Fskey); do i <- value (a_text A Finput); do o <- value (a_text A Foutput);
                        do n <- value (a_num A Fnum_ap); Ok (k, i, o, n))) (fun '(k, i, o, n) =>
      then_ (do_enc_said f k i o n coin) Writes)
  | DEC => after (mute (do k <- value (a_text A Fskey); do i <- value (a_text A Finput); Ok (k, i))) (fun '(k, i) =>
      then_ (do_dec_said f k i) Prints)
  | RUN_OFFLINE => mute (dispatch T Y spot f stdin coin A)
  | RUN_REVERSE | RUN_BLOCK | RUN_FLUT =>
      if negb (one_output A) then error_die trace (lit "Use --out or --out-dir") else mute (dispatch T Y spot f stdin coin A)
  | RUN_PLAIN => after (mute (do s <- value (a_text A Fspec); do i <- value (a_text A Finput); do n <- value (a_num A Fnum_ap); Ok (s, i, n)))
      (fun '(s, i, n) => then_ (run_plain_said f s i n) Prints)
  | LTL2SPEC => mute (dispatch T Y spot f stdin coin A)
  | SPEC2SPEC => then_ (do_spec2spec_said (spec_said f stdin (a_text A Fspec)) (a_flag A Fminimized) (a_flag A Freversed) (a_flag A Fnegated)) Prints
  | SPEC2DOT => then_ (after (spec_said f stdin (a_text A Fspec)) (fun gr => mute (dump_dot gr))) Prints
  | SPEC2ATT => then_ (after (spec_said f stdin (a_text A Fspec)) (fun gr => mute (dump_att gr))) Prints
  | ATT2SPEC => then_ (after (att_said f stdin (a_text A Fspec)) (fun gr => mute (dump gr))) Prints
  | BENCH_OFFLINE | BENCH_REVERSE | BENCH_BLOCK | BENCH_FLUT | BENCH_PLAIN => error_die trace (lit "Not implemented for now")
  | UNSPECIFIED => error_die trace (lit "Please specify subcommand")
  end.

(** src/main.cpp:590-755  main.  A command line that CLI11 refuses ends there: what CLI11 prints is not modelled. *)
Definition main_said (E : setting) (f : fs) (stdin : text) (coin : nat) (argv : list text) : said action :=
  after (mute (parse f argv)) (fun A => first (dump_basic_info E argv) (dispatch_said f stdin coin A)).
End Say.

(** src/main.cpp:649, 67-73: the words before the subcommand, which are general flags *)
Fixpoint general_flags (argv : list text) : list text :=
  match argv with
  | a :: rest => if is_name a "--verbose" || is_name a "--quiet" then a :: general_flags rest else []
  | [] => []
  end.
(** src/main.cpp:67-73, 651-660: --quiet is registered last, so its callback runs last *)
Definition is_quiet (argv : list text) : bool := existsb (fun a => is_name a "--quiet") (general_flags argv).
(** src/main.cpp:651-662  what is seen of the messages *)
Definition seen (trace : text) (T : tfhe) (Y : crypto T) (spot : spot_lib) (E : setting) (f : fs) (stdin : text) (coin : nat) (argv : list text) : list note :=
  shown (is_quiet argv) (fst (main_said trace T Y spot E f stdin coin argv)).
