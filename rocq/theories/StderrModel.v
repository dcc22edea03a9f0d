(** main (src/main.cpp:590-755) for the runs on ciphertexts, with everything that is written to the standard error from the first
    message on: the header of SayModel and then the log of LogModel, at the level that the command line asks for. *)
From Coq Require Import String.
From Coq Require Import List Arith Bool NArith ZArith Ascii.
Import ListNotations.
From Verif Require Import Base GraphModel TextModel DotModel TorusModel StreamModel ClientModel CmdModel MainModel MsgModel SayModel LogModel.
Local Open Scope list_scope.

(** src/main.cpp:67-73, 651-660: --quiet is registered last, so its callback runs last; without a flag the level stays info (src/error.hpp:16) *)
Definition level_of (argv : list text) : verbosity :=
  if is_quiet argv then QUIET
  else if existsb (fun a => is_name a "--verbose") (general_flags argv) then VERBOSE
  else NORMAL.
(** (auxiliary) the messages that the level lets through, src/main.cpp:651-660 *)
Definition passed (v : verbosity) (l : list message) : list message := filter (fun m => enabled v (fst m)) l.

Section Run.
Context (trace : text) (T : tfhe) (Y : crypto T).
(** how a result is stored at each level: [log_store], or [log_store_disk] of LogDiskModel *)
Context (store : verbosity -> world -> text -> list N -> (world -> client world) -> client world).

(** src/main.cpp:681-715  the cases of the runs on ciphertexts: what is logged before the command begins, and the command.
    [None]: another command (SayModel). *)
Definition dispatch_run (v : verbosity) (f : fs) (A : Args) : list message * option (res (@talking world)) :=
  let refused := (passed v (dies trace (lit "Use --out or --out-dir")), Some (Fail FExit)) in
  match a_type A with
  | RUN_OFFLINE => ([], Some (
           do s <- value (a_text A Fspec); do i <- value (a_text A Finput); do o <- value (a_text A Foutput);
           do n <- value (a_num A Fbootstrapping_freq); do b <- value (a_text A Fbkey);
           do_run_offline_log trace T Y (store v) (log_says v) f ([], f) s i o n b (a_flag A Fsanitize_result)))
  | RUN_REVERSE => if negb (one_output A) then refused else ([], Some (
           do s <- value (a_text A Fspec); do i <- value (a_text A Finput);
           do n <- value (a_num A Foutput_freq); do m <- value (a_num A Fbootstrapping_freq); do b <- value (a_text A Fbkey);
           do_run_reverse_log trace T Y (store v) (log_says v) f ([], f) s i (a_text A Foutput) (a_text A Foutput_dir) n m
             (a_flag A Fis_spec_reversed) b (a_flag A Fsanitize_result)))
  | RUN_BLOCK => if negb (one_output A) then refused else ([], Some (
           do s <- value (a_text A Fspec); do i <- value (a_text A Finput); do o <- value (a_text A Foutput);
           do n <- value (a_num A Fqueue_size); do b <- value (a_text A Fbkey);
           do_run_block_log trace T Y (store v) (log_says v) f ([], f) s i o n b (a_flag A Fsanitize_result)))
  | RUN_FLUT => if negb (one_output A) then refused else ([], Some (
           do s <- value (a_text A Fspec); do i <- value (a_text A Finput);
           do n <- value (a_num A Foutput_freq); do q <- value (a_num A Fqueue_size); do m <- value (a_num A Fbootstrapping_freq);
           do b <- value (a_text A Fbkey); do d <- value (a_num A Fmax_second_lut_depth);
           do_run_flut_log trace T Y (store v) (log_says v) f ([], f) s i (a_text A Foutput) (a_text A Foutput_dir) n q m b (Some d)
             (a_text A Fdebug_skey) (a_flag A Fsanitize_result)))
  | _ => ([], None)
  end.

(** src/main.cpp:649-755  the command line is read, the level is set, the header is logged, the command begins *)
Definition main_run (E : setting) (f : fs) (argv : list text) : list message * option (res (@talking world)) :=
  match parse f argv with
  | Fail _ => ([], None)
  | Ok A =>
      let v := level_of argv in
      let '(l, c) := dispatch_run v f A in (passed v (map as_message (dump_basic_info E argv)) ++ l, c)
  end.
End Run.
