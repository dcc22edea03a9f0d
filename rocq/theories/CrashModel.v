(** What a killed command leaves behind: src/main.cpp:225-464 with src/archive.hpp:49-68.

    A command can be killed at any moment (or abort on a failing assertion, which does not flush
    streams either).  Only the process dies: what has reached the file stays there.  Bytes reach
    a file in order, in portions of any size. *)
From Coq Require Import List Arith Bool NArith ZArith Ascii.
Import ListNotations.
From Verif Require Import Base GraphModel TextModel BitsModel TorusModel RunnerModel ParModel StreamModel ClientModel CmdModel.

(** (auxiliary) the same files, src/archive.hpp:49-68 *)
Definition same_files (f f' : fs) : Prop := forall p, f' p = f p.

(** src/utility.hpp:16-28  the bits on which each_input_bit calls its argument, also when the file
    turns out to be too short in the end *)
Fixpoint bits_passed (rest num_ap : nat) (bytes : list N) : list bool :=
  match bytes with
  | [] => []
  | v :: bytes' =>
      let '(bs, rest') := byte_bits 8 v (if rest =? 0 then num_ap else rest) in
      bs ++ bits_passed rest' num_ap bytes'
  end.

Section Crash.
Context (T : tfhe) (Y : crypto T).

(** src/main.cpp:225-229  do_genkey, killed or not *)
Definition genkey_left (f : fs) (output_filename : text) (f' : fs) : Prop :=
  same_files f f' \/ part_written f output_filename (c_skey T Y) f'.
(** src/main.cpp:231-237  do_genbkey, killed or not *)
Definition genbkey_left (f : fs) (skey_filename output_filename : text) (f' : fs) : Prop :=
  same_files f f' \/
  (read_skey T Y f skey_filename = Ok tt /\ part_written f output_filename (c_bkey T Y) f').

(** src/main.cpp:247-250, src/tfhepp_util.cpp:18-39  what enc sends to its output for these bits *)
Fixpoint enc_output (coin : nat) (bits : list bool) : list N :=
  match bits with [] => [] | b :: r => save (c_save T Y (c_enc T Y coin b)) ++ enc_output (S coin) r end.
(** src/main.cpp:239-251  do_enc, killed or not: before the output is opened; before the input is
    opened; then *)
Definition enc_left (f : fs) (skey_filename input_filename output_filename : text) (num_ap : nat) (coin : nat) (f' : fs) : Prop :=
  same_files f f' \/
  (read_skey T Y f skey_filename = Ok tt /\
   (same_files (write f output_filename []) f' \/
    exists input, open_file (write f output_filename []) input_filename = Ok input /\
      part_written f output_filename (enc_output coin (bits_passed 0 num_ap input)) f')).

(** src/main.cpp:253-464  the commands that read a stream, killed or not: before the stream is
    there; then *)
Definition run_left (c : res command) (f f' : fs) : Prop :=
  same_files f f' \/
  exists c0 bytes junk s x, c = Ok c0 /\ f (cmd_input c0) = Some bytes /\ length junk = c_words T Y /\
    open_stream (cmd_kind c0) (c_words T Y) bytes junk [] = Ok s /\
    fmoves_to (cmd_kind c0) (c_words T Y) ((s, Run (cmd_body c0)), f) (x, f').
End Crash.
