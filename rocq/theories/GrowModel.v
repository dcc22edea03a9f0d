(** A run command whose input file is changed by another process while it runs: src/main.cpp:253-464
    with src/tfhepp_util.cpp:99-180.

    The command opens the ciphertext file once and keeps it open.  The file's content is part of the
    state of the std::ifstream in StreamModel; here it can be replaced by another content before
    every step.  The constructors of the streams look at the content only when they seek the end
    (src/tfhepp_util.cpp:110, 148): [bytes] below is the content at that moment.  The other files the
    command reads are not changed.  In an outcome, and in the files left behind, the input file
    itself is shown as it was when the command began.
    Simplification: every read sees the current content, whereas a std::filebuf may still hold older
    bytes of it; for changes of the length alone this makes no difference to the values. *)
From Coq Require Import List Arith Bool NArith ZArith Ascii.
Import ListNotations.
From Verif Require Import Base TextModel TorusModel ParModel StreamModel ClientModel CmdModel CrashModel.

(** (auxiliary) src/tfhepp_util.cpp:99-180: the same stream after another process has made [d] the
    content of the file *)
Definition with_file (d : list N) (s : stream) : stream :=
  mkStream (mkIs d (is_pos (s_is s)) (is_fail (s_is s))) (s_loaded s) (s_size s) (s_run s) (s_ret s) (s_out s) (s_prog s).

Section While.
Context {R : Type} (kd : kind) (words : nat) (allowed : list N -> Prop).

(** src/main.cpp:253-464: the file gets one of the contents [allowed], then the process makes a step *)
Definition gmove (x y : stream * control R) : Prop :=
  exists d, allowed d /\ move kd words (with_file d (fst x), snd x) y.
(** (auxiliary) src/main.cpp:253-464: several such steps *)
Inductive gmoves_to : stream * control R -> stream * control R -> Prop :=
| gt_refl x : gmoves_to x x
| gt_step x y z : gmoves_to x y -> gmove y z -> gmoves_to x z.
(** src/main.cpp:253-464: every execution is finite and ends with one of the outcomes [Q] *)
Definition ends_while (s : stream) (p : client R) (Q : res R -> Prop) : Prop :=
  Acc (fun y x => gmove x y) (s, Run p) /\
  forall x, gmoves_to (s, Run p) x -> (forall y, ~ gmove x y) -> exists r, snd x = Over r /\ Q r.

(** src/main.cpp:253-464: the same with the files the process writes *)
Definition fgmove (x y : (stream * control R) * R) : Prop :=
  exists d, allowed d /\ fmove kd words ((with_file d (fst (fst x)), snd (fst x)), snd x) y.
(** (auxiliary) src/main.cpp:253-464: several such steps *)
Inductive fgmoves_to : (stream * control R) * R -> (stream * control R) * R -> Prop :=
| fg_refl x : fgmoves_to x x
| fg_step x y z : fgmoves_to x y -> fgmove y z -> fgmoves_to x z.
End While.

Section Commands.
Context (T : tfhe) (Y : crypto T).
(** [change old new]: the input file may hold [new] at some moment, if it held [old] when it was opened *)
Context (change : list N -> list N -> Prop).

(** src/main.cpp:253-464: every execution of the command started with the files [f], while others
    change its input file, is finite and ends with one of the outcomes [Q] *)
Definition run_ends_while (c : res command) (f : fs) (Q : res fs -> Prop) : Prop :=
  match c with
  | Fail e => Q (Fail e)
  | Ok c =>
      match f (cmd_input c) with
      | None => Q (Fail FAssert)
      | Some bytes => forall junk, length junk = c_words T Y ->
          match open_stream (cmd_kind c) (c_words T Y) bytes junk [] with
          | Fail e => Q (Fail e)
          | Ok s => ends_while (cmd_kind c) (c_words T Y) (change bytes) s (cmd_body c) Q
          end
      end
  end.

(** src/main.cpp:253-464: the files it has left at some moment *)
Definition run_left_while (c : res command) (f f' : fs) : Prop :=
  same_files f f' \/
  exists c0 bytes junk s x, c = Ok c0 /\ f (cmd_input c0) = Some bytes /\ length junk = c_words T Y /\
    open_stream (cmd_kind c0) (c_words T Y) bytes junk [] = Ok s /\
    fgmoves_to (cmd_kind c0) (c_words T Y) (change bytes) ((s, Run (cmd_body c0)), f) (x, f').
End Commands.
