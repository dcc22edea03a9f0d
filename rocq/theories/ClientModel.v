(** A command that reads a ciphertext stream while it computes: src/main.cpp:253-464.

    The main thread owns a TRGSWLvl1InputStream (or the reversed one) and calls size() and next()
    on it between other computations; the loader thread of the stream runs concurrently all the
    time, and the other computations may contain parallel regions, hence have several outcomes. *)
From Coq Require Import List Arith Bool NArith ZArith.
Import ListNotations.
From Verif Require Import Base ParModel StreamModel.

(** What the main thread still has to do (e.g. src/main.cpp:263-284). *)
Inductive client (R : Type) : Type :=
| PRet (r : res R)                                          (* it is over *)
| PSize (k : nat -> client R)                               (* input_stream->size() *)
| PNext (k : list N -> client R)                            (* input_stream->next() *)
| PAny (X : Type) (o : outcomes X) (k : X -> client R)      (* a computation with the outcomes [o] *)
| PFiles (t : R -> Prop) (r : R) (p : client R).            (* write a file: then the files are [r]; before that they may be [t] *)
Arguments PRet {R}. Arguments PSize {R}. Arguments PNext {R}. Arguments PAny {R X}. Arguments PFiles {R}.

(** (auxiliary) a sequential computation, e.g. src/main.cpp:261-266 *)
Definition pdet {R X} (r : res X) (k : X -> client R) : client R := PAny (det r) k.

(** The main thread is between two calls on the stream, inside a call, or has stopped
    (src/main.cpp:253-464 with src/tfhepp_util.cpp:99-180). *)
Inductive control (R : Type) : Type :=
| Run (p : client R)
| InSize (k : nat -> client R)
| InNext (k : list N -> client R)
| Over (r : res R).
Arguments Run {R}. Arguments InSize {R}. Arguments InNext {R}. Arguments Over {R}.

(** src/tfhepp_util.cpp:117-120, 131-140, 154-157, 171-180  a call is entered *)
Definition enter (kd : kind) (c : call) (s : stream) : stream :=
  mkStream (s_is s) (s_loaded s) (s_size s) (s_run s) (s_ret s) (s_out s) (call_ops kd c).

(** src/main.cpp:253-464 with src/tfhepp_util.cpp:99-180: one step of the process.  A failure in
    either thread ends the process. *)
Inductive move {R} (kd : kind) (words : nat) : stream * control R -> stream * control R -> Prop :=
| m_loader s s' c : (forall r, c <> Over r) -> step kd words Loader s = Some (Ok s') ->
    move kd words (s, c) (s', c)
| m_loader_fail s f c : (forall r, c <> Over r) -> step kd words Loader s = Some (Fail f) ->
    move kd words (s, c) (s, Over (Fail f))
| m_size s k : move kd words (s, Run (PSize k)) (enter kd Size s, InSize k)
| m_next s k : move kd words (s, Run (PNext k)) (enter kd Next s, InNext k)
| m_in_size s s' k : step kd words Caller s = Some (Ok s') -> move kd words (s, InSize k) (s', InSize k)
| m_in_size_fail s f k : step kd words Caller s = Some (Fail f) -> move kd words (s, InSize k) (s, Over (Fail f))
| m_in_next s s' k : step kd words Caller s = Some (Ok s') -> move kd words (s, InNext k) (s', InNext k)
| m_in_next_fail s f k : step kd words Caller s = Some (Fail f) -> move kd words (s, InNext k) (s, Over (Fail f))
| m_size_back s k out n : s_prog s = [] -> s_out s = out ++ [ESize n] ->
    move kd words (s, InSize k) (s, Run (k n))
| m_next_back s k out c : s_prog s = [] -> s_out s = out ++ [EValue c] ->
    move kd words (s, InNext k) (s, Run (k c))
| m_any X s (o : outcomes X) k x : o (Ok x) -> move kd words (s, Run (PAny o k)) (s, Run (k x))
| m_any_fail X s (o : outcomes X) k f : o (Fail f) -> move kd words (s, Run (PAny o k)) (s, Over (Fail f))
| m_files s t r p : move kd words (s, Run (PFiles t r p)) (s, Run p)
| m_end s r : move kd words (s, Run (PRet r)) (s, Over r).

(** (auxiliary) src/main.cpp:253-464: several steps *)
Inductive moves_to {R} (kd : kind) (words : nat) : stream * control R -> stream * control R -> Prop :=
| mt_refl x : moves_to kd words x x
| mt_step x y z : move kd words x y -> moves_to kd words y z -> moves_to kd words x z.

(** src/main.cpp:253-464: every execution of the process that has opened the stream [s] and is
    about to run [p], whatever the scheduler and the parallel regions do, is finite and ends with
    the outcome [r]. *)
Definition ends_with {R} (kd : kind) (words : nat) (s : stream) (p : client R) (r : res R) : Prop :=
  Acc (fun y x => move kd words x y) (s, Run p) /\
  forall x, moves_to kd words (s, Run p) x -> (forall y, ~ move kd words x y) -> snd x = Over r.

(** src/main.cpp:253-464: the process with the files on the disk.  They change while the main thread
    writes one and when it has written it; every other step leaves them. *)
Inductive fmove {R} (kd : kind) (words : nat) : (stream * control R) * R -> (stream * control R) * R -> Prop :=
| fm_part s (t : R -> Prop) r p d d' : t d' -> fmove kd words ((s, Run (PFiles t r p)), d) ((s, Run (PFiles t r p)), d')
| fm_files s t r p d : fmove kd words ((s, Run (PFiles t r p)), d) ((s, Run p), r)
| fm_other x y d : move kd words x y -> (forall t r p, snd x = Run (PFiles t r p) -> snd y <> Run p) ->
    fmove kd words (x, d) (y, d).
(** (auxiliary) src/main.cpp:253-464: several such steps *)
Inductive fmoves_to {R} (kd : kind) (words : nat) : (stream * control R) * R -> (stream * control R) * R -> Prop :=
| ft_refl x : fmoves_to kd words x x
| ft_step x y z : fmoves_to kd words x y -> fmove kd words y z -> fmoves_to kd words x z.
