(** Specification vocabulary for C67: files of whole ciphertexts, result files, and which files a
    run writes. *)
From Coq Require Import List Arith NArith.
Import ListNotations.
From Verif Require Import Base TextModel TorusModel CmdModel CmdSpec.

(** A file of bytes. *)
Definition is_bytes (b : list N) : Prop := Forall (fun x => (x < 256)%N) b.
(** [n] ciphertexts of [words] doubles, eight bytes each, with any contents. *)
Definition ciphertexts (words n : nat) (b : list N) : Prop := is_bytes b /\ length b = n * (words * 8).
(** A result: a byte for the endianness and n + 1 words of four bytes. *)
Definition is_result (T : tfhe) (b : list N) : Prop := is_bytes b /\ length b = 1 + 4 * (t_n1 T + 1).
(** The files [f'] are the files [f], but those named by [P] now hold results. *)
Definition wrote_results (T : tfhe) (f f' : fs) (P : text -> Prop) : Prop :=
  forall p, (P p -> exists b, f' p = Some b /\ is_result T b) /\ (~ P p -> f' p = f p).
(** The files of the periodic reports of a run on [n] ciphertexts. *)
Definition report_names (dir : text) (freq n : nat) (p : text) : Prop :=
  exists j, ((0 < j <= n /\ j mod freq = 0) \/ j = n) /\ p = report_file dir j.
