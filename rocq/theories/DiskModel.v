(** Writing to a disk that can be full, or to a file that cannot be opened: src/tfhepp_util.cpp:18-39, src/archive.hpp:49-68, src/main.cpp:225-251.

    The streams are std::ofstream objects: bytes go through a buffer, and an error is seen only by a write
    that passes bytes on.  Closing the file in the destructor passes the rest on and reports nothing.
    Simplifications: a file can grow to [room] bytes and no further, and it stays so while the command runs. *)
From Coq Require Import List Arith Bool NArith ZArith Ascii.
Import ListNotations.
From Verif Require Import Base GraphModel TextModel BitsModel TorusModel StreamModel RunnerModel ClientModel CmdModel CrashModel.

Section Disk.
Context (cap : nat)           (* size of the buffer *)
        (room : nat)          (* the file can hold so many bytes *)
        (pol : nat -> nat).   (* how many bytes the stream likes to pass on when so many have been handed to it *)

(** (auxiliary) std::filebuf of src/archive.hpp:60, src/main.cpp:244: what is in the file, what is in the buffer *)
Record ofile := mkOfile { o_file : list N; o_buf : list N }.

(** (auxiliary) std::filebuf::sputn of src/tfhepp_util.cpp:23: the new state, and how many of the bytes were taken.
    At most [cap] bytes stay in the buffer. *)
Definition sputn (o : ofile) (data : list N) : ofile * nat :=
  match data with
  | [] => (o, 0)
  | _ =>
      let all := o_buf o ++ data in
      let k := Nat.max (length all - cap) (Nat.min (pol (length (o_file o) + length all)) (length all)) in
      if length (o_file o) + k <=? room
      then (mkOfile (o_file o ++ firstn k all) (skipn k all), length data)
      else (mkOfile (o_file o ++ firstn (room - length (o_file o)) all) [], 0)
  end.
(** (auxiliary) std::filebuf::close in the destructor, src/main.cpp:251, src/archive.hpp:62: errors are ignored *)
Definition close (o : ofile) : list N := o_file o ++ firstn (room - length (o_file o)) (o_buf o).

(** src/tfhepp_util.cpp:18-25  save_binary: fewer bytes taken than given ends the program; in an archive
    (cereal's saveBinary, src/archive.hpp:49-54) an exception that write_to_archive turns into error_die.
    [e] is the way the program ends. *)
Fixpoint put_all (e : fault) (o : ofile) (pieces : list (list N)) : ofile * res unit :=
  match pieces with
  | [] => (o, Ok tt)
  | d :: pieces' => let '(o', n) := sputn o d in
                    if n =? length d then put_all e o' pieces' else (o', Fail e)
  end.

Context (opens : bool).   (* whether the file can be opened for writing *)
(** src/archive.hpp:56-68  write_to_archive; the archive hands its bytes over in some [pieces].
    The stream is closed in both cases (by the exception, too).  A file that cannot be opened is left as it is. *)
Definition write_to_archive (f : fs) (path : text) (pieces : list (list N)) : res unit * fs :=
  if opens then let '(o, r) := put_all FExit (mkOfile [] []) pieces in (r, write f path (close o))
  else (Fail FAssert, f).

Context (T : tfhe) (Y : crypto T).
(** src/tfhepp_util.cpp:27-39, src/main.cpp:247-250  the doubles of the ciphertexts, one by one *)
Fixpoint doubles (coin : nat) (bits : list bool) : list (list N) :=
  match bits with
  | [] => []
  | b :: r => map (le_bytes 8) (c_save T Y (c_enc T Y coin b)) ++ doubles (S coin) r
  end.
(** src/main.cpp:239-251  do_enc: whether it succeeds, and the files it leaves.  assert ends the program without
    closing the stream. *)
Definition enc_disk (f : fs) (skey_filename input_filename output_filename : text) (num_ap : nat) (coin : nat) : res unit * fs :=
  match read_skey T Y f skey_filename with
  | Fail e => (Fail e, f)
  | Ok _ =>
      if negb opens then (Fail FAssert, f) else
      let f0 := write f output_filename [] in
      match open_file f0 input_filename with
      | Fail e => (Fail e, f0)
      | Ok input =>
          let '(o, r) := put_all FAssert (mkOfile [] []) (doubles coin (bits_passed 0 num_ap input)) in
          match r with
          | Fail e => (Fail e, write f output_filename (o_file o))
          | Ok _ =>
              match each_input_bit input num_ap (fun s _ => Ok s) tt with
              | Ok _ => (Ok tt, write f output_filename (close o))
              | Fail e => (Fail e, write f output_filename (o_file o))
              end
          end
      end
  end.
(** src/main.cpp:225-229  do_genkey *)
Definition genkey_disk (f : fs) (output_filename : text) (pieces : list (list N)) : res unit * fs :=
  write_to_archive f output_filename pieces.
(** src/main.cpp:231-237  do_genbkey *)
Definition genbkey_disk (f : fs) (skey_filename output_filename : text) (pieces : list (list N)) : res unit * fs :=
  match read_skey T Y f skey_filename with
  | Fail e => (Fail e, f)
  | Ok _ => write_to_archive f output_filename pieces
  end.
End Disk.
(** src/main.cpp:490-522, src/graph.cpp:577-591  what a converter prints goes to std::cout, whose errors nobody looks at:
    the command succeeds and the file has the first [room] characters. *)
Definition printed_disk (room : nat) (out : text) : text := firstn room out.
