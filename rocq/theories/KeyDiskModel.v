(** genkey, genbkey and enc on a disk that can be full, with everything they write to the standard error: DiskModel with the messages of
    src/archive.hpp:19-31, 56-68.  As in SayModel, time stamps and what the C++ runtime prints about a failed assertion are not modelled. *)
From Coq Require Import String.
From Coq Require Import List Arith Bool NArith ZArith Ascii.
Import ListNotations.
From Verif Require Import Base GraphModel TextModel DotModel BitsModel TorusModel StreamModel RunnerModel ClientModel CmdModel CrashModel DiskModel
  LtlModel MainModel MsgModel SayModel.
Local Open Scope list_scope.

Section KeyDisk.
Context (trace why : text)     (* the backtrace; the text of cereal's exception *)
        (cap room : nat) (pol : nat -> nat) (opens : bool) (pieces : list N -> list (list N))
        (T : tfhe) (Y : crypto T).

(** src/archive.hpp:56-68  write_to_archive with its messages: the exception is logged, then error_die *)
Definition write_said (f : fs) (path : text) (bytes : list N) : list note * (res unit * fs) :=
  let '(r, f') := write_to_archive cap room pol opens f path (pieces bytes) in
  match r with
  | Fail FExit => ((LError, why) :: die_notes trace (lit "Unable to write into archive: " ++ path), (r, f'))
  | _ => ([], (r, f'))
  end.
(** src/main.cpp:225-229  do_genkey *)
Definition genkey_disk_said (f : fs) (output_filename : text) : list note * (res unit * fs) :=
  write_said f output_filename (c_skey T Y).
(** src/main.cpp:231-237  do_genbkey *)
Definition genbkey_disk_said (f : fs) (skey_filename output_filename : text) : list note * (res unit * fs) :=
  match archive_said trace skey_filename (read_skey T Y f skey_filename) with
  | (l, Fail e) => (l, (Fail e, f))
  | (l, Ok _) => let '(l', o) := write_said f output_filename (c_bkey T Y) in (l ++ l', o)
  end.
(** src/main.cpp:239-251  do_enc: errors of writing are assertions (src/tfhepp_util.cpp:24), which log nothing *)
Definition enc_disk_said (f : fs) (skey_filename input_filename output_filename : text) (num_ap coin : nat) : list note * (res unit * fs) :=
  (fst (archive_said trace skey_filename (read_skey T Y f skey_filename)),
   enc_disk cap room pol opens T Y f skey_filename input_filename output_filename num_ap coin).

(** src/main.cpp:663-676  the cases of the switch for these commands ([None]: another command) *)
Definition dispatch_disk (f : fs) (coin : nat) (A : Args) : option (list note * (res unit * fs)) :=
  match a_type A with
  | GENKEY => match a_text A Foutput with Some o => Some (genkey_disk_said f o) | _ => None end
  | GENBKEY => match a_text A Fskey, a_text A Foutput with Some k, Some o => Some (genbkey_disk_said f k o) | _, _ => None end
  | ENC => match a_text A Fskey, a_text A Finput, a_text A Foutput, a_num A Fnum_ap with
           | Some k, Some i, Some o, Some n => Some (enc_disk_said f k i o n coin)
           | _, _, _, _ => None
           end
  | _ => None
  end.
(** src/main.cpp:649-676  main for these commands: the messages, how it ends and the files it leaves *)
Definition main_disk (E : setting) (f : fs) (coin : nat) (argv : list text) : option (list note * (res unit * fs)) :=
  match parse f argv with
  | Fail _ => None
  | Ok A => match dispatch_disk f coin A with
            | None => None
            | Some (l, o) => Some (shown (is_quiet argv) (dump_basic_info E argv ++ l), o)
            end
  end.
End KeyDisk.
