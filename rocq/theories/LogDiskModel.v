(** The run commands with their log on a disk that can be full: LogModel with the way a result is stored of DiskRunModel and the messages of
    src/archive.hpp:64-67. *)
From Coq Require Import String.
From Coq Require Import List Arith Bool NArith ZArith Ascii.
Import ListNotations.
From Verif Require Import Base GraphModel TextModel DotModel BitsModel TorusModel StreamModel RunnerModel ClientModel CmdModel CrashModel DiskModel DiskRunModel
  MsgModel LogModel.
Local Open Scope list_scope.

(** src/archive.hpp:56-68  write_to_archive in a command that reads a stream and logs (compare store_disk).  An exception is logged, then
    error_die.  [why f path] is the text of the exception (cereal's).  A failed assertion logs nothing through spdlog. *)
Definition log_store_disk (v : verbosity) (trace : text) (why : fs -> text -> text)
    (cap : nat) (room : fs -> text -> nat) (pol : nat -> nat) (opens : fs -> text -> bool) (pieces : list N -> list (list N))
    (w : world) (path : text) (bytes : list N) (k : world -> client world) : client world :=
  let f := snd w in
  let '(r, f') := write_to_archive cap (room f path) pol (opens f path) f path (pieces bytes) in
  PFiles (fun w' => fst w' = fst w /\
                    if opens f path then part_written f path (firstn (room f path) bytes) (snd w') else same_files f (snd w'))
    (fst w, f')
    (match r with
     | Ok _ => k (fst w, f')
     | Fail FExit =>
         log_says v (fst w, f') ((Err, why f path) :: dies trace (lit "Unable to write into archive: " ++ path)) (fun _ => PRet (Fail FExit))
     | Fail e => PRet (Fail e)
     end).
