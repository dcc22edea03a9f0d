(** Specification vocabulary for C85: what genkey, genbkey and enc say and leave on a disk that can be full. *)
From Coq Require Import String.
From Coq Require Import List Arith Bool NArith ZArith Ascii.
Import ListNotations.
From Verif Require Import Base GraphModel TextModel DotModel TorusModel CmdModel MainModel MainSpec MsgModel SayModel SaySpec.
Local Open Scope list_scope.

(** The standard error of the program, for the errors [l] of a command that logs nothing else: with --quiet just these. *)
Definition on_stderr (E : setting) (argv : list text) (l s : list note) : Prop :=
  (~ quietly argv /\ s = dump_basic_info E argv ++ l) \/ (quietly argv /\ s = l).

(** An archive with the [bytes] is to be stored in the file [o], which can hold [room] bytes; [cap] is the size of the buffer.  The errors
    [l], the outcome [r] and the content [now] of the file afterwards. *)
Inductive stored (trace why : text) (cap room : nat) (o : text) (bytes : list N) (old : option (list N))
  : bool -> list note -> res unit -> option (list N) -> Prop :=
| stored_all : length bytes <= room -> stored trace why cap room o bytes old true [] (Ok tt) (Some bytes)
| stored_reported : room < length bytes ->
    stored trace why cap room o bytes old true ((LError, why) :: died trace (lit "Unable to write into archive: " ++ o)) (Fail FExit)
      (Some (firstn room bytes))
| stored_unnoticed : room < length bytes <= room + cap -> stored trace why cap room o bytes old true [] (Ok tt) (Some (firstn room bytes))
| stored_closed : stored trace why cap room o bytes old false [] (Fail FAssert) old.
