(** Specification vocabulary for C81: errors in the log of a run. *)
From Coq Require Import List.
Import ListNotations.
From Verif Require Import Base CmdModel LogModel RefuseSpec StreamModel TextModel TorusModel.

Definition no_error (l : list message) : Prop := forall m, ~ In (Err, m) l.

(** A command with its log, started with the files [f]: every execution that exits with an error has logged exactly one, and this is the
    last thing it has logged; an execution that succeeds has logged none; with --quiet nothing but this is logged. *)
Definition accountable {T} (Y : crypto T) (trace : text) (v : verbosity) (f : fs) (talk : res (@talking world)) : Prop :=
  talk <> Fail FExit /\
  (forall kd input body bytes junk, talk = Ok (kd, input, body) -> open_stream kd (c_words T Y) bytes junk [] <> Fail FExit) /\
  forall r w, log_over Y talk f r w ->
    (r = Fail FExit -> exists before m, fst w = before ++ error trace m /\ no_error before) /\
    (forall w', r = Ok w' -> no_error (fst w)) /\
    (v = QUIET -> forall s m, In (s, m) (fst w) -> s = Err).
