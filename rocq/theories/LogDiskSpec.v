(** Specification vocabulary for C83: a run on ciphertexts with its log, on a disk that can be full. *)
From Coq Require Import String.
From Coq Require Import List Arith Bool NArith ZArith Ascii.
Import ListNotations.
From Verif Require Import Base TextModel DotModel BitsModel TorusModel RunnerModel StreamModel ClientModel CmdModel CmdSpec MsgModel LogModel RefuseSpec BlameSpec SayModel StderrModel StderrSpec.
Local Open Scope list_scope.

(** The log ends with exactly one error. *)
Definition one_error (trace : text) (w : world) : Prop :=
  exists before m, fst w = before ++ error trace m /\ no_error before.
(** The log ends with the reason why a result could not be written and the error that names the file; this is one of the files
    [outputs], it has a proper beginning of an encrypted result, as much as it could hold, and this was the last file written: [f1] are the
    files before. *)
Definition write_error (trace : text) (n1 : nat) (room : fs -> text -> nat) (opens : fs -> text -> bool) (outputs : text -> Prop) (w : world) : Prop :=
  exists before why p f1 c,
    fst w = before ++ (Err, why) :: error trace (lit "Unable to write into archive: " ++ p) /\ no_error before /\
    outputs p /\ opens f1 p = true /\
    snd w p = Some (firstn (room f1 p) (archive_tlwe n1 c)) /\ room f1 p < length (archive_tlwe n1 c) /\
    forall q, q <> p -> snd w q = f1 q.
(** Every execution of a command, started with the files [f], that exits with an error has logged what [blame] says; one that succeeds has
    logged no error; with --quiet nothing but errors is logged. *)
Definition answers {T} (Y : crypto T) (v : verbosity) (f : fs) (talk : res (@talking world)) (blame : world -> Prop) : Prop :=
  talk <> Fail FExit /\
  (forall kd input body bytes junk, talk = Ok (kd, input, body) -> open_stream kd (c_words T Y) bytes junk [] <> Fail FExit) /\
  forall r w, log_over Y talk f r w ->
    (r = Fail FExit -> blame w) /\
    (forall w', r = Ok w' -> no_error (fst w)) /\
    (v = QUIET -> forall s m, In (s, m) (fst w) -> s = Err).
(** The files of the options --out and --out-dir. *)
Definition output_files (output dir : option text) (p : text) : Prop :=
  output = Some p \/ exists d n, dir = Some d /\ p = report_file d n.
(** The program, called with [argv], is a run on ciphertexts; [store]: how results are stored.  The same for its standard error, which
    begins with the header. *)
Definition line_answers {T} (Y : crypto T) (trace : text) (store : verbosity -> world -> text -> list N -> (world -> client world) -> client world)
    (E : setting) (f : fs) (argv : list text) (blame : world -> Prop) : Prop :=
  exists talk before v, main_run trace T Y store E f argv = (before, Some talk) /\ asks argv v /\ talk <> Fail FExit /\
    forall r w, log_over Y talk f r w ->
      (r = Fail FExit -> blame (before ++ fst w, snd w)) /\
      (forall w', r = Ok w' -> no_error (before ++ fst w)) /\
      (v = QUIET -> forall s m, In (s, m) (before ++ fst w) -> s = Err).
