(** Specification vocabulary for C82: the whole standard error of a run on ciphertexts. *)
From Coq Require Import String.
From Coq Require Import List Arith Bool NArith Ascii.
Import ListNotations.
From Verif Require Import Base GraphModel TextModel DotModel TorusModel StreamModel CmdModel CmdSpec LtlModel MainModel MainSpec MsgModel SayModel SaySpec
  LogModel LogSpec RefuseSpec BlameSpec StderrModel.
Local Open Scope list_scope.

(** What the general flags ask for: --quiet wins over --verbose. *)
Definition verbosely (argv : list text) : Prop := exists g rest, general g /\ argv = g ++ rest /\ In (lit "--verbose") g.
Inductive asks : list text -> verbosity -> Prop :=
| asks_quiet argv : quietly argv -> asks argv QUIET
| asks_verbose argv : ~ quietly argv -> verbosely argv -> asks argv VERBOSE
| asks_normal argv : ~ quietly argv -> ~ verbosely argv -> asks argv NORMAL.

(** The header (C79) as messages of a run. *)
Definition header (E : setting) (argv : list text) : list message := map (fun n => (Info, snd n)) (dump_basic_info E argv).

Section Err.
Context (trace : text) (T : tfhe) (Y : crypto T) (spot : spot_lib) (E : setting).

(** The program, called with [argv], is a run on ciphertexts that always succeeds.  At the end the files are [f2], and on the standard
    error is what is visible of [log]; at any moment before, a beginning of it. *)
Definition reports (f : fs) (stdin : text) (coin : nat) (argv : list text) (log : list message) (f2 : fs) : Prop :=
  exists c talk before v, main T Y spot f stdin coin argv = Ok (Runs c) /\ main_run trace T Y (fun _ => log_store) E f argv = (before, Some talk) /\
    asks argv v /\
    run_ends T Y (Ok c) f (Ok f2) /\
    (exists after, log_ends Y talk f (Ok (after, f2)) /\ before ++ after = visible v log) /\
    forall w, log_at Y talk f w -> exists rest, visible v log = before ++ fst w ++ rest.

(** The same for a run that always exits with an error and leaves the files alone. *)
Definition gives_up (f : fs) (stdin : text) (coin : nat) (argv : list text) (log : list message) : Prop :=
  exists c talk before v, main T Y spot f stdin coin argv = Ok (Runs c) /\ main_run trace T Y (fun _ => log_store) E f argv = (before, Some talk) /\
    asks argv v /\
    run_ends T Y (Ok c) f (Fail FExit) /\ log_ends Y talk f (Fail FExit) /\
    (forall r w, log_over Y talk f r w -> before ++ fst w = visible v log /\ snd w = f) /\
    forall w, log_at Y talk f w -> exists rest, visible v log = before ++ fst w ++ rest.

(** The program, called with [argv], is a run on ciphertexts.  Whatever happens: if it exits with an error, then exactly one error is on
    the standard error, and last; if it succeeds, none; with --quiet nothing else is there. *)
Definition owns_up (f : fs) (argv : list text) : Prop :=
  exists talk before v, main_run trace T Y (fun _ => log_store) E f argv = (before, Some talk) /\ asks argv v /\ talk <> Fail FExit /\
    forall r w, log_over Y talk f r w ->
      (r = Fail FExit -> exists l m, before ++ fst w = l ++ error trace m /\ no_error l) /\
      (forall w', r = Ok w' -> no_error (before ++ fst w)) /\
      (v = QUIET -> forall s m, In (s, m) (before ++ fst w) -> s = Err).
End Err.

(** The command lines of the runs on ciphertexts (see the manual in MainSpec): the key, the output, the specification, the input. *)
Inductive run_line (f : fs) (argv : list text) (b o s i : text) : Prop :=
| line_offline d t n : positive t n -> readable_opt f d ->
    command_line argv ["run"; "offline"]%string (common b o s i d ++ [("--bootstrapping-freq"%string, Some t)]) [] -> run_line f argv b o s i
| line_reverse name d t n t' n' r : In name ["reverse"; "reversed"]%string -> positive t n -> positive t' n' -> readable_opt f d ->
    command_line argv ["run"%string; name] (common b o s i d ++ [("--out-freq"%string, Some t); ("--bootstrapping-freq"%string, Some t')]
                                            ++ flagged "--spec-reversed" r) [] -> run_line f argv b o s i
| line_block name d t n t' n' : In name ["block"; "bbs"; "block-backstream"]%string -> positive t n -> positive t' n' -> readable_opt f d ->
    command_line argv ["run"%string; name] (common b o s i d ++ [("--out-freq"%string, Some t); ("--queue-size"%string, Some t')]) [] ->
    run_line f argv b o s i
| line_flut name d t n t1 n1 t2 n2 t3 n3 : In name ["flut"; "qtrlwe2"]%string -> positive t n -> positive t1 n1 -> positive t2 n2 -> positive t3 n3 -> readable_opt f d ->
    command_line argv ["run"%string; name] (common b o s i d ++ [("--out-freq"%string, Some t); ("--queue-size"%string, Some t1);
                                   ("--max-second-lut-depth"%string, Some t2); ("--bootstrapping-freq"%string, Some t3)]) [] -> run_line f argv b o s i.
