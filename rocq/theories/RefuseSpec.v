(** Specification vocabulary for C80: a run on ciphertexts that exits with an error. *)
From Coq Require Import String.
From Coq Require Import List Arith Bool NArith ZArith Ascii.
Import ListNotations.
From Verif Require Import Base GraphModel Spec TextModel TextSpec DotModel TorusModel StreamModel RunnerModel ClientModel CmdModel CmdSpec
  MsgSpec LogModel LogSpec.
Local Open Scope list_scope.

(** An error as it is read: the message, the announcement of the backtrace, the backtrace. *)
Definition error (trace m : text) : list message := [(Err, m); (Err, lit "Preparing backtrace..."); (Err, trace)].

(** A file that is no specification: after good lines, of which [skips] are reported, comes a bad row, and [m] is the complaint. *)
Definition rejected (bytes : list N) (skips : list text) (m : text) : Prop :=
  exists pre l post rows, lines_of bytes = pre ++ l :: post /\ rows_of 0 pre rows /\ skipped pre skips /\ bad_row (length rows) l (Some m).

(** [w] is the log with the files after an execution that ended with [r]. *)
Definition log_over {T} (Y : crypto T) (c : res (@talking world)) (f : fs) (r : res world) (w : world) : Prop :=
  exists kd input body bytes junk s t, c = Ok (kd, input, body) /\ f input = Some bytes /\ length junk = c_words T Y /\
    open_stream kd (c_words T Y) bytes junk [] = Ok s /\
    fmoves_to kd (c_words T Y) ((s, Run body), ([], f)) ((t, Over r), w).

(** A command, [plain] without its log and [talk] with it, started with the files [f]: every execution exits with an error and, at
    verbosity [v], with the log [log]; the log at any moment before is a beginning of it. *)
Definition exits {T} (Y : crypto T) (v : verbosity) (f : fs) (plain : res command) (talk : res (@talking world)) (log : list message) : Prop :=
  run_ends T Y plain f (Fail FExit) /\
  log_ends Y talk f (Fail FExit) /\
  (forall w, log_at Y talk f w -> exists rest, visible v log = fst w ++ rest) /\
  (forall r w, log_over Y talk f r w -> fst w = visible v log).
(** Moreover no file is touched. *)
Definition refused {T} (Y : crypto T) (v : verbosity) (f : fs) (plain : res command) (talk : res (@talking world)) (log : list message) : Prop :=
  exits Y v f plain talk log /\ forall w, log_at Y talk f w -> snd w = f.

(** flut gives up: what it logs about the inputs ([flut_progress] of LogSpec) up to the first evaluation after which too many
    states are possible. *)
Fixpoint flut_gives_up {C} (trace : text) (W : nat -> nat) (depth q n p : nat) (h : list (option C)) : list message :=
  let evaluation b rest :=
    if W b <? 2 ^ depth then evaluates W depth n b ++ rest
    else [(Debug, lit "live states: " ++ show_nat (W n)); (Debug, lit "next live states: " ++ show_nat (W b))] ++
         error trace (lit "The number of next live states (" ++ show_nat (W b) ++
                      lit ") must be smaller than 2^max_second_lut_depth (" ++ show_nat (2 ^ depth) ++ lit ")") in
  match h with
  | [] => []
  | Some _ :: h' =>
      processing (n + p) ::
      (if S p <? q then flut_gives_up trace W depth q n (S p) h'
       else evaluation (n + S p) (flut_gives_up trace W depth q (n + S p) 0 h'))
  | None :: h' =>
      if p =? 0 then flut_gives_up trace W depth q n 0 h'
      else evaluation (n + p) (flut_gives_up trace W depth q (n + p) 0 h')
  end.
(** What flut logs before the first input. *)
Definition flut_head (skips : list text) (n states queue_size : nat) (o : where_to) (interval : nat) (W : nat -> nat) : list message :=
  flut_log skips n states queue_size o interval W 0 (@nil (option unit)).
