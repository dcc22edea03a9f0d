(** Specification vocabulary for C76: what a run must log. *)
From Coq Require Import String.
From Coq Require Import List Arith Bool NArith ZArith Ascii.
Import ListNotations.
From Verif Require Import Base GraphModel Spec TextModel TextSpec DotModel BitsModel TorusModel RunnerModel RunnerSpec CmdModel CmdSpec LogModel.
Local Open Scope list_scope.

(** What is seen: with --quiet only errors, otherwise everything; debug messages only with --verbose. *)
Definition visible (v : verbosity) (log : list message) : list message :=
  match v with
  | QUIET => filter (fun m => match fst m with Err => true | _ => false end) log
  | NORMAL => filter (fun m => match fst m with Debug => false | _ => true end) log
  | VERBOSE => log
  end.

(** The lines of a specification that are not rows, in order. *)
Inductive skipped : list text -> list text -> Prop :=
| sk_nil : skipped [] []
| sk_row line lines out : is_row line -> skipped lines out -> skipped (line :: lines) out
| sk_skip line lines out : ~ is_row line -> skipped lines out -> skipped (line :: lines) (line :: out).
(** The lines of a file. *)
Definition lines_of (bytes : list N) : list text := getlines c_nl [] (map ascii_of_N bytes).

(** [m] is a DFA with as few states as possible that answers [verdict]. *)
Definition smallest (verdict : list bool -> res bool) (m : Graph) : Prop :=
  wf_graph m /\ (forall w, accepts m w = verdict w) /\
  forall h, wf_graph h -> (forall w, accepts h w = verdict w) -> size m <= size h.

(** A command, [plain] without its log and [talk] with it, started with the files [f]: every execution ends, with the files [f2] and,
    at verbosity [v], with the log [log]; the log at any moment before is a beginning of it. *)
Definition logs {T} (Y : crypto T) (v : verbosity) (f : fs) (plain : res command) (talk : res (@talking world))
    (log : list message) (f2 : fs) : Prop :=
  run_ends T Y plain f (Ok f2) /\
  log_ends Y talk f (Ok (visible v log, f2)) /\
  forall w, log_at Y talk f w -> exists rest, visible v log = fst w ++ rest.

(** The messages. *)
Definition skip_line (line : text) : message := (Info, lit "Skip line """ ++ line ++ lit """").
Definition begin_params : message := (Info, lit "Parameter:").
Definition end_params : message := (Info, []).
Definition shows (name : string) (value : text) : message := (Info, "009"%char :: lit name ++ ":"%char :: "009"%char :: value).
Definition hidden (n : nat) : text := show_nat n ++ lit " (hidden)".
Definition processing (i : nat) : message := (Debug, lit "Processing input " ++ show_nat i).
Definition bootstrapped (interval i : nat) : list message :=
  if i mod interval =? 0 then [(Debug, lit "Bootstrapping occurred")] else [].

(** A run of offline over [n] ciphertexts: the smallest DFA has [states] states, [total] CMUXes. *)
Definition offline_log (skips : list text) (n states interval total : nat) : list message :=
  map skip_line skips ++
  [begin_params; shows "Mode" (lit "Offline FA Runner"); shows "Input size" (show_nat n); shows "State size" (show_nat states);
   shows "Bootstrapping frequency" (show_nat interval); shows "Total #CMUX" (show_nat total); shows "Sanitization" (lit "false"); end_params] ++
  flat_map (fun i => bootstrapped interval (S i)) (seq 0 n).

(** The number of CMUXes in the record that a runner keeps. *)
Definition cmux_count (record : list (target * nat)) : nat :=
  list_sum (map (fun e => match fst e with T_CMUX => snd e | _ => 0 end) record).

(** Where the results go: a file, or every [freq] inputs a file in a directory. *)
Inductive where_to := ToFile (output : text) | ToDir (dir : text) (freq : nat).
Definition shows_output (o : where_to) : list message :=
  match o with
  | ToFile output => [shows "Output file name" output]
  | ToDir dir freq => [shows "Output directory" dir; shows "Output frequency" (show_nat freq)]
  end.

(** The number of states that reverse shows: those of the automaton it runs. *)
Definition reverse_states (g : Graph) (spec_reversed : bool) (k : nat) : Prop :=
  if spec_reversed then k = size g else exists m, smallest (fun w => accepts g (rev w)) m /\ k = size m.
Definition output_of (o : where_to) : option text := match o with ToFile p => Some p | ToDir _ _ => None end.
Definition dir_of (o : where_to) : option text := match o with ToFile _ => None | ToDir d _ => Some d end.
(** --output-freq counts with --output-dir only *)
Definition freq_ok (o : where_to) (freq : nat) (cipher : text) : Prop :=
  match o with ToFile _ => True | ToDir d k => freq = k /\ 0 < k /\ forall j, report_file d j <> cipher end.

Definition reverse_log (skips : list text) (n states : nat) (o : where_to) (interval : nat) : list message :=
  map skip_line skips ++
  [begin_params; shows "Mode" (lit "Online FA Runner2 (reversed)"); shows "Input size" (hidden n); shows "State size" (show_nat states)] ++
  shows_output o ++
  [shows "Bootstrapping frequency" (show_nat interval); shows "Sanitization" (lit "false"); end_params] ++
  flat_map (fun i => processing i :: bootstrapped interval (S i)) (seq 0 n).

Definition block_log (skips : list text) (n states queue_size : nat) : list message :=
  map skip_line skips ++
  [begin_params; shows "Mode" (lit "Online FA Runner4 (block-backstream)"); shows "Input size" (hidden n); shows "State size" (show_nat states);
   shows "Queue size" (show_nat queue_size); shows "Sanitization" (lit "false"); end_params] ++
  map processing (seq 0 n).

(** FLUT: the queue is evaluated after [b] inputs, the last time after [a]; [W n] states can be reached with n inputs.  As many inputs
    as possible, at most half of them, go to the second table, which has at most 2^depth entries per live state. *)
Definition evaluates (W : nat -> nat) (depth a b : nat) : list message :=
  let second := Nat.min ((b - a) / 2) (depth - Nat.log2_up (W b)) in
  [(Debug, lit "live states: " ++ show_nat (W a)); (Debug, lit "next live states: " ++ show_nat (W b));
   (Debug, lit "LUT " ++ show_nat (b - a - second) ++ lit " + " ++ show_nat second ++ lit " = " ++ show_nat (b - a))].
(** [n] inputs are consumed, [p] are in the queue, which holds [q]; [h]: inputs ([Some]) and questions ([None]) to come. *)
Fixpoint flut_progress {C} (W : nat -> nat) (depth q n p : nat) (h : list (option C)) : list message :=
  match h with
  | [] => []
  | Some _ :: h' =>
      processing (n + p) ::
      (if S p <? q then flut_progress W depth q n (S p) h'
       else evaluates W depth n (n + S p) ++ flut_progress W depth q (n + S p) 0 h')
  | None :: h' =>
      if p =? 0 then flut_progress W depth q n 0 h'
      else evaluates W depth n (n + p) ++ flut_progress W depth q (n + p) 0 h'
  end.
Definition flut_log {C} (skips : list text) (n states queue_size : nat) (o : where_to) (interval : nat) (W : nat -> nat) (depth : nat)
    (h : list (option C)) : list message :=
  map skip_line skips ++
  [begin_params; shows "Mode" (lit "Online FA Runner3 (qtrlwe2)"); shows "Input size" (hidden n); shows "State size" (show_nat states);
   shows "Queue size" (show_nat queue_size)] ++
  shows_output o ++
  [shows "Bootstrapping frequency" (show_nat interval); shows "Sanitization" (lit "false"); end_params] ++
  (match o with
   | ToDir _ freq =>
       if freq mod queue_size =? 0 then []
       else [(Warn, lit "Output frequency (" ++ show_nat freq ++ lit ") is not the same as queue size (" ++ show_nat queue_size ++ lit ")")]
   | ToFile _ => []
   end) ++
  flut_progress W depth queue_size 0 0 h.
