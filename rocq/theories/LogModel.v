(** What the run commands log (to the standard error), src/main.cpp:253-464 with the messages of src/graph.cpp:141,
    src/backstream_dfa_runner.cpp:76 and src/online_dfa.cpp:268-285.

    The commands are those of CmdModel with two parameters: [store] writes a result, [says] logs messages.  The world
    [w : R] is passed on between them.  With [store_file] and a [says] that does nothing they are the same terms
    (C76_same, by computation); with [log_store] and [log_says] the world is the log so far with the files.
    A message is its severity and its text; the time stamp and the name in front of it (src/error.hpp:18-20) are not modelled.
    What main logs before the command begins is in SayModel.  A computation that ends with error_die is preceded by its
    messages: nothing lies between them.  The backtrace that error_die prints is the parameter [trace]. *)
From Coq Require Import String.
From Coq Require Import List Arith Bool NArith ZArith Ascii.
Import ListNotations.
From Verif Require Import Base GraphModel TextModel DotModel BitsModel TorusModel StreamModel ParModel RunnerModel ClientModel CmdModel MsgModel.
Local Open Scope list_scope.

(** spdlog's severities as far as the commands use them, e.g. src/main.cpp:266, 349, 409 *)
Inductive severity := Debug | Info | Warn | Err.
(** (auxiliary) a message, src/error.hpp:20 *)
Definition message : Type := (severity * text)%type.
(** src/main.cpp:24, 67-73  VERBOSITY *)
Inductive verbosity := QUIET | NORMAL | VERBOSE.
(** src/main.cpp:651-660, src/error.hpp:16  the level: err, info or debug *)
Definition enabled (v : verbosity) (s : severity) : bool :=
  match v, s with
  | _, Err => true
  | QUIET, _ => false
  | NORMAL, Debug => false
  | _, _ => true
  end.

(** (auxiliary) fmt's spelling of a bool, src/main.cpp:277 *)
Definition fmt_bool (b : bool) : text := if b then lit "true" else lit "false".
(** (auxiliary) a line of the parameter block: tabulator, name, colon, tabulator, value, src/main.cpp:267-277 *)
Definition param (name : string) (value : text) : message := (Info, c_tab :: lit name ++ lit ":" ++ c_tab :: value).

(** (auxiliary) the messages of MsgModel, src/graph.cpp:141, src/error.hpp:61-78 *)
Definition as_message (n : note) : message := (match fst n with LInfo => Info | LError => Err end, snd n).

Section Messages.
Context (trace : text) (T : tfhe).
(** src/error.hpp:61-78  error_die *)
Definition dies (m : text) : list message := map as_message (die_notes trace m).
(** src/graph.cpp:107-201  the messages of from_file *)
Definition file_messages (f : fs) (p : text) : list message := map as_message (fst (from_file_said trace f p)).
(** src/archive.hpp:21-31  the messages of read_from_archive with the outcome [r] *)
Definition archive_messages {A} (p : text) (r : res A) : list message :=
  match r with Fail FExit => dies (lit "Invalid archive: " ++ p) | _ => [] end.
(** src/backstream_dfa_runner.cpp:25-26, src/online_dfa.cpp:141-142, 388-389  the message of the constructor of a runner with the outcome [r] *)
Definition sanitize_messages {A} (r : res A) : list message :=
  match r with Fail FExit => dies (lit "Sanitization of results is not implemented") | _ => [] end.
(** src/backstream_dfa_runner.cpp:74-78  the message of one eval *)
Definition back_messages (s : backstream) : list message :=
  if S (b_nproc s) mod b_interval s =? 0 then [(Debug, lit "Bootstrapping occurred")] else [].
(** src/online_dfa.cpp:244-285  the messages of eval_queued_inputs with [input_size] inputs in the queue
    (the shifts as in RunnerModel.flut_eval_queued) *)
Definition flut_messages (s : flut T) (input_size : nat) : list message :=
  if input_size =? 0 then []
  else if 31 <=? input_size then []
  else match (do memo <- at_ (f_memo T s) input_size;
              do next <- flut_next_live (f_graph T s) memo (f_live T s) input_size;
              do _ <- flut_st2idx (f_graph T s) next;
              Ok next) with
       | Fail _ => []
       | Ok next =>
           (Debug, lit "live states: " ++ show_nat (length (f_live T s))) ::
           (Debug, lit "next live states: " ++ show_nat (length next)) ::
           (if 32 <=? f_max T s then []
            else if (if f_max T s =? 31 then false else 2 ^ f_max T s <=? length next)
            then dies (lit "The number of next live states (" ++ show_nat (length next) ++
                       lit ") must be smaller than 2^max_second_lut_depth (" ++ show_nat (2 ^ f_max T s) ++ lit ")")
            else
              let second := Nat.min (input_size / 2) (f_max T s - Nat.log2_up (length next)) in
              let first := input_size - second in
              [(Debug, lit "LUT " ++ show_nat first ++ lit " + " ++ show_nat second ++ lit " = " ++ show_nat input_size)])
       end.
(** src/online_dfa.cpp:182-188  the messages of eval_one *)
Definition flut_feed_messages (s : flut T) : list message :=
  if S (length (f_queue T s)) <? f_qsize T s then [] else flut_messages s (S (length (f_queue T s))).
(** src/online_dfa.cpp:166-180  the messages of result *)
Definition flut_ask_messages (s : flut T) : list message := flut_messages s (length (f_queue T s)).
End Messages.

Section Commands.
Context (trace : text) (T : tfhe) (Y : crypto T) {R : Type}.
Context (store : R -> text -> list N -> (R -> client R) -> client R).
Context (says : R -> list message -> (R -> client R) -> client R).

(** (auxiliary) a command: the kind of its stream, the file it reads, what it does, src/main.cpp:259, 325, 378, 441 *)
Definition talking : Type := (kind * text * client R)%type.

(** src/main.cpp:280-282.  What a computation logs is logged before the computation: nothing else happens in between,
    and in the end it is the same, unless the computation fails. *)
Fixpoint offline_loop_log (n : nat) (r : backstream) (w : R) (finish : backstream -> R -> client R) : client R :=
  match n with
  | O => finish r w
  | S n' => PNext (fun c =>
            says w (back_messages r) (fun w =>
            PAny (backstream_eval_any T r (c_load T Y c)) (fun r => offline_loop_log n' r w finish)))
  end.
(** src/main.cpp:253-285  do_run_offline.  The sizes in the log come from the calls of size() that CmdModel has. *)
Definition do_run_offline_log (f : fs) (w : R) (spec_filename input_filename output_filename : text)
    (bootstrapping_freq : nat) (bkey_filename : text) (sanitize_result : bool) : res talking :=
  Ok (Reversed, input_filename,
    (says w (archive_messages trace bkey_filename (read_bkey T Y f bkey_filename)) (fun w =>
     pdet (read_bkey T Y f bkey_filename) (fun '(ekey, _) =>
     says w (file_messages trace f spec_filename) (fun w =>
     pdet (do g <- from_file f spec_filename; minimized g) (fun g =>
     PSize (fun n =>
     says w (sanitize_messages trace (offline_new T g n bootstrapping_freq ekey sanitize_result)) (fun w =>
     pdet (offline_new T g n bootstrapping_freq ekey sanitize_result) (fun r =>
     PSize (fun n =>
     says w [(Info, lit "Parameter:"); param "Mode" (lit "Offline FA Runner"); param "Input size" (show_nat n);
             param "State size" (show_nat (size (b_graph r)));
             param "Bootstrapping frequency" (show_nat bootstrapping_freq)] (fun w =>
     pdet (mapM (states_at_depth (b_graph r)) (seq 0 n)) (fun depths =>
     says w [param "Total #CMUX" (show_nat (list_sum (map (@length State) depths)));
             param "Sanitization" (fmt_bool sanitize_result); (Info, [])] (fun w =>
     PSize (fun input_size =>
     offline_loop_log input_size r w (fun r w =>
     pdet (offline_result T r) (fun c =>
     store w output_filename (archive_tlwe (t_n1 T) c) (fun w => PRet (Ok w)))))))))))))))))).

(** src/main.cpp:347-357, 415-425, 457-460: the loop of the other three commands.  [feed_messages] and [ask_messages]:
    what eval_one and result log. *)
Section Loop.
Context {St : Type} (feed : St -> trgsw T -> outcomes St) (ask : St -> outcomes (tlwe * St)).
Context (feed_messages ask_messages : St -> list message).
Context (input_filename : text) (output_dirname : option text) (output_freq : nat)
        (finish : St -> R -> client R).
Fixpoint monitor_loop_log (fuel i : nat) (s : St) (w : R) : client R :=
  PSize (fun n =>
    if n =? 0 then finish s w
    else match fuel with
         | O => PRet (Fail FFuel)
         | S fuel' =>
             says w [(Debug, lit "Processing input " ++ show_nat i)] (fun w =>
             PNext (fun c =>
             says w (feed_messages s) (fun w =>
             PAny (feed s (c_load T Y c)) (fun s =>
             match output_dirname with
             | None => monitor_loop_log fuel' (S i) s w
             | Some d =>
                 if output_freq =? 0 then PRet (Fail FUndefined)
                 else if i mod output_freq =? output_freq - 1 then
                   let path := concat_paths d (out_name (i + 1)) in
                   says w (ask_messages s) (fun w =>
                   PAny (ask s) (fun '(c, s) =>
                   if path_eqb path input_filename then PRet (Fail FUndefined)
                   else store w path (archive_tlwe (t_n1 T) c) (monitor_loop_log fuel' (S i) s)))
                 else monitor_loop_log fuel' (S i) s w
             end))))
         end).
(** src/main.cpp:359-365, 427-433: the last output *)
Definition last_output_log (output_filename : option text)
    (input_stream_size_hidden : nat) (s : St) (w : R) : client R :=
  says w (ask_messages s) (fun w =>
  PAny (ask s) (fun '(c, _) =>
    match output_filename, output_dirname with
    | Some o, _ => store w o (archive_tlwe (t_n1 T) c) (fun w => PRet (Ok w))
    | None, Some d =>
        store w (concat_paths d (out_name input_stream_size_hidden)) (archive_tlwe (t_n1 T) c) (fun w => PRet (Ok w))
    | None, None => PRet (Fail FUndefined)
    end)).
End Loop.

(** src/main.cpp:334-339, 398-403 *)
Definition output_params (output_filename output_dirname : option text) (output_freq : nat) : list message :=
  (match output_filename with Some o => [param "Output file name" o] | None => [] end) ++
  (match output_dirname with
   | Some d => [param "Output directory" d; param "Output frequency" (show_nat output_freq)]
   | None => []
   end).

(** src/main.cpp:314-366  do_run_reverse *)
Definition do_run_reverse_log (f : fs) (w : R) (spec_filename input_filename : text) (output_filename output_dirname : option text)
    (output_freq bootstrapping_freq : nat) (is_spec_reversed : bool) (bkey_filename : text) (sanitize_result : bool)
  : res talking :=
  assert_ (match output_filename, output_dirname with Some _, None | None, Some _ => true | _, _ => false end)
  (Ok (Forward, input_filename,
    (says w (archive_messages trace bkey_filename (read_bkey T Y f bkey_filename)) (fun w =>
     pdet (read_bkey T Y f bkey_filename) (fun '(ekey, _) =>
     says w (file_messages trace f spec_filename) (fun w =>
     pdet (from_file f spec_filename) (fun g =>
     says w (sanitize_messages trace (online2_new T g bootstrapping_freq is_spec_reversed ekey sanitize_result)) (fun w =>
     pdet (online2_new T g bootstrapping_freq is_spec_reversed ekey sanitize_result) (fun r =>
     PSize (fun n =>
     says w ([(Info, lit "Parameter:"); param "Mode" (lit "Online FA Runner2 (reversed)");
              param "Input size" (show_nat n ++ lit " (hidden)"); param "State size" (show_nat (size (b_graph r)))] ++
             output_params output_filename output_dirname output_freq ++
             [param "Bootstrapping frequency" (show_nat bootstrapping_freq);
              param "Sanitization" (fmt_bool sanitize_result); (Info, [])]) (fun w =>
     PSize (fun hidden =>
     monitor_loop_log (backstream_eval_any T) (reverse_ask_any T) back_messages (fun _ => [])
       input_filename output_dirname output_freq
       (last_output_log (reverse_ask_any T) (fun _ => []) output_dirname output_filename hidden) hidden 0 r w)))))))))))).

(** src/main.cpp:368-434  do_run_flut *)
Definition do_run_flut_log (f : fs) (w : R) (spec_filename input_filename : text) (output_filename output_dirname : option text)
    (output_freq queue_size bootstrapping_freq : nat) (bkey_filename : text) (max_second_lut_depth : option nat)
    (debug_skey_filename : option text) (sanitize_result : bool) : res talking :=
  Ok (Forward, input_filename,
    (says w (file_messages trace f spec_filename) (fun w =>
     pdet (from_file f spec_filename) (fun g =>
     says w (archive_messages trace bkey_filename (read_bkey T Y f bkey_filename)) (fun w =>
     pdet (read_bkey T Y f bkey_filename) (fun '(ekey, ikskey) =>
     pdet (assert_ (ekey && ikskey) (Ok tt)) (fun _ =>
     says w (match debug_skey_filename with Some d => archive_messages trace d (read_skey T Y f d) | None => [] end) (fun w =>
     pdet (match debug_skey_filename with Some d => read_skey T Y f d | None => Ok tt end) (fun _ =>
     says w (sanitize_messages trace (flut_new T g (match max_second_lut_depth with Some d => d | None => 8 end)
             queue_size bootstrapping_freq sanitize_result)) (fun w =>
     pdet (flut_new T g (match max_second_lut_depth with Some d => d | None => 8 end)
             queue_size bootstrapping_freq sanitize_result) (fun r =>
     PSize (fun n =>
     says w ([(Info, lit "Parameter:"); param "Mode" (lit "Online FA Runner3 (qtrlwe2)");
              param "Input size" (show_nat n ++ lit " (hidden)"); param "State size" (show_nat (size g));
              param "Queue size" (show_nat (f_qsize T r))] ++
             output_params output_filename output_dirname output_freq ++
             [param "Bootstrapping frequency" (show_nat bootstrapping_freq);
              param "Sanitization" (fmt_bool sanitize_result); (Info, [])]) (fun w =>
     pdet (match output_dirname with
           | Some _ => if queue_size =? 0 then Fail FUndefined else Ok tt
           | None => Ok tt
           end) (fun _ =>
     says w (match output_dirname with
             | Some _ =>
                 if output_freq mod queue_size =? 0 then []
                 else [(Warn, lit "Output frequency (" ++ show_nat output_freq ++ lit ") is not the same as queue size (" ++
                              show_nat queue_size ++ lit ")")]
             | None => []
             end) (fun w =>
     PSize (fun hidden =>
     monitor_loop_log (flut_eval_one_any T) (flut_result_any T) (flut_feed_messages trace T) (flut_ask_messages trace T)
       input_filename output_dirname output_freq
       (last_output_log (flut_result_any T) (flut_ask_messages trace T) output_dirname output_filename hidden) hidden 0 r w)))))))))))))))).

(** src/main.cpp:436-464  do_run_block *)
Definition do_run_block_log (f : fs) (w : R) (spec_filename input_filename output_filename : text) (queue_size : nat)
    (bkey_filename : text) (sanitize_result : bool) : res talking :=
  Ok (Forward, input_filename,
    (says w (file_messages trace f spec_filename) (fun w =>
     pdet (from_file f spec_filename) (fun g =>
     says w (archive_messages trace bkey_filename (read_bkey T Y f bkey_filename)) (fun w =>
     pdet (read_bkey T Y f bkey_filename) (fun '(ekey, _) =>
     pdet (assert_ ekey (Ok tt)) (fun _ =>
     says w (sanitize_messages trace (block_new T g queue_size sanitize_result)) (fun w =>
     pdet (block_new T g queue_size sanitize_result) (fun r =>
     PSize (fun hidden =>
     says w [(Info, lit "Parameter:"); param "Mode" (lit "Online FA Runner4 (block-backstream)");
             param "Input size" (show_nat hidden ++ lit " (hidden)"); param "State size" (show_nat (size g));
             param "Queue size" (show_nat (k_qsize T r)); param "Sanitization" (fmt_bool sanitize_result); (Info, [])] (fun w =>
     monitor_loop_log (block_eval_one_any T) (block_result_any T) (fun _ => []) (fun _ => [])
       input_filename None 0
       (last_output_log (block_result_any T) (fun _ => []) None (Some output_filename) hidden) hidden 0 r w))))))))))).
End Commands.

(** * The log *)
(** The log so far and the files. *)
Definition world : Type := (list message * fs)%type.
(** spdlog::debug etc., e.g. src/main.cpp:266-278: a message that the level lets through is added to the log, one after the other *)
Fixpoint log_says (v : verbosity) (w : world) (ms : list message) (k : world -> client world) : client world :=
  match ms with
  | [] => k w
  | m :: ms' =>
      if enabled v (fst m)
      then let w' := (fst w ++ [m], snd w) in PFiles (fun _ => False) w' (log_says v w' ms' k)
      else log_says v w ms' k
  end.
(** src/archive.hpp:49-68  write_to_archive, which logs nothing *)
Definition log_store (w : world) (p : text) (bytes : list N) (k : world -> client world) : client world :=
  PFiles (fun w' => fst w' = fst w /\ part_written (snd w) p bytes (snd w')) (fst w, write (snd w) p bytes)
    (k (fst w, write (snd w) p bytes)).

(** src/main.cpp:253-464  every execution of the command, started with the files [f] and an empty log, is finite and ends with
    [r] (compare run_ends). *)
Definition log_ends {T} (Y : crypto T) (c : res (@talking world)) (f : fs) (r : res world) : Prop :=
  match c with
  | Fail e => r = Fail e
  | Ok (kd, input, body) =>
      match f input with
      | None => r = Fail FAssert
      | Some bytes => forall junk, length junk = c_words T Y ->
          match open_stream kd (c_words T Y) bytes junk [] with
          | Fail e => r = Fail e
          | Ok s => ends_with kd (c_words T Y) s body r
          end
      end
  end.
(** src/main.cpp:253-464  [w] is the log with the files at some moment of an execution (compare run_left) *)
Definition log_at {T} (Y : crypto T) (c : res (@talking world)) (f : fs) (w : world) : Prop :=
  w = ([], f) \/
  exists kd input body bytes junk s x, c = Ok (kd, input, body) /\ f input = Some bytes /\ length junk = c_words T Y /\
    open_stream kd (c_words T Y) bytes junk [] = Ok s /\
    fmoves_to kd (c_words T Y) ((s, Run body), ([], f)) (x, w).
