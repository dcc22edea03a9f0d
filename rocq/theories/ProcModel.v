(** Several commands running at the same time in one directory: src/main.cpp:214-535 with
    src/archive.hpp:13-68, src/utility.hpp:10-32, src/graph.cpp:196-201 and src/tfhepp_util.cpp:18-180.

    Each command is written down as the sequence of its accesses to files, interleaved with its
    computations and its calls on the ciphertext stream.  Processes share nothing but the file
    system; between any two steps of one process and its loader thread, the others may make steps.
    A file is opened and read in one step; it is written in portions of any size.  What a process
    sees of a file that another one is writing is therefore simplified; no theorem is about that
    case except the refutation in [PropsProc]. *)
From Coq Require Import List Arith Bool NArith ZArith Ascii.
Import ListNotations.
From Verif Require Import Base GraphModel TextModel BitsModel TorusModel RunnerModel ParModel StreamModel ClientModel CmdModel CrashModel.

(** What the main thread of a process still has to do, e.g. src/main.cpp:253-285. *)
Inductive work : Type :=
| WRet (r : res text)                                        (* return, with what was printed, or stop *)
| WRead (p : text) (k : option (list N) -> work)             (* open and read a file *)
| WOpen (kd : kind) (words : nat) (p : text) (k : work)      (* construct the ciphertext stream *)
| WSize (k : nat -> work)                                    (* input_stream->size() *)
| WNext (k : list N -> work)                                 (* input_stream->next() *)
| WAny (X : Type) (o : outcomes X) (k : X -> work)           (* a computation with the outcomes [o] *)
| WCreate (p : text) (k : work)                              (* open a file for writing *)
| WAppend (p : text) (there more : list N) (k : work).       (* [there] is in the file, [more] is to follow *)
Arguments WAny {X}.

(** (auxiliary) a sequential computation, e.g. src/main.cpp:261-266 *)
Definition wdet {X} (r : res X) (k : X -> work) : work := WAny (det r) k.
(** src/archive.hpp:49-68  write_to_archive *)
Definition wstore (p : text) (bytes : list N) (k : work) : work := WCreate p (WAppend p [] bytes k).

(** The main thread is between two calls on its stream, inside a call, or has stopped
    (src/main.cpp:253-464 with src/tfhepp_util.cpp:99-180). *)
Inductive control :=
| Doing (w : work)
| InSize (k : nat -> work)
| InNext (k : list N -> work)
| Ended (r : res text).
(** (auxiliary) src/main.cpp:253-464: the stream of a process (its kind, the size of a ciphertext, its state)
    and its main thread *)
Definition pstate : Type := option (kind * nat * stream) * control.

(** src/main.cpp:214-535: one step of a process in the directory. *)
Inductive pmove : pstate * fs -> pstate * fs -> Prop :=
| p_loader kd n s s' c f : (forall r, c <> Ended r) -> step kd n Loader s = Some (Ok s') ->
    pmove ((Some (kd, n, s), c), f) ((Some (kd, n, s'), c), f)
| p_loader_fail kd n s e c f : (forall r, c <> Ended r) -> step kd n Loader s = Some (Fail e) ->
    pmove ((Some (kd, n, s), c), f) ((Some (kd, n, s), Ended (Fail e)), f)
| p_open kd n p k o f bytes junk s : f p = Some bytes -> length junk = n -> open_stream kd n bytes junk [] = Ok s ->
    pmove ((o, Doing (WOpen kd n p k)), f) ((Some (kd, n, s), Doing k), f)
| p_open_fail kd n p k o f bytes junk e : f p = Some bytes -> length junk = n -> open_stream kd n bytes junk [] = Fail e ->
    pmove ((o, Doing (WOpen kd n p k)), f) ((o, Ended (Fail e)), f)
| p_open_none kd n p k o f : f p = None ->
    pmove ((o, Doing (WOpen kd n p k)), f) ((o, Ended (Fail FAssert)), f)
| p_size kd n s k f : pmove ((Some (kd, n, s), Doing (WSize k)), f) ((Some (kd, n, enter kd Size s), InSize k), f)
| p_next kd n s k f : pmove ((Some (kd, n, s), Doing (WNext k)), f) ((Some (kd, n, enter kd Next s), InNext k), f)
| p_in_size kd n s s' k f : step kd n Caller s = Some (Ok s') ->
    pmove ((Some (kd, n, s), InSize k), f) ((Some (kd, n, s'), InSize k), f)
| p_in_size_fail kd n s e k f : step kd n Caller s = Some (Fail e) ->
    pmove ((Some (kd, n, s), InSize k), f) ((Some (kd, n, s), Ended (Fail e)), f)
| p_in_next kd n s s' k f : step kd n Caller s = Some (Ok s') ->
    pmove ((Some (kd, n, s), InNext k), f) ((Some (kd, n, s'), InNext k), f)
| p_in_next_fail kd n s e k f : step kd n Caller s = Some (Fail e) ->
    pmove ((Some (kd, n, s), InNext k), f) ((Some (kd, n, s), Ended (Fail e)), f)
| p_size_back kd n s k out m f : s_prog s = [] -> s_out s = out ++ [ESize m] ->
    pmove ((Some (kd, n, s), InSize k), f) ((Some (kd, n, s), Doing (k m)), f)
| p_next_back kd n s k out c f : s_prog s = [] -> s_out s = out ++ [EValue c] ->
    pmove ((Some (kd, n, s), InNext k), f) ((Some (kd, n, s), Doing (k c)), f)
| p_any X (o : outcomes X) k x st f : o (Ok x) -> pmove ((st, Doing (WAny o k)), f) ((st, Doing (k x)), f)
| p_any_fail X (o : outcomes X) k e st f : o (Fail e) -> pmove ((st, Doing (WAny o k)), f) ((st, Ended (Fail e)), f)
| p_read p k st f : pmove ((st, Doing (WRead p k)), f) ((st, Doing (k (f p))), f)
| p_create p k st f : pmove ((st, Doing (WCreate p k)), f) ((st, Doing k), write f p [])
| p_append p there a b k st f : a <> [] ->
    pmove ((st, Doing (WAppend p there (a ++ b) k)), f) ((st, Doing (WAppend p (there ++ a) b k)), write f p (there ++ a))
| p_appended p there k st f : pmove ((st, Doing (WAppend p there [] k)), f) ((st, Doing k), f)
| p_end r st f : pmove ((st, Doing (WRet r)), f) ((st, Ended r), f).

(** test_homfa.sh:28-31: commands one after another, as long as they succeed: what was printed so far, the
    running command, the commands to come. *)
Definition process : Type := text * pstate * list work.
(** (auxiliary) a list of commands that begins, test_homfa.sh:28-31; no command at all prints nothing *)
Definition begin (l : list work) : process :=
  match l with [] => ([], (None, Ended (Ok [])), []) | w :: r => ([], (None, Doing w), r) end.
(** test_homfa.sh:28-31: one step of such a list of commands. *)
Inductive smove : process * fs -> process * fs -> Prop :=
| s_step out st st' l f f' : pmove (st, f) (st', f') -> smove ((out, st, l), f) ((out, st', l), f')
| s_next out o t w l f : smove ((out, (o, Ended (Ok t)), w :: l), f) ((out ++ t, (None, Doing w), l), f).

(** Several of them at the same time, e.g. test_homfa.sh:28-31 in two shells: in each step one of them moves. *)
Inductive wmove : list process * fs -> list process * fs -> Prop :=
| w_one l1 q q' l2 f f' : smove (q, f) (q', f') -> wmove (l1 ++ q :: l2, f) (l1 ++ q' :: l2, f').
(** (auxiliary) several steps, test_homfa.sh:28-31 *)
Inductive wmoves : list process * fs -> list process * fs -> Prop :=
| ws_refl x : wmoves x x
| ws_step x y z : wmove x y -> wmoves y z -> wmoves x z.

Section Commands.
Context (T : tfhe) (Y : crypto T).

(** (auxiliary) src/archive.hpp:24, src/graph.cpp:198-199, src/utility.hpp:12-13: assert that opening worked *)
Definition there (o : option (list N)) : res (list N) := match o with Some b => Ok b | None => Fail FAssert end.
(** src/archive.hpp:13-47 for a SecretKey *)
Definition skey_of (o : option (list N)) : res unit := do b <- there o; if c_read_skey T Y b then Ok tt else Fail FExit.
(** src/archive.hpp:13-47 for a BKey *)
Definition bkey_of (o : option (list N)) : res (bool * bool) :=
  do b <- there o; match c_read_bkey T Y b with Some k => Ok k | None => Fail FExit end.
(** src/graph.cpp:196-201  Graph::from_file *)
Definition graph_of (o : option (list N)) : res Graph := do b <- there o; from_istream (map ascii_of_N b).

(** src/main.cpp:225-229  do_genkey *)
Definition work_genkey (output_filename : text) : work := wstore output_filename (c_skey T Y) (WRet (Ok [])).
(** src/main.cpp:231-237  do_genbkey *)
Definition work_genbkey (skey_filename output_filename : text) : work :=
  WRead skey_filename (fun o => wdet (skey_of o) (fun _ =>
  wstore output_filename (c_bkey T Y) (WRet (Ok [])))).
(** src/main.cpp:239-251  do_enc: the output is opened before the input; each bit that is read is encrypted and
    written; that the input is too short shows at its end (src/utility.hpp:29-31). *)
Definition work_enc (skey_filename input_filename output_filename : text) (num_ap coin : nat) : work :=
  WRead skey_filename (fun o => wdet (skey_of o) (fun _ =>
  WCreate output_filename (
  WRead input_filename (fun o => wdet (there o) (fun input =>
  WAppend output_filename [] (enc_output T Y coin (bits_passed 0 num_ap input)) (
  wdet (each_input_bit input num_ap (fun _ _ => Ok tt) tt) (fun _ => WRet (Ok [])))))))).
(** src/main.cpp:466-472  do_dec *)
Definition work_dec (skey_filename input_filename : text) : work :=
  WRead skey_filename (fun o => wdet (skey_of o) (fun _ =>
  WRead input_filename (fun o => wdet (do b <- there o; read_tlwe (t_n1 T) b) (fun enc_res =>
  WRet (Ok (print_result (decrypt_TLWELvl1_to_bit (t_n1 T) enc_res (c_key T Y)))))))).
(** src/main.cpp:524-535  do_run_dfa_plain *)
Definition work_plain (spec_filename input_filename : text) (num_ap : nat) : work :=
  WRead spec_filename (fun o => wdet (graph_of o) (fun gr =>
  WRead input_filename (fun o => wdet (do input <- there o;
    do q <- each_input_bit input num_ap (fun q b => next_state gr q b) (initial_state gr);
    do res <- is_final_state gr q; Ok (print_result res)) (fun t => WRet (Ok t))))).

(** src/main.cpp:274-281  the loop of do_run_offline *)
Fixpoint offline_work (n : nat) (r : backstream) (finish : backstream -> work) : work :=
  match n with
  | O => finish r
  | S n' => WNext (fun c => WAny (backstream_eval_any T r (c_load T Y c)) (fun r => offline_work n' r finish))
  end.
(** src/main.cpp:253-285  do_run_offline *)
Definition work_offline (spec_filename input_filename output_filename : text)
    (bootstrapping_freq : nat) (bkey_filename : text) (sanitize_result : bool) : work :=
  WOpen Reversed (c_words T Y) input_filename (
  WRead bkey_filename (fun o => wdet (bkey_of o) (fun '(ekey, _) =>
  WRead spec_filename (fun o => wdet (do g <- graph_of o; minimized g) (fun g =>
  WSize (fun n =>
  wdet (offline_new T g n bootstrapping_freq ekey sanitize_result) (fun r =>
  WSize (fun n =>
  wdet (mapM (states_at_depth (b_graph r)) (seq 0 n)) (fun _ =>
  WSize (fun input_size =>
  offline_work input_size r (fun r =>
  wdet (offline_result T r) (fun c =>
  wstore output_filename (archive_tlwe (t_n1 T) c) (WRet (Ok [])))))))))))))).

Section Loop.
Context {St : Type} (feed : St -> trgsw T -> outcomes St) (ask : St -> outcomes (tlwe * St)).
Context (input_filename : text) (output_dirname : option text) (output_freq : nat) (finish : St -> work).
(** src/main.cpp:342-364, 407-433, 456-463: the loop of the other three commands, as in [monitor_loop] *)
Fixpoint monitor_work (fuel i : nat) (s : St) : work :=
  WSize (fun n =>
    if n =? 0 then finish s
    else match fuel with
         | O => WRet (Fail FFuel)
         | S fuel' =>
             WNext (fun c =>
             WAny (feed s (c_load T Y c)) (fun s =>
             match output_dirname with
             | None => monitor_work fuel' (S i) s
             | Some d =>
                 if output_freq =? 0 then WRet (Fail FUndefined)
                 else if i mod output_freq =? output_freq - 1 then
                   let path := concat_paths d (out_name (i + 1)) in
                   WAny (ask s) (fun '(c, s) =>
                   if path_eqb path input_filename then WRet (Fail FUndefined)
                   else wstore path (archive_tlwe (t_n1 T) c) (monitor_work fuel' (S i) s))
                 else monitor_work fuel' (S i) s
             end))
         end).
End Loop.
(** src/main.cpp:358-365, 427-433: the last output *)
Definition last_work {St} (ask : St -> outcomes (tlwe * St)) (output_filename output_dirname : option text)
    (input_stream_size_hidden : nat) (s : St) : work :=
  WAny (ask s) (fun '(c, _) =>
    match output_filename, output_dirname with
    | Some o, _ => wstore o (archive_tlwe (t_n1 T) c) (WRet (Ok []))
    | None, Some d => wstore (concat_paths d (out_name input_stream_size_hidden)) (archive_tlwe (t_n1 T) c) (WRet (Ok []))
    | None, None => WRet (Fail FUndefined)
    end).

(** src/main.cpp:314-366  do_run_reverse *)
Definition work_reverse (spec_filename input_filename : text) (output_filename output_dirname : option text)
    (output_freq bootstrapping_freq : nat) (is_spec_reversed : bool) (bkey_filename : text) (sanitize_result : bool) : work :=
  wdet (assert_ (match output_filename, output_dirname with Some _, None | None, Some _ => true | _, _ => false end) (Ok tt)) (fun _ =>
  WOpen Forward (c_words T Y) input_filename (
  WRead bkey_filename (fun o => wdet (bkey_of o) (fun '(ekey, _) =>
  WRead spec_filename (fun o => wdet (graph_of o) (fun g =>
  wdet (online2_new T g bootstrapping_freq is_spec_reversed ekey sanitize_result) (fun r =>
  WSize (fun _ =>
  WSize (fun hidden =>
  monitor_work (backstream_eval_any T) (reverse_ask_any T) input_filename output_dirname output_freq
    (last_work (reverse_ask_any T) output_filename output_dirname hidden) hidden 0 r))))))))).

(** src/main.cpp:368-434  do_run_flut *)
Definition work_flut (spec_filename input_filename : text) (output_filename output_dirname : option text)
    (output_freq queue_size bootstrapping_freq : nat) (bkey_filename : text) (max_second_lut_depth : option nat)
    (debug_skey_filename : option text) (sanitize_result : bool) : work :=
  let rest :=
    WRead spec_filename (fun o => wdet (graph_of o) (fun g =>
    WRead bkey_filename (fun o => wdet (bkey_of o) (fun '(ekey, ikskey) =>
    wdet (assert_ (ekey && ikskey) (Ok tt)) (fun _ =>
    let more :=
      wdet (flut_new T g (match max_second_lut_depth with Some d => d | None => 8 end)
              queue_size bootstrapping_freq sanitize_result) (fun r =>
      WSize (fun _ =>
      wdet (match output_dirname with
            | Some _ => if queue_size =? 0 then Fail FUndefined else Ok tt
            | None => Ok tt
            end) (fun _ =>
      WSize (fun hidden =>
      monitor_work (flut_eval_one_any T) (flut_result_any T) input_filename output_dirname output_freq
        (last_work (flut_result_any T) output_filename output_dirname hidden) hidden 0 r)))) in
    match debug_skey_filename with
    | Some d => WRead d (fun o => wdet (skey_of o) (fun _ => more))
    | None => wdet (Ok tt) (fun _ => more)
    end))))) in
  WOpen Forward (c_words T Y) input_filename rest.

(** src/main.cpp:436-464  do_run_block *)
Definition work_block (spec_filename input_filename output_filename : text) (queue_size : nat)
    (bkey_filename : text) (sanitize_result : bool) : work :=
  WOpen Forward (c_words T Y) input_filename (
  WRead spec_filename (fun o => wdet (graph_of o) (fun g =>
  WRead bkey_filename (fun o => wdet (bkey_of o) (fun '(ekey, _) =>
  wdet (assert_ ekey (Ok tt)) (fun _ =>
  wdet (block_new T g queue_size sanitize_result) (fun r =>
  WSize (fun hidden =>
  monitor_work (block_eval_one_any T) (block_result_any T) input_filename None 0
    (last_work (block_result_any T) (Some output_filename) None hidden) hidden 0 r)))))))).
End Commands.
