(** The run commands on a disk that can be full, with outputs that may not be writable: src/main.cpp:253-464 with src/archive.hpp:49-68.

    The commands are those of CmdModel with the way a result is stored as a parameter: with [store_file] they are
    the same terms (C75_same, by computation), with [store_disk] the disk can be full. *)
From Coq Require Import List Arith Bool NArith ZArith Ascii.
Import ListNotations.
From Verif Require Import Base GraphModel TextModel BitsModel TorusModel StreamModel ParModel RunnerModel ClientModel CmdModel CrashModel DiskModel.

(** src/archive.hpp:49-68  write_to_archive in a command that reads a stream; an incomplete write may be noticed
    ([error_die]) or not (then the command goes on).  [room f path] is the number of bytes the file [path] can hold
    when the files on the disk are [f], so the space may shrink as the command writes; [pieces] is how the archive
    hands its bytes over.  Before the write is over the file holds some prefix of what will be there.  [opens f path]:
    the file can be opened for writing; if not, it stays as it is. *)
Definition store_disk (cap : nat) (room : fs -> text -> nat) (pol : nat -> nat) (opens : fs -> text -> bool)
    (pieces : list N -> list (list N)) (f : fs) (path : text) (bytes : list N) (k : fs -> client fs) : client fs :=
  let '(r, f') := write_to_archive cap (room f path) pol (opens f path) f path (pieces bytes) in
  PFiles (if opens f path then part_written f path (firstn (room f path) bytes) else same_files f) f'
    (match r with Ok _ => k f' | Fail e => PRet (Fail e) end).

(** src/main.cpp:253-464: [f'] are the files after an execution of the command that ended with [r] *)
Definition run_over (T : tfhe) (Y : crypto T) (c : res command) (f : fs) (r : res fs) (f' : fs) : Prop :=
  exists c0 bytes junk s t, c = Ok c0 /\ f (cmd_input c0) = Some bytes /\ length junk = c_words T Y /\
    open_stream (cmd_kind c0) (c_words T Y) bytes junk [] = Ok s /\
    fmoves_to (cmd_kind c0) (c_words T Y) ((s, Run (cmd_body c0)), f) ((t, Over r), f').

Section Commands.
Context (T : tfhe) (Y : crypto T) (store : fs -> text -> list N -> (fs -> client fs) -> client fs).

(** src/main.cpp:253-285  do_run_offline *)
Definition do_run_offline_on (f : fs) (spec_filename input_filename output_filename : text)
    (bootstrapping_freq : nat) (bkey_filename : text) (sanitize_result : bool) : res command :=
  Ok (mkCommand Reversed input_filename
    (pdet (read_bkey T Y f bkey_filename) (fun '(ekey, _) =>
     pdet (do g <- from_file f spec_filename; minimized g) (fun g =>
     PSize (fun n =>
     pdet (offline_new T g n bootstrapping_freq ekey sanitize_result) (fun r =>
     PSize (fun n =>
     pdet (mapM (states_at_depth (b_graph r)) (seq 0 n)) (fun _ =>
     PSize (fun input_size =>
     offline_loop T Y input_size r (fun r =>
     pdet (offline_result T r) (fun c =>
     store f output_filename (archive_tlwe (t_n1 T) c) (fun f => PRet (Ok f))))))))))))).

(** src/main.cpp:342-364, 407-433, 456-463: the loop of the other three commands *)
Section Loop.
Context {St : Type} (feed : St -> trgsw T -> outcomes St) (ask : St -> outcomes (tlwe * St)).
Context (input_filename : text) (output_dirname : option text) (output_freq : nat)
        (finish : St -> fs -> client fs).
Fixpoint monitor_loop_on (fuel i : nat) (s : St) (f : fs) : client fs :=
  PSize (fun n =>
    if n =? 0 then finish s f
    else match fuel with
         | O => PRet (Fail FFuel)
         | S fuel' =>
             PNext (fun c =>
             PAny (feed s (c_load T Y c)) (fun s =>
             match output_dirname with
             | None => monitor_loop_on fuel' (S i) s f
             | Some d =>
                 if output_freq =? 0 then PRet (Fail FUndefined)
                 else if i mod output_freq =? output_freq - 1 then
                   let path := concat_paths d (out_name (i + 1)) in
                   PAny (ask s) (fun '(c, s) =>
                   if path_eqb path input_filename then PRet (Fail FUndefined)
                   else store f path (archive_tlwe (t_n1 T) c) (monitor_loop_on fuel' (S i) s))
                 else monitor_loop_on fuel' (S i) s f
             end))
         end).
End Loop.
(** src/main.cpp:358-365, 427-433: the last output *)
Definition last_output_on {St} (ask : St -> outcomes (tlwe * St)) (output_filename output_dirname : option text)
    (input_stream_size_hidden : nat) (s : St) (f : fs) : client fs :=
  PAny (ask s) (fun '(c, _) =>
    match output_filename, output_dirname with
    | Some o, _ => store f o (archive_tlwe (t_n1 T) c) (fun f => PRet (Ok f))
    | None, Some d =>
        store f (concat_paths d (out_name input_stream_size_hidden)) (archive_tlwe (t_n1 T) c) (fun f => PRet (Ok f))
    | None, None => PRet (Fail FUndefined)
    end).

(** src/main.cpp:314-366  do_run_reverse *)
Definition do_run_reverse_on (f : fs) (spec_filename input_filename : text) (output_filename output_dirname : option text)
    (output_freq bootstrapping_freq : nat) (is_spec_reversed : bool) (bkey_filename : text) (sanitize_result : bool)
  : res command :=
  assert_ (match output_filename, output_dirname with Some _, None | None, Some _ => true | _, _ => false end)
  (Ok (mkCommand Forward input_filename
    (pdet (read_bkey T Y f bkey_filename) (fun '(ekey, _) =>
     pdet (from_file f spec_filename) (fun g =>
     pdet (online2_new T g bootstrapping_freq is_spec_reversed ekey sanitize_result) (fun r =>
     PSize (fun _ =>
     PSize (fun hidden =>
     monitor_loop_on (backstream_eval_any T) (reverse_ask_any T) input_filename output_dirname output_freq
       (last_output_on (reverse_ask_any T) output_filename output_dirname hidden) hidden 0 r f)))))))).

(** src/main.cpp:368-434  do_run_flut *)
Definition do_run_flut_on (f : fs) (spec_filename input_filename : text) (output_filename output_dirname : option text)
    (output_freq queue_size bootstrapping_freq : nat) (bkey_filename : text) (max_second_lut_depth : option nat)
    (debug_skey_filename : option text) (sanitize_result : bool) : res command :=
  Ok (mkCommand Forward input_filename
    (pdet (from_file f spec_filename) (fun g =>
     pdet (read_bkey T Y f bkey_filename) (fun '(ekey, ikskey) =>
     pdet (assert_ (ekey && ikskey) (Ok tt)) (fun _ =>
     pdet (match debug_skey_filename with Some d => read_skey T Y f d | None => Ok tt end) (fun _ =>
     pdet (flut_new T g (match max_second_lut_depth with Some d => d | None => 8 end)
             queue_size bootstrapping_freq sanitize_result) (fun r =>
     PSize (fun _ =>
     pdet (match output_dirname with
           | Some _ => if queue_size =? 0 then Fail FUndefined else Ok tt
           | None => Ok tt
           end) (fun _ =>
     PSize (fun hidden =>
     monitor_loop_on (flut_eval_one_any T) (flut_result_any T) input_filename output_dirname output_freq
       (last_output_on (flut_result_any T) output_filename output_dirname hidden) hidden 0 r f)))))))))).

(** src/main.cpp:436-464  do_run_block *)
Definition do_run_block_on (f : fs) (spec_filename input_filename output_filename : text) (queue_size : nat)
    (bkey_filename : text) (sanitize_result : bool) : res command :=
  Ok (mkCommand Forward input_filename
    (pdet (from_file f spec_filename) (fun g =>
     pdet (read_bkey T Y f bkey_filename) (fun '(ekey, _) =>
     pdet (assert_ ekey (Ok tt)) (fun _ =>
     pdet (block_new T g queue_size sanitize_result) (fun r =>
     PSize (fun hidden =>
     monitor_loop_on (block_eval_one_any T) (block_result_any T) input_filename None 0
       (last_output_on (block_result_any T) (Some output_filename) None hidden) hidden 0 r f))))))).
End Commands.
