(** Model of the commands of src/main.cpp that read and write files: genkey, genbkey, enc, run,
    dec; with src/archive.hpp.

    The file system is a map from path strings to contents.  Path strings are names: aliases of a
    file (links, "a//b") are not modelled, nor are directories, permissions and write errors.
    Only files are observable: the log is not modelled. *)
From Coq Require Import List Arith Bool NArith ZArith Ascii.
Import ListNotations.
From Verif Require Import Base GraphModel TextModel BitsModel TorusModel RunnerModel ParModel StreamModel ClientModel.

(** (auxiliary) the file system, src/archive.hpp:21-27, 58-60 *)
Definition fs : Type := text -> option (list N).
(** (auxiliary) equality of path strings, src/archive.hpp:21-27 *)
Definition path_eqb (p q : text) : bool := if list_eq_dec ascii_dec p q then true else false.
(** (auxiliary) std::ofstream, src/archive.hpp:58: the file is replaced *)
Definition write (f : fs) (p : text) (bytes : list N) : fs := fun q => if path_eqb q p then Some bytes else f q.
(** src/archive.hpp:24, src/graph.cpp:198-199, src/utility.hpp:12-13: open a file and assert that this worked *)
Definition open_file (f : fs) (p : text) : res (list N) :=
  match f p with Some b => Ok b | None => Fail FAssert end.

(** src/graph.cpp:196-201  Graph::from_file *)
Definition from_file (f : fs) (p : text) : res Graph :=
  do b <- open_file f p; from_istream (map ascii_of_N b).

(** src/main.cpp:214-217  concat_paths: std::filesystem::path's operator/ *)
Definition c_slash : ascii := "/".
(** src/main.cpp:214-217 *)
Definition concat_paths (lhs rhs : text) : text :=
  match rhs with
  | c :: _ => if Ascii.eqb c c_slash then rhs
              else match rev lhs with
                   | [] => rhs
                   | l :: _ => if Ascii.eqb l c_slash then lhs ++ rhs else lhs ++ c_slash :: rhs
                   end
  | [] => match rev lhs with
          | [] => []
          | l :: _ => if Ascii.eqb l c_slash then lhs else lhs ++ [c_slash]
          end
  end.
(** src/main.cpp:348, 361  fmt::format("{}.out", n) *)
Definition out_name (n : nat) : text := show_nat n ++ ["."; "o"; "u"; "t"]%char.

(** src/main.cpp:219-223  print_result *)
Definition print_result (b : bool) : text := [if b then c_1 else c_0].

(** src/archive.hpp:49-68 for a TLWELvl1: cereal's portable binary archive of a
    std::array<uint32_t, n+1>: one byte for the endianness (1: little), then the words. *)
Definition archive_tlwe (n : nat) (c : tlwe) : list N :=
  1%N :: concat (map (fun i => le_bytes 4 (Z.to_N (cf c i))) (seq 0 (S n))).
(** src/archive.hpp:13-47 for a TLWELvl1: the words after the endianness byte; too few bytes make
    cereal throw, and read_from_archive calls error_die; surplus bytes are not read. *)
Fixpoint read_words (k : nat) (swap : bool) (bytes : list N) : res (list Z) :=
  match k with
  | O => Ok []
  | S k' =>
      if length bytes <? 4 then Fail FExit
      else
        let w := firstn 4 bytes in
        do r <- read_words k' swap (skipn 4 bytes);
        Ok (Z.of_N (of_le (if swap then rev w else w)) :: r)
  end.
(** src/archive.hpp:13-47 *)
Definition read_tlwe (n : nat) (bytes : list N) : res tlwe :=
  match bytes with
  | [] => Fail FExit
  | flag :: rest => read_words (S n) (negb (flag =? 1)%N) rest
  end.

(** The rest of the cryptography, as far as the commands use it.  One key pair is fixed: [c_skey]
    is what write_to_archive stores for the SecretKey, [c_bkey] for a BKey made from it; the
    readers say whether an archive holds these keys (a BKey: whether ekey and tlwel1_trlwel1_ikskey
    are there). *)
(** src/main.cpp:225-251, src/tfhepp_util.hpp:113-170, src/tfhepp_util.cpp:184-195 *)
Record crypto (T : tfhe) := mkCrypto {
  c_words : nat;                                    (* doubles in a TRGSWLvl1FFT *)
  c_save : trgsw T -> list N;                       (* their bit patterns *)
  c_load : list N -> trgsw T;
  c_enc : nat -> bool -> trgsw T;                   (* encrypt_bit_to_TRGSWLvl1FFT; the number stands for its random choices *)
  c_key : list Z;                                   (* skey.key.lvl1 *)
  c_skey : list N;
  c_bkey : list N;
  c_read_skey : list N -> bool;
  c_read_bkey : list N -> option (bool * bool) }.

Section Commands.
Context (T : tfhe) (Y : crypto T).

(** src/archive.hpp:13-47 for a SecretKey *)
Definition read_skey (f : fs) (p : text) : res unit :=
  do b <- open_file f p; if c_read_skey T Y b then Ok tt else Fail FExit.
(** src/archive.hpp:13-47 for a BKey *)
Definition read_bkey (f : fs) (p : text) : res (bool * bool) :=
  do b <- open_file f p; match c_read_bkey T Y b with Some k => Ok k | None => Fail FExit end.

(** src/main.cpp:225-229  do_genkey *)
Definition do_genkey (f : fs) (output_filename : text) : res fs := Ok (write f output_filename (c_skey T Y)).
(** src/main.cpp:231-237  do_genbkey *)
Definition do_genbkey (f : fs) (skey_filename output_filename : text) : res fs :=
  do _ <- read_skey f skey_filename; Ok (write f output_filename (c_bkey T Y)).

(** src/main.cpp:239-251  do_enc.  The output is truncated before the input is opened.  [coin]
    numbers the random choices. *)
Definition do_enc (f : fs) (skey_filename input_filename output_filename : text) (num_ap : nat) (coin : nat) : res fs :=
  do _ <- read_skey f skey_filename;
  let f := write f output_filename [] in
  do input <- open_file f input_filename;
  do '(_, bytes) <- each_input_bit input num_ap
                      (fun '(coin, bytes) b => Ok (S coin, bytes ++ save (c_save T Y (c_enc T Y coin b)))) (coin, []);
  Ok (write f output_filename bytes).

(** src/main.cpp:466-472  do_dec: what is printed *)
Definition do_dec (f : fs) (skey_filename input_filename : text) : res text :=
  do _ <- read_skey f skey_filename;
  do b <- open_file f input_filename;
  do enc_res <- read_tlwe (t_n1 T) b;
  Ok (print_result (decrypt_TLWELvl1_to_bit (t_n1 T) enc_res (c_key T Y))).

(** src/main.cpp:524-535  do_run_dfa_plain with its files: what is printed *)
Definition run_plain (f : fs) (spec_filename input_filename : text) (num_ap : nat) : res text :=
  do gr <- from_file f spec_filename;
  do input <- open_file f input_filename;
  do q <- each_input_bit input num_ap (fun q b => next_state gr q b) (initial_state gr);
  do res <- is_final_state gr q;
  Ok (print_result res).

(** src/archive.hpp:49-68  write_to_archive: the file is truncated when it is opened, and the bytes
    reach it in portions: on the way it holds some prefix of them. *)
Definition part_written (f : fs) (p : text) (bytes : list N) (f' : fs) : Prop :=
  exists k, forall q, f' q = write f p (firstn k bytes) q.
(** src/archive.hpp:49-68  write_to_archive in a command that reads a stream *)
Definition store_file (f : fs) (p : text) (bytes : list N) (k : fs -> client fs) : client fs :=
  PFiles (part_written f p bytes) (write f p bytes) (k (write f p bytes)).

(** * The commands that read a ciphertext file.  Each begins with opening the stream
    (src/main.cpp:259, 325, 378, 441). *)
Record command := mkCommand {
  cmd_kind : kind;
  cmd_input : text;
  cmd_body : client fs }.

(** src/main.cpp:253-285  do_run_offline.  The files are read in [f]. *)
Fixpoint offline_loop (n : nat) (r : backstream) (finish : backstream -> client fs) : client fs :=
  match n with
  | O => finish r
  | S n' => PNext (fun c => PAny (backstream_eval_any T r (c_load T Y c)) (fun r => offline_loop n' r finish))
  end.
(** src/main.cpp:253-285 *)
Definition do_run_offline (f : fs) (spec_filename input_filename output_filename : text)
    (bootstrapping_freq : nat) (bkey_filename : text) (sanitize_result : bool) : res command :=
  Ok (mkCommand Reversed input_filename
    (pdet (read_bkey f bkey_filename) (fun '(ekey, _) =>
     pdet (do g <- from_file f spec_filename; minimized g) (fun g =>
     PSize (fun n =>
     pdet (offline_new T g n bootstrapping_freq ekey sanitize_result) (fun r =>
     PSize (fun n =>
     pdet (mapM (states_at_depth (b_graph r)) (seq 0 n)) (fun _ =>     (* the log line "Total #CMUX" *)
     PSize (fun input_size =>
     offline_loop input_size r (fun r =>
     pdet (offline_result T r) (fun c =>
     store_file f output_filename (archive_tlwe (t_n1 T) c) (fun f => PRet (Ok f))))))))))))).

(** src/main.cpp:342-364, 407-433, 456-463: the loop of the other three commands.  [feed] and
    [ask] are eval_one and result.  size() is asked again in every iteration; [fuel] is the size
    before the loop.  i % 0 is undefined; so is, in the model, overwriting the file that is being
    read. *)
Section Loop.
Context {St : Type} (feed : St -> trgsw T -> outcomes St) (ask : St -> outcomes (tlwe * St)).
Context (input_filename : text) (output_dirname : option text) (output_freq : nat)
        (finish : St -> fs -> client fs).
Fixpoint monitor_loop (fuel i : nat) (s : St) (f : fs) : client fs :=
  PSize (fun n =>
    if n =? 0 then finish s f
    else match fuel with
         | O => PRet (Fail FFuel)
         | S fuel' =>
             PNext (fun c =>
             PAny (feed s (c_load T Y c)) (fun s =>
             match output_dirname with
             | None => monitor_loop fuel' (S i) s f
             | Some d =>
                 if output_freq =? 0 then PRet (Fail FUndefined)
                 else if i mod output_freq =? output_freq - 1 then
                   let path := concat_paths d (out_name (i + 1)) in
                   PAny (ask s) (fun '(c, s) =>
                   if path_eqb path input_filename then PRet (Fail FUndefined)
                   else store_file f path (archive_tlwe (t_n1 T) c) (monitor_loop fuel' (S i) s))
                 else monitor_loop fuel' (S i) s f
             end))
         end).
End Loop.
(** src/main.cpp:358-365, 427-433: the last output *)
Definition last_output {St} (ask : St -> outcomes (tlwe * St)) (output_filename output_dirname : option text)
    (input_stream_size_hidden : nat) (s : St) (f : fs) : client fs :=
  PAny (ask s) (fun '(c, _) =>
    match output_filename, output_dirname with
    | Some o, _ => store_file f o (archive_tlwe (t_n1 T) c) (fun f => PRet (Ok f))
    | None, Some d =>
        store_file f (concat_paths d (out_name input_stream_size_hidden)) (archive_tlwe (t_n1 T) c) (fun f => PRet (Ok f))
    | None, None => PRet (Fail FUndefined)          (* *output_dirname *)
    end).

(** src/online_dfa.cpp:109-112  result() of the reverse runner does not change it *)
Definition reverse_ask_any (s : backstream) : outcomes (tlwe * backstream) := det (do c <- online2_result T s; Ok (c, s)).

(** src/main.cpp:314-366  do_run_reverse *)
Definition do_run_reverse (f : fs) (spec_filename input_filename : text) (output_filename output_dirname : option text)
    (output_freq bootstrapping_freq : nat) (is_spec_reversed : bool) (bkey_filename : text) (sanitize_result : bool)
  : res command :=
  assert_ (match output_filename, output_dirname with Some _, None | None, Some _ => true | _, _ => false end)
  (Ok (mkCommand Forward input_filename
    (pdet (read_bkey f bkey_filename) (fun '(ekey, _) =>
     pdet (from_file f spec_filename) (fun g =>
     pdet (online2_new T g bootstrapping_freq is_spec_reversed ekey sanitize_result) (fun r =>
     PSize (fun _ =>
     PSize (fun hidden =>
     monitor_loop (backstream_eval_any T) reverse_ask_any input_filename output_dirname output_freq
       (last_output reverse_ask_any output_filename output_dirname hidden) hidden 0 r f)))))))).

(** src/main.cpp:368-434  do_run_flut *)
Definition do_run_flut (f : fs) (spec_filename input_filename : text) (output_filename output_dirname : option text)
    (output_freq queue_size bootstrapping_freq : nat) (bkey_filename : text) (max_second_lut_depth : option nat)
    (debug_skey_filename : option text) (sanitize_result : bool) : res command :=
  Ok (mkCommand Forward input_filename
    (pdet (from_file f spec_filename) (fun g =>
     pdet (read_bkey f bkey_filename) (fun '(ekey, ikskey) =>
     pdet (assert_ (ekey && ikskey) (Ok tt)) (fun _ =>
     pdet (match debug_skey_filename with Some d => read_skey f d | None => Ok tt end) (fun _ =>
     pdet (flut_new T g (match max_second_lut_depth with Some d => d | None => 8 end)
             queue_size bootstrapping_freq sanitize_result) (fun r =>
     PSize (fun _ =>
     pdet (match output_dirname with
           | Some _ => if queue_size =? 0 then Fail FUndefined else Ok tt      (* output_freq % queue_size *)
           | None => Ok tt
           end) (fun _ =>
     PSize (fun hidden =>
     monitor_loop (flut_eval_one_any T) (flut_result_any T) input_filename output_dirname output_freq
       (last_output (flut_result_any T) output_filename output_dirname hidden) hidden 0 r f)))))))))).

(** src/main.cpp:436-464  do_run_block *)
Definition do_run_block (f : fs) (spec_filename input_filename output_filename : text) (queue_size : nat)
    (bkey_filename : text) (sanitize_result : bool) : res command :=
  Ok (mkCommand Forward input_filename
    (pdet (from_file f spec_filename) (fun g =>
     pdet (read_bkey f bkey_filename) (fun '(ekey, _) =>
     pdet (assert_ ekey (Ok tt)) (fun _ =>
     pdet (block_new T g queue_size sanitize_result) (fun r =>
     PSize (fun hidden =>
     monitor_loop (block_eval_one_any T) (block_result_any T) input_filename None 0
       (last_output (block_result_any T) (Some output_filename) None hidden) hidden 0 r f))))))).

(** src/main.cpp:253-464: every execution of the command started with the files [f] is finite and
    ends with the outcome [r].  loaded_ has arbitrary content at the beginning. *)
Definition run_ends (c : res command) (f : fs) (r : res fs) : Prop :=
  match c with
  | Fail e => r = Fail e
  | Ok c =>
      match f (cmd_input c) with
      | None => r = Fail FAssert
      | Some bytes => forall junk, length junk = c_words T Y ->
          match open_stream (cmd_kind c) (c_words T Y) bytes junk [] with
          | Fail e => r = Fail e
          | Ok s => ends_with (cmd_kind c) (c_words T Y) s (cmd_body c) r
          end
      end
  end.
End Commands.
