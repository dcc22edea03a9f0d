(** Specification vocabulary for C79: what is seen on the standard error, command by command. *)
From Coq Require Import String.
From Coq Require Import List Arith Bool NArith Ascii.
Import ListNotations.
From Verif Require Import Base GraphModel TextModel DotModel TorusModel CmdModel LtlModel MainModel MainSpec MsgModel SayModel.
Local Open Scope list_scope.

(** The header as it is read on the screen (without the prefix of each line). *)
Definition tab : string := String "009"%char EmptyString.
Definition header_text (kind revision profiling args env cpus : text) : text :=
  lit "===================================
  _   _                 _____ _    
 | | | | ___  _ __ ___ |  ___/ \   
 | |_| |/ _ \| '_ ` _ \| |_ / _ \  
 |  _  | (_) | | | | | |  _/ ___ \ 
 |_| |_|\___/|_| |_| |_|_|/_/   \_\
                                   
Built with:
" ++ lit tab ++ lit "Type: " ++ kind ++ lit "
" ++ lit tab ++ lit "Git revision: " ++ revision ++ lit "
" ++ lit tab ++ lit "Profiling: " ++ profiling ++ lit "
Executed with:
" ++ lit tab ++ lit "Args: " ++ args ++ lit "
" ++ lit tab ++ lit "Env var: " ++ env ++ lit "
" ++ lit tab ++ lit "Concurrency:" ++ lit tab ++ cpus ++ lit "
===================================
".
(** Messages, each on a line. *)
Definition screen (l : list note) : text := flat_map (fun n => snd n ++ ["010"%char]) l.
(** The words of the command line, each followed by a blank. *)
Fixpoint blanks (l : list text) : text := match l with [] => [] | w :: l' => w ++ " "%char :: blanks l' end.
(** A variable of the environment, if it is set. *)
Definition variable (name : string) (v : option text) : text :=
  match v with Some t => lit name ++ "="%char :: t ++ [" "%char] | None => [] end.

(** An error: its message, the announcement of the backtrace and the backtrace. *)
Definition died (trace m : text) : list note := [(LError, m); (LError, lit "Preparing backtrace..."); (LError, trace)].
(** No error among the messages. *)
Definition calm (l : list note) : Prop := forall m, ~ In (LError, m) l.
(** The program was called with --quiet: among the words before the command. *)
Definition quietly (argv : list text) : Prop := exists g rest, general g /\ argv = g ++ rest /\ In (lit "--quiet") g.

Section Notes.
Context (trace : text) (T : tfhe) (Y : crypto T) (f : fs) (stdin : text).

(** A file that holds a secret key; one that holds the ciphertext of a bit (its words). *)
Definition holds_key (p : text) : Prop := exists b, f p = Some b /\ c_read_skey T Y b = true.
Definition holds_tlwe (p : text) (c : tlwe) : Prop := exists b, f p = Some b /\ read_tlwe (t_n1 T) b = Ok c.

(** The message about a result. *)
Definition result_note (b : bool) : note := (LInfo, if b then lit "Result (bool): true" else lit "Result (bool): false").

(** What is said when the specification is read that the positional arguments name (C78 says what that is). *)
Definition reading_notes (read : text -> said Graph) (gone : text -> list note) (p : list text) (l : list note) : Prop :=
  match p with
  | [] => l = fst (read stdin)
  | [n] => (n = lit "-" /\ l = fst (read stdin)) \/
           (n <> lit "-" /\ match f n with Some b => l = fst (read (map ascii_of_N b)) | None => l = gone n end)
  | _ => False
  end.

(** What a command says after the header. *)
Inductive notes : list string -> list (string * option text) -> list text -> list note -> Prop :=
| note_genkey o : notes ["genkey"%string] [("--out"%string, Some o)] [] []
| note_genbkey k o : holds_key k ->
    notes ["genbkey"%string] [("--key"%string, Some k); ("--out"%string, Some o)] [] []
| note_genbkey_bad k o : readable f k -> ~ holds_key k ->
    notes ["genbkey"%string] [("--key"%string, Some k); ("--out"%string, Some o)] [] (died trace (lit "Invalid archive: " ++ k))
| note_enc k i o t n : holds_key k -> readable f i -> positive t n ->
    notes ["enc"%string] [("--ap"%string, Some t); ("--key"%string, Some k); ("--in"%string, Some i); ("--out"%string, Some o)] [] []
| note_enc_bad k i o t n : readable f k -> ~ holds_key k -> readable f i -> positive t n ->
    notes ["enc"%string] [("--ap"%string, Some t); ("--key"%string, Some k); ("--in"%string, Some i); ("--out"%string, Some o)] []
          (died trace (lit "Invalid archive: " ++ k))
| note_dec k i c : holds_key k -> holds_tlwe i c ->
    notes ["dec"%string] [("--key"%string, Some k); ("--in"%string, Some i)] []
          [result_note (decrypt_TLWELvl1_to_bit (t_n1 T) c (c_key T Y))]
| note_dec_bad_key k i : readable f k -> ~ holds_key k -> readable f i ->
    notes ["dec"%string] [("--key"%string, Some k); ("--in"%string, Some i)] [] (died trace (lit "Invalid archive: " ++ k))
| note_dec_bad k i : holds_key k -> readable f i -> (forall c, ~ holds_tlwe i c) ->
    notes ["dec"%string] [("--key"%string, Some k); ("--in"%string, Some i)] [] (died trace (lit "Invalid archive: " ++ i))
| note_plain s i t n bs : f s = Some bs -> readable f i -> positive t n ->
    notes ["run"; "plain"]%string [("--ap"%string, Some t); ("--spec"%string, Some s); ("--in"%string, Some i)] []
          (fst (from_istream_said trace (map ascii_of_N bs)) ++
           match run_plain f s i n with
           | Ok printed => if list_eq_dec ascii_dec printed (lit "1") then [result_note true] else [result_note false]
           | Fail _ => []
           end)
| note_run c o p r (Sp : spot_lib) coin : manual T Y Sp f stdin coin ("run"%string :: c) o p r -> c <> ["plain"%string] ->
    notes ("run"%string :: c) o p []
| note_ltl2spec fml t n all : number t n ->
    notes ["ltl2spec"%string] (flagged "--make-all-live-states-final" all) [fml; t] []
| note_spec2spec m r n p l : reading_notes (from_istream_said trace) (fun _ => []) p l ->
    notes ["spec2spec"%string] (flagged "--minimized" m ++ flagged "--reversed" r ++ flagged "--negated" n) p l
| note_spec2dot p l : reading_notes (from_istream_said trace) (fun _ => []) p l -> notes ["spec2dot"%string] [] p l
| note_spec2att p l : reading_notes (from_istream_said trace) (fun _ => []) p l -> notes ["spec2att"%string] [] p l
| note_att2spec p l : reading_notes (from_att_istream_said trace) (fun n => died trace (lit "Invalid filename: " ++ n)) p l ->
    notes ["att2spec"%string] [] p l.
End Notes.
