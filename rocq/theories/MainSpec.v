(** The manual of the program: what each command line means.  Written without the tables and the
    parser of MainModel.v. *)
From Coq Require Import String.
From Coq Require Import List Arith Bool NArith Ascii Permutation.
Import ListNotations.
From Verif Require Import Base GraphModel TextModel CliModel DotModel TorusModel CmdModel LtlModel MainModel.
Local Open Scope list_scope.

(** * Command lines *)
(** What is written after the subcommand: "--name value", "--flag", or a positional argument. *)
Inductive item := Opt (name : string) (v : text) | Flag (name : string) | Pos (v : text).
Definition words (items : list item) : list text :=
  flat_map (fun i => match i with Opt n v => [lit n; v] | Flag n => [lit n] | Pos v => [v] end) items.
Definition options (items : list item) : list (string * option text) :=
  flat_map (fun i => match i with Opt n v => [(n, Some v)] | Flag n => [(n, None)] | Pos _ => [] end) items.
Definition positionals (items : list item) : list text :=
  flat_map (fun i => match i with Pos v => [v] | _ => [] end) items.

(** The general flags, before the subcommand, each at most once. *)
Definition general (g : list text) : Prop := Forall (fun w => w = lit "--verbose" \/ w = lit "--quiet") g /\ NoDup g.

(** A positional argument is no option (a single "-" is allowed) and no name of a subcommand. *)
Definition commands : list string :=
  ["run"; "genkey"; "genbkey"; "enc"; "dec"; "ltl2spec"; "spec2spec"; "spec2dot"; "spec2att"; "att2spec";
   "offline"; "reverse"; "reversed"; "block"; "bbs"; "block-backstream"; "flut"; "qtrlwe2"; "plain"]%string.
Definition plain_word (w : text) : Prop :=
  (w = lit "-" \/ hd_error w <> Some "-"%char) /\ forall c, In c commands -> w <> lit c.

(** The command line [argv]: general flags, the subcommand [c], options and flags [o] in any order,
    and among them the positional arguments [p] in this order. *)
Definition command_line (argv : list text) (c : list string) (o : list (string * option text)) (p : list text) : Prop :=
  exists g items, general g /\ argv = g ++ map lit c ++ words items /\
    Permutation (options items) o /\ positionals items = p /\ Forall plain_word p.

(** * Command lines outside the model *)
(** A word that CLI11 does not read as "--name": it has the form name=value, or its dashes are not
    followed by a letter. *)
Definition strange (w : text) : Prop :=
  exists w', w = "-"%char :: w' /\ w' <> [] /\
    (In "="%char w \/ w' = ["-"%char] \/
     exists c t, (w' = c :: t /\ nat_of_ascii c <= 33) \/
                 (w' = "-"%char :: c :: t /\ (c = "-"%char \/ nat_of_ascii c <= 33))).
Definition run_commands : list string :=
  ["offline"; "reverse"; "reversed"; "block"; "bbs"; "block-backstream"; "flut"; "qtrlwe2"; "plain"]%string.
(** a number is written in decimal and fits into size_t *)
Definition number (t : text) (n : nat) : Prop := t = show_nat n /\ (N.of_nat n < 2 ^ 64)%N.
(** Another spelling that CLI11 may read as a number. *)
Definition strange_number (w : text) : Prop :=
  ((exists c, In c w /\ 48 <= nat_of_ascii c <= 57) \/ w = lit "true") /\ forall n, ~ number w n.
(** The spellings that the model leaves open: strange words and numbers, a flag that is repeated, and
    the name of a subcommand where an option or a positional argument is due. *)
Definition outside (argv : list text) : Prop :=
  (exists w, In w argv /\ (strange w \/ strange_number w)) \/
  (exists a b c n, argv = a ++ lit n :: b ++ lit n :: c /\
     In n ["--verbose"; "--quiet"; "--minimized"; "--reversed"; "--negated"; "--spec-reversed"; "--make-all-live-states-final"]%string) \/
  (exists pre c post, argv = pre ++ lit c :: post /\ In c commands /\ ~ general pre /\
     ~ exists g, general g /\ pre = g ++ [lit "run"] /\ In c run_commands).

(** * The manual *)
Definition readable (f : fs) (p : text) : Prop := f p <> None.
Definition positive (t : text) (n : nat) : Prop := number t n /\ 0 < n.
(** an optional option, an optional flag *)
Definition maybe (n : string) (v : option text) : list (string * option text) :=
  match v with Some t => [(n, Some t)] | None => [] end.
Definition flagged (n : string) (b : bool) : list (string * option text) := if b then [(n, None)] else [].
Definition readable_opt (f : fs) (v : option text) : Prop := match v with Some p => readable f p | None => True end.

(** Standard input, or the file that is named and is not "-"; [missing] if there is no such file. *)
Definition text_of (missing : fault) (f : fs) (stdin : text) (p : list text) (r : res text) : Prop :=
  match p with
  | [] => r = Ok stdin
  | [name] => (name = lit "-" /\ r = Ok stdin) \/
              (name <> lit "-" /\ match f name with Some b => r = Ok (map ascii_of_N b) | None => r = Fail missing end)
  | _ => False
  end.

Section Manual.
Context (T : tfhe) (Y : crypto T) (spot : spot_lib).
Context (f : fs) (stdin : text) (coin : nat).
Definition writes (r : res fs) : res action := do f' <- r; Ok (Writes f').
Definition prints (r : res text) : res action := do t <- r; Ok (Prints t).
Definition runs (r : res command) : res action := do c <- r; Ok (Runs c).

(** The options that every "run" command on ciphertexts has. *)
Definition common (b o s i : text) (d : option text) : list (string * option text) :=
  [("--bkey", Some b); ("--out", Some o); ("--spec", Some s); ("--in", Some i)]%string ++ maybe "--debug-secret-key" d.
Definition common_ok (b s i : text) (d : option text) : Prop :=
  readable f b /\ readable f s /\ readable f i /\ readable_opt f d.

Inductive manual : list string -> list (string * option text) -> list text -> res action -> Prop :=
| man_genkey o :
    manual ["genkey"%string] [("--out"%string, Some o)] [] (writes (do_genkey T Y f o))
| man_genbkey k o : readable f k ->
    manual ["genbkey"%string] [("--key"%string, Some k); ("--out"%string, Some o)] [] (writes (do_genbkey T Y f k o))
| man_enc k i o t n : readable f k -> readable f i -> positive t n ->
    manual ["enc"%string] [("--ap"%string, Some t); ("--key"%string, Some k); ("--in"%string, Some i); ("--out"%string, Some o)] []
           (writes (do_enc T Y f k i o n coin))
| man_dec k i : readable f k -> readable f i ->
    manual ["dec"%string] [("--key"%string, Some k); ("--in"%string, Some i)] [] (prints (do_dec T Y f k i))
| man_offline b o s i d t n : common_ok b s i d -> positive t n ->
    manual ["run"; "offline"]%string (common b o s i d ++ [("--bootstrapping-freq"%string, Some t)]) []
           (runs (do_run_offline T Y f s i o n b false))
| man_reverse name b o s i d t n t' n' r : In name ["reverse"; "reversed"]%string ->
    common_ok b s i d -> positive t n -> positive t' n' ->
    manual ["run"%string; name] (common b o s i d ++ [("--out-freq"%string, Some t); ("--bootstrapping-freq"%string, Some t')]
                                 ++ flagged "--spec-reversed" r) []
           (runs (do_run_reverse T Y f s i (Some o) None n n' r b false))
| man_block name b o s i d t n t' n' : In name ["block"; "bbs"; "block-backstream"]%string ->
    common_ok b s i d -> positive t n -> positive t' n' ->
    manual ["run"%string; name] (common b o s i d ++ [("--out-freq"%string, Some t); ("--queue-size"%string, Some t')]) []
           (runs (do_run_block T Y f s i o n' b false))
| man_flut name b o s i d t n t1 n1 t2 n2 t3 n3 : In name ["flut"; "qtrlwe2"]%string ->
    common_ok b s i d -> positive t n -> positive t1 n1 -> positive t2 n2 -> positive t3 n3 ->
    manual ["run"%string; name] (common b o s i d ++ [("--out-freq"%string, Some t); ("--queue-size"%string, Some t1);
                                   ("--max-second-lut-depth"%string, Some t2); ("--bootstrapping-freq"%string, Some t3)]) []
           (runs (do_run_flut T Y f s i (Some o) None n n1 n3 b (Some n2) d false))
| man_plain s i t n : readable f s -> readable f i -> positive t n ->
    manual ["run"; "plain"]%string [("--ap"%string, Some t); ("--spec"%string, Some s); ("--in"%string, Some i)] []
           (prints (run_plain f s i n))
| man_ltl2spec fml t n all : number t n ->
    manual ["ltl2spec"%string] (flagged "--make-all-live-states-final" all) [fml; t]
           (prints (if parses spot fml then do_ltl2spec (spot fml n) n all else Fail FAssert))
| man_spec2spec m r n p s : text_of FAssert f stdin p s ->
    manual ["spec2spec"%string] (flagged "--minimized" m ++ flagged "--reversed" r ++ flagged "--negated" n) p
           (prints (do t <- s; do_spec2spec t m r n))
| man_spec2dot p s : text_of FAssert f stdin p s ->
    manual ["spec2dot"%string] [] p (prints (do t <- s; do_spec2dot t))
| man_spec2att p s : text_of FAssert f stdin p s ->
    manual ["spec2att"%string] [] p (prints (do t <- s; do_spec2att t))
| man_att2spec p s : text_of FExit f stdin p s ->
    manual ["att2spec"%string] [] p (prints (do t <- s; do_att2spec t)).
End Manual.
