(** The manual of the benchmark program: what each command line means.  Written without the tables
    and the parser of the model. *)
From Coq Require Import String.
From Coq Require Import List Arith Bool NArith ZArith Ascii Permutation.
Import ListNotations.
From Verif Require Import Base GraphModel TextModel DotModel TorusModel CmdModel MainSpec BenchModel.
Local Open Scope list_scope.

(** The command line: --verbose or not, the method, its options and flags [o] in any order. *)
Definition bench_line (argv : list text) (method : string) (o : list (string * option text)) : Prop :=
  exists (v : bool) items, argv = (if v then [lit "--verbose"] else []) ++ lit method :: words items /\
    Permutation (options items) o /\ positionals items = [].

(** The spellings that the model leaves open (compare [outside]). *)
Definition bench_outside (argv : list text) : Prop :=
  (exists w, In w argv /\ (strange w \/ strange_number w)) \/
  (exists a b c n, argv = a ++ lit n :: b ++ lit n :: c /\ In n ["--verbose"; "--spec-reversed"; "--sanitize-result"]%string) \/
  (exists pre c post, argv = pre ++ lit c :: post /\ In c commands /\ pre <> [] /\ pre <> [lit "--verbose"]).

Section Manual.
Context (T : tfhe) (Y : crypto T) (clock : nat -> text) (times : nat -> Z) (f : fs) (now : tm).
(** The first line of the output. *)
Definition header : list line := [(lit "time", current_time_str now)].
Inductive bench_manual : string -> list (string * option text) -> res report -> Prop :=
| bm_plain s i ta a tk k : readable f s -> readable f i -> positive ta a -> positive tk k ->
    bench_manual "plain" [("--ap", Some ta); ("--spec", Some s); ("--in", Some i); ("--out-freq", Some tk)]%string
      (do_plain f s i k a header)
| bm_offline s i ta a tb b san : readable f s -> readable f i -> positive ta a -> positive tb b ->
    bench_manual "offline" ([("--ap", Some ta); ("--bootstrapping-freq", Some tb); ("--spec", Some s); ("--in", Some i)]%string
        ++ flagged "--sanitize-result" san)
      (do_offline T Y clock f s i b a san header)
| bm_reversed s i ta a tk k tb b sr san : readable f s -> readable f i -> positive ta a -> positive tk k -> positive tb b ->
    bench_manual "reversed" ([("--ap", Some ta); ("--out-freq", Some tk); ("--bootstrapping-freq", Some tb); ("--spec", Some s);
        ("--in", Some i)]%string ++ flagged "--spec-reversed" sr ++ flagged "--sanitize-result" san)
      (do_reversed T Y clock times f s i k b a sr san header)
| bm_qtrlwe2 s i ta a tk k tq q tb b td d san : readable f s -> readable f i -> positive ta a -> positive tk k -> positive tq q ->
    positive tb b -> positive td d ->
    bench_manual "qtrlwe2" ([("--ap", Some ta); ("--out-freq", Some tk); ("--queue-size", Some tq); ("--bootstrapping-freq", Some tb);
        ("--spec", Some s); ("--in", Some i); ("--max-second-lut-depth", Some td)]%string ++ flagged "--sanitize-result" san)
      (do_qtrlwe2 T Y clock f s i k d q b a san header)
| bm_bbs s i ta a tk k tq q san : readable f s -> readable f i -> positive ta a -> positive tk k -> positive tq q ->
    bench_manual "bbs" ([("--ap", Some ta); ("--out-freq", Some tk); ("--queue-size", Some tq); ("--spec", Some s); ("--in", Some i)]%string
        ++ flagged "--sanitize-result" san)
      (do_bbs T Y clock times f s i k q a san header).
End Manual.
