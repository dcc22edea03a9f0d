(** The command line of the benchmark program and the lines it prints: proofs. *)
From Coq Require Import String.
From Coq Require Import List Arith Bool NArith ZArith Ascii Permutation Lia.
Import ListNotations.
From Verif Require Import Base BaseFacts GraphModel TextModel CliModel DotModel TorusModel CmdModel CmdFacts
  LtlModel TimeModel MainModel MainSpec MainFacts MainClaims BenchModel BenchManual BenchCli BenchOutModel.
Local Open Scope list_scope.

Section M.
Context (T : tfhe) (Y : crypto T) (clock : nat -> text) (times : nat -> Z) (f : fs) (now : tm).
(** What each command line of the manual (BenchManual.v) prints, with the outcome. *)
Inductive prints_manual : string -> list (string * option text) -> list line * res (option (list sample)) -> Prop :=
| pm_plain s i ta a tk k : readable f s -> readable f i -> positive ta a -> positive tk k ->
    prints_manual "plain" [("--ap", Some ta); ("--spec", Some s); ("--in", Some i); ("--out-freq", Some tk)]%string
      (do_plain_t f s i k a (header now))
| pm_offline s i ta a tb b san : readable f s -> readable f i -> positive ta a -> positive tb b ->
    prints_manual "offline" ([("--ap", Some ta); ("--bootstrapping-freq", Some tb); ("--spec", Some s); ("--in", Some i)]%string
        ++ flagged "--sanitize-result" san)
      (do_offline_t T Y clock f s i b a san (header now))
| pm_reversed s i ta a tk k tb b sr san : readable f s -> readable f i -> positive ta a -> positive tk k -> positive tb b ->
    prints_manual "reversed" ([("--ap", Some ta); ("--out-freq", Some tk); ("--bootstrapping-freq", Some tb); ("--spec", Some s);
        ("--in", Some i)]%string ++ flagged "--spec-reversed" sr ++ flagged "--sanitize-result" san)
      (do_reversed_t T Y clock times f s i k b a sr san (header now))
| pm_qtrlwe2 s i ta a tk k tq q tb b td d san : readable f s -> readable f i -> positive ta a -> positive tk k -> positive tq q ->
    positive tb b -> positive td d ->
    prints_manual "qtrlwe2" ([("--ap", Some ta); ("--out-freq", Some tk); ("--queue-size", Some tq); ("--bootstrapping-freq", Some tb);
        ("--spec", Some s); ("--in", Some i); ("--max-second-lut-depth", Some td)]%string ++ flagged "--sanitize-result" san)
      (do_qtrlwe2_t T Y clock f s i k d q b a san (header now))
| pm_bbs s i ta a tk k tq q san : readable f s -> readable f i -> positive ta a -> positive tk k -> positive tq q ->
    prints_manual "bbs" ([("--ap", Some ta); ("--out-freq", Some tk); ("--queue-size", Some tq); ("--spec", Some s); ("--in", Some i)]%string
        ++ flagged "--sanitize-result" san)
      (do_bbs_t T Y clock times f s i k q a san (header now)).

Ltac reads := repeat match goal with
  | H : positive ?t ?n |- _ => apply positive_read in H as (? & H & <-)
  | H : readable _ _ |- _ => unfold readable in H
  end.
Ltac known := repeat match goal with
  | H : read_num ?t = _ |- context [read_num ?t] => rewrite H
  | H : f ?p <> None |- context [f ?p] => let E := fresh "E" in destruct (f p) eqn:E; [|congruence]
  | H : f ?p = _ |- context [f ?p] => rewrite H
  end.
Ltac known_cbn := cbn -[N.to_nat do_plain_t do_offline_t do_reversed_t do_qtrlwe2_t do_bbs_t show_nat current_time_str];
  repeat (progress known; cbn -[N.to_nat do_plain_t do_offline_t do_reversed_t do_qtrlwe2_t do_bbs_t show_nat current_time_str]).
Ltac nodup := cbn; repeat constructor; cbn; intuition discriminate.
Ltac fore s := match goal with C : bench_line _ _ ?o |- _ =>
  rewrite (b_command_parse f _ _ _ s C); [| reflexivity | apply entry_okb_ok; reflexivity | nodup] end.
Ltac settle := reads; unfold parsed; known_cbn; unfold tbind, tres, say; known_cbn; unfold header, print; cbn [app];
  match goal with |- (let '(_, _) := ?x in _) = _ => destruct x as [? [?|?]] | _ => idtac end; reflexivity.
Lemma prints_manual_main argv c o r : bench_line argv c o -> prints_manual c o r ->
  bench_main_t T Y clock times f now argv = r.
Proof.
  intros C H. unfold bench_main_t. destruct H.
  - fore b_plain. settle.
  - destruct san; fore b_offline; settle.
  - destruct sr, san; fore b_reversed; settle.
  - destruct san; fore b_qtrlwe2; settle.
  - destruct san; fore b_bbs; settle.
Qed.
Lemma prints_cases argv :
  (exists c o r, bench_line argv c o /\ prints_manual c o r) \/
  bench_main_t T Y clock times f now argv = ([], Fail FExit) \/
  (bench_main_t T Y clock times f now argv = ([], Fail FUndefined) /\ bench_outside argv).
Proof.
  destruct (b_parse_from false f argv) as [A|e] eqn:P.
  - left. destruct (bench_parsed T Y clock times f now argv A P) as (c & o & r & L & M). exists c, o.
    destruct M; eexists; (split; [exact L|]); econstructor; eauto.
  - destruct (bench_cases T Y clock times f now argv) as [(c & o & r & L & M)|[H|[H Q]]].
    + left. exists c, o. destruct M; eexists; (split; [exact L|]); econstructor; eauto.
    + right. left. unfold bench_main in H. rewrite P in H. injection H as ->.
      unfold bench_main_t, tbind, tres. rewrite P. reflexivity.
    + right. right. split; [|exact Q]. unfold bench_main in H. rewrite P in H. injection H as ->.
      unfold bench_main_t, tbind, tres. rewrite P. reflexivity.
Qed.
End M.
