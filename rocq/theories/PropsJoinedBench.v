(** C86 for the benchmark program: options written with their value in one word.  The spellings are in JoinedSpec.v and
    JoinedBenchSpec.v, the manual in BenchManual.v. *)
From Coq Require Import String.
From Coq Require Import List Arith Bool NArith ZArith Ascii Permutation Lia.
Import ListNotations.
From Verif Require Import Base BaseFacts GraphModel TextModel CliModel DotModel TorusModel PropsRunner CmdModel CmdSpec CmdFacts PropsCmd
  LtlModel MainModel MainSpec MainFacts MainClaims BenchModel BenchSpec BenchManual BenchCli PropsBench PropsBench2
  JoinedModel JoinedSpec JoinedFacts JoinedBenchModel JoinedBenchSpec.
Local Open Scope list_scope.

Lemma b_lookup_long c s : b_lookup c = Some s -> long bench_flags (s_opts s) = true.
Proof. intros H. apply b_lookup_cases in H. each_sub H. all: reflexivity. Qed.
Lemma b_parse_joined_lookup f (v : bool) c s rest : b_lookup c = Some s ->
  b_parse_joined_from false f ((if v then [lit "--verbose"] else []) ++ lit c :: rest) = parse_sub_joined f s rest.
Proof.
  intros L. assert (E : forall seen, b_parse_joined_from seen f (lit c :: rest) = parse_sub_joined f s rest).
  { intros seen. cbn [b_parse_joined_from]. unfold is_name at 1. fold (is_name (lit c) "--verbose"). rewrite is_name_lit, find_sub_lit.
    unfold b_lookup in L. rewrite L. apply b_lookup_cases in L. each_sub L; reflexivity. }
  destruct v; [|apply E]. cbn [app b_parse_joined_from]. change (is_name (lit "--verbose") "--verbose") with true. cbv iota. apply (E true).
Qed.
Lemma b_no_command_fault a : b_no_command a = FExit \/ (b_no_command a = FUndefined /\ strange a /\ ~ name_value bench_flags a).
Proof.
  unfold b_no_command. destruct (dashed a && odd_word a) eqn:Q; auto. apply andb_true_iff in Q as [D Od].
  pose proof (odd_word_strange a D Od) as ST. destruct (joined a) as [[n v]|] eqn:J.
  - destruct (is_name n "--verbose") eqn:V; auto. right. split; auto. split; auto.
    intros NV. apply name_value_joined in NV as (n' & v' & J' & NF). rewrite J in J'. injection J' as <- <-.
    apply is_name_iff in V. eapply NF; eauto; cbn; auto.
  - right. split; auto. split; auto. intros NV. apply name_value_joined in NV as (n' & v' & J' & _). congruence.
Qed.

Section M.
Context (T : tfhe) (Y : crypto T) (clock : nat -> text) (times : nat -> Z) (f : fs) (now : tm).
Notation bench := (bench_main_joined T Y clock times f now).
Notation manual := (bench_manual T Y clock times f now).

Lemma bench_entries c o r : manual c o r -> exists s, b_lookup c = Some s /\ Forall (entry_ok (s_opts s)) o.
Proof.
  intros H. destruct H.
  - exists b_plain. split; [reflexivity|]. apply entry_okb_ok. reflexivity.
  - exists b_offline. split; [reflexivity|]. apply entry_okb_ok. destruct san; reflexivity.
  - exists b_reversed. split; [reflexivity|]. apply entry_okb_ok. destruct sr, san; reflexivity.
  - exists b_qtrlwe2. split; [reflexivity|]. apply entry_okb_ok. destruct san; reflexivity.
  - exists b_bbs. split; [reflexivity|]. apply entry_okb_ok. destruct san; reflexivity.
Qed.

(** ** C86: the benchmark does what its manual says, however each option is spelled. *)
Theorem C86_bench_manual argv c o r : bench_joined_line argv c o -> manual c o r -> bench argv = r.
Proof.
  intros (v & items & w & W & -> & HP & EP) M.
  assert (C : bench_line ((if v then [lit "--verbose"] else []) ++ lit c :: words items) c o) by (exists v, items; auto).
  rewrite <- (bench_manual_main T Y clock times f now _ c o r C M). unfold bench_main_joined, bench_main. f_equal.
  destruct (bench_entries c o r M) as (s & L & F). destruct (b_lookup_sane c s L) as [ND SN].
  rewrite (b_parse_joined_lookup f v c s), (b_parse_lookup f v c s) by auto.
  assert (F' : Forall (entry_ok (s_opts s)) (options items)) by (eapply Permutation_Forall; [apply Permutation_sym; exact HP|exact F]).
  assert (FP : Forall plain_word (positionals items)) by (rewrite EP; constructor).
  rewrite (parse_sub_joined_items f bench_flags s items w) by eauto using b_lookup_long. rewrite (parse_sub_items f s items) by auto. reflexivity.
Qed.
(** Every other command line is rejected, apart from the spellings that are still left open. *)
Theorem C86_bench_total argv :
  (exists c o r, bench_joined_line argv c o /\ manual c o r /\ bench argv = r) \/
  bench argv = Fail FExit \/
  (bench argv = Fail FUndefined /\ bench_still_outside argv).
Proof.
  assert (K : forall v a rest, is_name a "--verbose" = false -> argv = (if v : bool then [lit "--verbose"] else []) ++ a :: rest ->
    bench argv = (do A <- match find_sub b_subs a with Some s => parse_sub_joined f s rest | None => Fail (b_no_command a) end;
       b_dispatch T Y clock times f A (print "time" (current_time_str now) []))).
  { intros v a rest N ->. unfold bench_main_joined. destruct v; cbn [app b_parse_joined_from]; [|rewrite N; reflexivity].
    change (is_name (lit "--verbose") "--verbose") with true. cbv iota. rewrite N. reflexivity. }
  assert (K2 : forall v a rest, is_name a "--verbose" = false -> argv = (if v : bool then [lit "--verbose"] else []) ++ a :: rest ->
    (exists c o r, bench_joined_line argv c o /\ manual c o r /\ bench argv = r) \/
    bench argv = Fail FExit \/ (bench argv = Fail FUndefined /\ bench_still_outside argv)).
  { intros v a rest N EA. pose proof (K v a rest N EA) as EM.
    destruct (find_sub b_subs a) as [s|] eqn:FS.
    2:{ cbn [bind] in EM. destruct (b_no_command_fault a) as [E|(E & ST)]; rewrite E in EM; [right; left; exact EM|]. right. right. split; [exact EM|].
        left. exists a. split; [rewrite EA, in_app_iff; cbn; auto|exact ST]. }
    destruct (find_sub_some _ _ _ FS) as (c & -> & HI & HN).
    assert (L : b_lookup c = Some s) by (rewrite find_sub_lit in FS; exact FS).
    destruct (b_lookup_sane c s L) as [ND SN]. pose proof (b_lookup_long c s L) as LG.
    destruct (parse_sub_joined f s rest) as [A|e] eqn:P.
    - left. pose proof P as P0. unfold parse_sub_joined in P0. apply bind_ok in P0 as ([given pos] & C & _).
      apply (collect_joined_inv bench_flags) in C as (items & W & -> & -> & F & FP); auto.
      assert (P' : parsed f s (options items) (positionals items) = Ok A).
      { rewrite <- (parse_sub_joined_items f bench_flags s items rest ND SN LG W F FP). exact P. }
      destruct (bench_accepted T Y clock times f now c s items A L F P') as (PN & o & r & CP & M).
      assert (B : bench_joined_line argv c o) by (exists v, items, rest; auto).
      exists c, o, r. split; auto. split; auto. eapply C86_bench_manual; eauto.
    - right. apply (parse_sub_joined_fail f bench_flags) in P as [->|(-> & Q)]; auto. right. split; [exact EM|]. unfold bench_still_outside. rewrite EA.
      destruct Q as [(pre & w & post & -> & [Q|(k & Hk & ->)])|[(w & HW & Q)|(a & b & d & n & -> & Hn)]].
      + left. exists w. split; auto. rewrite in_app_iff. cbn. rewrite in_app_iff. cbn. auto.
      + right. right. right. exists ((if v then [lit "--verbose"] else []) ++ lit c :: pre), k, post.
        split; [rewrite <- app_assoc; reflexivity|]. split; [auto|].
        split; destruct v; cbn [app]; try discriminate. intros [= E1 E2].
        assert (X : is_name (lit c) "--verbose" = true) by (apply is_name_iff; exact E1). congruence.
      + right. left. exists w. split; auto. rewrite in_app_iff. cbn. auto.
      + right. right. left. exists ((if v then [lit "--verbose"] else []) ++ lit c :: a), b, d, n.
        split; [rewrite <- app_assoc; reflexivity|auto]. }
  destruct argv as [|a rest]; [right; left; reflexivity|].
  destruct (is_name a "--verbose") eqn:N; [|apply (K2 false a rest N eq_refl)].
  apply is_name_iff in N. subst a.
  destruct rest as [|a rest]; [right; left; reflexivity|].
  destruct (is_name a "--verbose") eqn:N; [|apply (K2 true a rest N eq_refl)].
  right. right. split.
  - unfold bench_main_joined. cbn [b_parse_joined_from]. change (is_name (lit "--verbose") "--verbose") with true. cbv iota. rewrite N. reflexivity.
  - apply is_name_iff in N. subst a. right. right. left. exists [], [], rest, "--verbose"%string. split; [reflexivity|cbn; auto].
Qed.
(** A command line that C57 does not leave open does the same as there. *)
Theorem C86_bench_same argv : bench_main T Y clock times f now argv <> Fail FUndefined ->
  bench argv = bench_main T Y clock times f now argv.
Proof.
  assert (S : forall s rest, parse_sub f s rest <> Fail FUndefined -> parse_sub_joined f s rest = parse_sub f s rest).
  { intros s rest H. unfold parse_sub_joined, parse_sub in *. rewrite collect_joined_same; auto.
    intros E. rewrite E in H. apply H. reflexivity. }
  assert (P : forall seen, b_parse_from seen f argv <> Fail FUndefined -> b_parse_joined_from seen f argv = b_parse_from seen f argv).
  { induction argv as [|a rest IH]; intros seen; cbn [b_parse_from b_parse_joined_from]; auto.
    destruct (is_name a "--verbose"); [destruct seen; auto; congruence|].
    destruct (find_sub b_subs a) as [s|]; auto. unfold b_no_command. destruct (dashed a && odd_word a); congruence. }
  intros H. unfold bench_main_joined, bench_main in *. rewrite P; auto. intros E. rewrite E in H. apply H. reflexivity.
Qed.
End M.

Example C86_bench_nonvacuous :
  let a := map lit ["--verbose"; "plain"; "--ap=2"; "--spec"; "s"; "--in=i"; "--out-freq=2"]%string in
  let o := [("--ap", Some (lit "2")); ("--spec", Some (lit "s")); ("--in", Some (lit "i")); ("--out-freq", Some (lit "2"))]%string in
  let run := bench_main_joined ex_T ex_Y ex_clock (fun _ => 0%Z) ex_f ex_now in
  bench_joined_line a "plain" o /\
  (exists r, bench_manual ex_T ex_Y ex_clock (fun _ => 0%Z) ex_f ex_now "plain" o r) /\
  (exists out table, run a = Ok (out, table) /\ values "result" out = map lit ["1"; "1"; "1"]%string) /\
  run (map lit ["plain"; "--ap=0"; "--spec"; "s"; "--in=i"; "--out-freq=2"]%string) = Fail FExit /\
  run (map lit ["plain"; "--ap=2"; "--spec"; "s"; "--in=i"; "--out-freq=2"; "--queue-size=2"]%string) = Fail FExit /\
  run (map lit ["bbs"; "--ap=2"; "--spec"; "s"; "--in=i"; "--out-freq=2"; "--queue-size=2"; "--sanitize-result=1"]%string) = Fail FUndefined.
Proof.
  cbv zeta. assert (N2 : positive (lit "2") 2) by (split; [split; [reflexivity|lia]|lia]).
  assert (B : bench_joined_line (map lit ["--verbose"; "plain"; "--ap=2"; "--spec"; "s"; "--in=i"; "--out-freq=2"]%string) "plain"
    [("--ap", Some (lit "2")); ("--spec", Some (lit "s")); ("--in", Some (lit "i")); ("--out-freq", Some (lit "2"))]%string).
  { exists true, [Opt "--ap" (lit "2"); Opt "--spec" (lit "s"); Opt "--in" (lit "i"); Opt "--out-freq" (lit "2")],
      (map lit ["--ap=2"; "--spec"; "s"; "--in=i"; "--out-freq=2"]%string).
    split; [|split; [reflexivity|split; [apply Permutation_refl|reflexivity]]].
    apply (wa_one "--ap" (lit "2")); [discriminate|]. apply (wa_two "--spec" (lit "s")). apply (wa_one "--in" (lit "i")); [discriminate|].
    apply (wa_one "--out-freq" (lit "2")); [discriminate|constructor]. }
  split; [exact B|]. split; [eexists; apply bm_plain with (a := 2) (k := 2); auto; discriminate|].
  split; [eexists; eexists; split; vm_compute; reflexivity|].
  repeat split; vm_compute; reflexivity.
Qed.

Print Assumptions C86_bench_manual.
Print Assumptions C86_bench_total.
Print Assumptions C86_bench_same.
