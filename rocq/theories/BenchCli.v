(** The manual describes the command line of the benchmark program (BenchManual.v): proofs. *)
From Coq Require Import String.
From Coq Require Import List Arith Bool NArith ZArith Ascii Permutation Lia.
Import ListNotations.
From Verif Require Import Base BaseFacts GraphModel TextModel CliModel DotModel TorusModel CmdModel CmdFacts
  LtlModel MainModel MainSpec MainFacts MainClaims BenchModel BenchManual.
Local Open Scope list_scope.

Definition b_lookup (c : string) : option sub := find (fun s => existsb (String.eqb c) (s_names s)) b_subs.
Lemma b_lookup_cases c s : b_lookup c = Some s ->
  In (c, s) [("plain", b_plain); ("offline", b_offline); ("reversed", b_reversed); ("qtrlwe2", b_qtrlwe2); ("bbs", b_bbs)]%string.
Proof.
  unfold b_lookup, b_subs. cbn [find s_names existsb b_plain b_offline b_reversed b_qtrlwe2 b_bbs].
  repeat match goal with |- context [String.eqb c ?n] => destruct (String.eqb_spec c n) as [->|];
    [cbn [orb]; intros H; injection H as <-; cbn; tauto|]; cbn [orb] end. discriminate.
Qed.
Lemma b_lookup_sane c s : b_lookup c = Some s -> NoDup (map o_name (s_opts s)) /\ sane (s_opts s) = true.
Proof.
  intros H. apply b_lookup_cases in H. each_sub H.
  all: split; [cbn; repeat constructor; cbn; intuition discriminate|reflexivity].
Qed.
Lemma b_parse_lookup f (v : bool) c s rest : b_lookup c = Some s ->
  b_parse_from false f ((if v then [lit "--verbose"] else []) ++ lit c :: rest) = parse_sub f s rest.
Proof.
  intros L. assert (E : forall seen, b_parse_from seen f (lit c :: rest) = parse_sub f s rest).
  { intros seen. cbn [b_parse_from]. unfold is_name at 1. fold (is_name (lit c) "--verbose"). rewrite is_name_lit, find_sub_lit.
    unfold b_lookup in L. rewrite L. apply b_lookup_cases in L. each_sub L; reflexivity. }
  destruct v; [|apply E]. cbn [app b_parse_from]. change (is_name (lit "--verbose") "--verbose") with true. cbv iota. apply (E true).
Qed.
Lemma b_command_parse f argv c o s : bench_line argv c o -> b_lookup c = Some s ->
  Forall (entry_ok (s_opts s)) o -> NoDup (map fst o) ->
  b_parse_from false f argv = parsed f s o [].
Proof.
  intros (v & items & -> & HP & EP) L F ND. rewrite (b_parse_lookup f v c s) by auto.
  destruct (b_lookup_sane c s L) as [N S]. rewrite parse_sub_items; auto.
  - rewrite EP. apply parsed_perm; auto. intros n more E. apply vals_nodup.
    assert (more = []) as ->; [|rewrite app_nil_r; auto]. apply b_lookup_cases in L. each_sub L; cbn in E; congruence.
  - eapply Permutation_Forall; [apply Permutation_sym; exact HP|exact F].
  - rewrite EP. constructor.
Qed.

Section M.
Context (T : tfhe) (Y : crypto T) (clock : nat -> text) (times : nat -> Z) (f : fs) (now : tm).
Ltac reads := repeat match goal with
  | H : positive ?t ?n |- _ => apply positive_read in H as (? & H & <-)
  | H : readable _ _ |- _ => unfold readable in H
  end.
Ltac known := repeat match goal with
  | H : read_num ?t = _ |- context [read_num ?t] => rewrite H
  | H : f ?p <> None |- context [f ?p] => let E := fresh "E" in destruct (f p) eqn:E; [|congruence]
  | H : f ?p = _ |- context [f ?p] => rewrite H
  end.
Ltac known_cbn := cbn -[N.to_nat do_plain do_offline do_reversed do_qtrlwe2 do_bbs show_nat];
  repeat (progress known; cbn -[N.to_nat do_plain do_offline do_reversed do_qtrlwe2 do_bbs show_nat]).
Ltac nodup := cbn; repeat constructor; cbn; intuition discriminate.
Ltac fore s := match goal with C : bench_line _ _ ?o |- _ =>
  rewrite (b_command_parse f _ _ _ s C); [| reflexivity | apply entry_okb_ok; reflexivity | nodup] end.
Lemma bench_manual_main argv c o r : bench_line argv c o -> bench_manual T Y clock times f now c o r ->
  bench_main T Y clock times f now argv = r.
Proof.
  intros C H. unfold bench_main. destruct H.
  - fore b_plain. reads. unfold parsed. known_cbn. reflexivity.
  - destruct san; fore b_offline; reads; unfold parsed; known_cbn; reflexivity.
  - destruct sr, san; fore b_reversed; reads; unfold parsed; known_cbn; reflexivity.
  - destruct san; fore b_qtrlwe2; reads; unfold parsed; known_cbn; reflexivity.
  - destruct san; fore b_bbs; reads; unfold parsed; known_cbn; reflexivity.
Qed.

Ltac stored1 S := cbv beta in S; lazymatch type of S with
  | stored_ok _ {| o_name := _; o_target := ToText _; o_required := true; o_check := ExistingFile |} _ => apply st_file in S as (? & ? & ?)
  | stored_ok _ {| o_name := _; o_target := ToNum _; o_required := true; o_check := PositiveNumber |} _ => apply st_pos in S as (? & ? & ? & ?)
  | stored_ok _ {| o_name := _; o_target := ToFlag _; o_required := false; o_check := NoCheck |} _ => apply st_flag in S as (? & ? & ?)
  end.
Ltac stored H := repeat (let S := fresh "S" in apply Forall_cons_iff in H as [S H]; stored1 S); clear H.
Ltac seen := repeat match goal with
  | V : vals ?o ?n = _, C : context [vals ?o ?n] |- _ => rewrite V in C; clear V
  end.
Lemma bench_accepted c s items A : b_lookup c = Some s -> Forall (entry_ok (s_opts s)) (options items) ->
  parsed f s (options items) (positionals items) = Ok A ->
  positionals items = [] /\ exists o r, Permutation (options items) o /\ bench_manual T Y clock times f now c o r.
Proof.
  intros L F H. destruct (b_lookup_sane c s L) as [ND SN].
  pose proof (canon_perm _ _ ND F) as CP.
  apply parsed_stored in H as (more & E & H); auto. clear ND SN F.
  set (o := options items) in *. set (p := positionals items) in *. clearbody o p.
  apply b_lookup_cases in L. each_sub L.
  all: match type of H with Forall _ ?l => let l' := eval cbv in l in change l with l' in H, CP, E end.
  all: stored H; cbn [o_name] in *; cbv [canon flat_map] in CP;
    repeat match type of CP with context [positional ?x] => let b := eval cbv in (positional x) in change (positional x) with b in CP end;
    repeat match goal with V : context [positional ?x] |- _ => let b := eval cbv in (positional x) in change (positional x) with b in V end;
    cbv iota in *; cbn [o_name o_target map app] in CP.
  all: seen; rewrite ?flagged_map, ?app_nil_r in CP; cbn [map app] in CP.
  all: cbn in E.
  all: destruct p as [|v1 p]; [injection E as <-|discriminate E].
  all: split; [reflexivity|]; eexists; eexists; (split; [exact CP|]); econstructor; eauto.
Qed.

(** A command line that is read is in the manual. *)
Lemma bench_parsed argv A : b_parse_from false f argv = Ok A ->
  exists c o r, bench_line argv c o /\ bench_manual T Y clock times f now c o r.
Proof.
  assert (K2 : forall v a rest, argv = (if v : bool then [lit "--verbose"] else []) ++ a :: rest ->
    match find_sub b_subs a with Some s => parse_sub f s rest | None => if dashed a && odd_word a then Fail FUndefined else Fail FExit end = Ok A ->
    exists c o r, bench_line argv c o /\ bench_manual T Y clock times f now c o r).
  { intros v a rest EA P. destruct (find_sub b_subs a) as [s|] eqn:FS; [|destruct (dashed a && odd_word a); discriminate].
    destruct (find_sub_some _ _ _ FS) as (c & -> & HI & HN).
    assert (L : b_lookup c = Some s) by (rewrite find_sub_lit in FS; exact FS).
    destruct (b_lookup_sane c s L) as [ND SN].
    pose proof P as P0. unfold parse_sub in P0. apply bind_ok in P0 as ([given pos] & C & _).
    apply collect_inv in C as (items & -> & -> & -> & F & FP); auto.
    assert (P' : parsed f s (options items) (positionals items) = Ok A).
    { rewrite <- (parse_sub_items f s items ND SN F FP). exact P. }
    destruct (bench_accepted c s items A L F P') as (PN & o & r & CP & M).
    exists c, o, r. split; auto. exists v, items. auto. }
  destruct argv as [|a rest]; [discriminate|]. cbn [b_parse_from].
  destruct (is_name a "--verbose") eqn:N; [|apply (K2 false a rest eq_refl)].
  apply is_name_iff in N. subst a.
  destruct rest as [|a rest]; [discriminate|]. cbn [b_parse_from].
  destruct (is_name a "--verbose") eqn:N; [discriminate|]. apply (K2 true a rest eq_refl).
Qed.

Lemma bench_cases argv :
  (exists c o r, bench_line argv c o /\ bench_manual T Y clock times f now c o r) \/
  bench_main T Y clock times f now argv = Fail FExit \/
  (bench_main T Y clock times f now argv = Fail FUndefined /\ bench_outside argv).
Proof.
  assert (K : forall v a rest, is_name a "--verbose" = false -> argv = (if v : bool then [lit "--verbose"] else []) ++ a :: rest ->
    bench_main T Y clock times f now argv =
      (do A <- match find_sub b_subs a with Some s => parse_sub f s rest | None => if dashed a && odd_word a then Fail FUndefined else Fail FExit end;
       b_dispatch T Y clock times f A (print "time" (current_time_str now) []))).
  { intros v a rest N ->. unfold bench_main. destruct v; cbn [app b_parse_from]; [|rewrite N; reflexivity].
    change (is_name (lit "--verbose") "--verbose") with true. cbv iota. rewrite N. reflexivity. }
  assert (K2 : forall v a rest, is_name a "--verbose" = false -> argv = (if v : bool then [lit "--verbose"] else []) ++ a :: rest ->
    (exists c o r, bench_line argv c o /\ bench_manual T Y clock times f now c o r) \/
    bench_main T Y clock times f now argv = Fail FExit \/
    (bench_main T Y clock times f now argv = Fail FUndefined /\ bench_outside argv)).
  { intros v a rest N EA. pose proof (K v a rest N EA) as EM.
    destruct (find_sub b_subs a) as [s|] eqn:FS.
    2:{ destruct (dashed a && odd_word a) eqn:Q; [|right; left; exact EM]. right. right. split; [exact EM|].
        apply andb_true_iff in Q as [D Od]. left. exists a. split; [rewrite EA, in_app_iff; cbn; auto|]. left. apply odd_word_strange; auto. }
    destruct (find_sub_some _ _ _ FS) as (c & -> & HI & HN).
    assert (L : b_lookup c = Some s) by (rewrite find_sub_lit in FS; exact FS).
    destruct (b_lookup_sane c s L) as [ND SN].
    destruct (parse_sub f s rest) as [A|e] eqn:P.
    - left. pose proof P as P0. unfold parse_sub in P0. apply bind_ok in P0 as ([given pos] & C & _).
      apply collect_inv in C as (items & -> & -> & -> & F & FP); auto.
      assert (P' : parsed f s (options items) (positionals items) = Ok A).
      { rewrite <- (parse_sub_items f s items ND SN F FP). exact P. }
      destruct (bench_accepted c s items A L F P') as (PN & o & r & CP & M).
      exists c, o, r. split; auto. exists v, items. auto.
    - right. apply parse_sub_fail in P as [->|(-> & Q)]; auto. right. split; [exact EM|]. unfold bench_outside. rewrite EA.
      destruct Q as [(pre & w & post & -> & [Q|(k & Hk & ->)])|[(w & HW & Q)|(a & b & d & x & y & -> & HI' & T')]].
      + left. exists w. split; auto. rewrite in_app_iff. cbn. rewrite in_app_iff. cbn. auto.
      + right. right. exists ((if v then [lit "--verbose"] else []) ++ lit c :: pre), k, post.
        split; [rewrite <- app_assoc; reflexivity|]. split; [auto|].
        split; destruct v; cbn [app]; try discriminate. intros [= E1 E2].
        assert (X : is_name (lit c) "--verbose" = true) by (apply is_name_iff; exact E1). congruence.
      + left. exists w. split; auto. rewrite in_app_iff. cbn. auto.
      + right. left. exists ((if v then [lit "--verbose"] else []) ++ lit c :: a), b, d, (o_name x). split.
        { rewrite <- app_assoc. reflexivity. }
        apply b_lookup_cases in L. each_sub L.
        all: cbn in HI'; repeat (destruct HI' as [<-|HI']); try destruct HI'; try discriminate T'; cbn; tauto. }
  destruct argv as [|a rest]; [right; left; reflexivity|].
  destruct (is_name a "--verbose") eqn:N; [|apply (K2 false a rest N eq_refl)].
  apply is_name_iff in N. subst a.
  destruct rest as [|a rest]; [right; left; reflexivity|].
  destruct (is_name a "--verbose") eqn:N; [|apply (K2 true a rest N eq_refl)].
  right. right. split.
  - unfold bench_main. cbn [b_parse_from]. change (is_name (lit "--verbose") "--verbose") with true. cbv iota. rewrite N. reflexivity.
  - apply is_name_iff in N. subst a. right. left. exists [], [], rest, "--verbose"%string. split; [reflexivity|cbn; auto].
Qed.
End M.
