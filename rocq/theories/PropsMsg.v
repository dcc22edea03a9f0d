(** C78: what is said about a specification that is read or rejected. *)
From Coq Require Import String.
From Coq Require Import List Arith Bool NArith Lia Ascii.
Import ListNotations.
From Verif Require Import PropsLtl PropsRunner PropsCmd PropsMain MainSpec LtlModel TorusModel StreamModel.
From Verif Require Import Base GraphModel Spec TextModel TextSpec TextFacts AttFacts DotModel CmdModel MainModel MsgModel MsgSpec MsgFacts PropsText TextClaims.
Local Open Scope list_scope.

(** The readers with their messages compute what the readers of TextModel and CmdModel compute. *)
Theorem C78_same trace t f p :
  snd (from_istream_said trace t) = from_istream t /\
  snd (from_file_said trace f p) = from_file f p /\
  snd (from_att_istream_said trace t) = from_att_istream t /\
  (p <> lit "-" -> snd (from_att_file_said trace f p) = do s <- source FExit f t (Some p); from_att_istream s).
Proof.
  split; [apply from_istream_same|]. split.
  { unfold from_file_said, from_file, open_file. destruct (f p); [apply from_istream_same|reflexivity]. }
  split; [apply from_att_istream_same|]. intros N. unfold from_att_file_said, source.
  assert (E : is_name p "-" = false).
  { unfold is_name, path_eqb. destruct (list_eq_dec ascii_dec p (lit "-")); [contradiction|reflexivity]. }
  rewrite E. destruct (f p); [apply from_att_istream_same|reflexivity].
Qed.
Print Assumptions C78_same.

(** A specification: either every row is in order, and then each other line is reported and nothing else is said; or there is a first
    row that is not, and then the lines before it are reported, the complaint about this row follows, and that is the end.
    One of the two is the case. *)
Theorem C78_spec trace t ls : lines_of t ls ->
  (forall rows ns, rows_of 0 ls rows -> skips ls ns -> from_istream_said trace t = (ns, from_istream t)) /\
  (forall pre l post rows c ns, ls = pre ++ l :: post -> rows_of 0 pre rows -> skips pre ns -> bad_row (length rows) l c ->
     from_istream_said trace t = complains trace ns c) /\
  ((exists rows, rows_of 0 ls rows) \/
   (exists pre l post rows c, ls = pre ++ l :: post /\ rows_of 0 pre rows /\ bad_row (length rows) l c)) /\
  (forall l, exists ns, skips l ns).
Proof.
  intros HL. split; [|split; [|split]].
  - intros rows ns HR HS. eapply file_good; eauto.
  - intros pre l post rows c ns -> HR HS B. eapply file_bad; eauto.
  - apply (lines_cases ls 0).
  - apply skips_ex.
Qed.
Print Assumptions C78_spec.

(** The tool exits because of a specification exactly if an error is logged; with --quiet this error is all that is seen, without a
    rejection nothing is seen.  In particular there is no silent exit, and no error before a specification that is accepted. *)
Theorem C78_exit trace t :
  (from_istream t = Fail FExit <-> exists m, In (LError, m) (fst (from_istream_said trace t))) /\
  (from_istream t = Fail FExit -> exists m, shown true (fst (from_istream_said trace t)) = die_notes trace m) /\
  (from_istream t <> Fail FExit -> shown true (fst (from_istream_said trace t)) = []).
Proof.
  pose proof (lines_of_getlines t) as HL. remember (getlines c_nl [] t) as ls eqn:Els. clear Els.
  assert (Q : forall l ns, skips l ns -> shown true ns = [] /\ forall m, ~ In (LError, m) ns).
  { induction 1 as [|l ls' ns R H [IH1 IH2]|l ls' ns R H [IH1 IH2]]; auto. split; auto.
    intros m [G|G]; [discriminate|eapply IH2; eauto]. }
  destruct (lines_cases ls 0) as [(rows & HR)|(pre & l & post & rows & c & -> & HR & B)].
  - destruct (skips_ex ls) as (ns & HS). rewrite (file_good trace t ls rows ns HL HR HS). cbn [fst].
    destruct (Q _ _ HS) as [Q1 Q2].
    assert (NE : from_istream t <> Fail FExit).
    { rewrite (from_istream_fail t ls rows HL HR). intros E. apply (proj2 (build_ok_iff rows)) in E. discriminate. }
    split; [split; [contradiction|intros (m & G); exfalso; eapply Q2; eauto]|]. split; [contradiction|auto].
  - destruct (skips_ex pre) as (ns & HS). pose proof (file_bad trace t pre l post rows c ns HL HR HS B) as E.
    destruct (Q _ _ HS) as [Q1 Q2]. rewrite <- (from_istream_same trace t), E. destruct c as [m|]; cbn [complains fst snd].
    + split; [split; [intros _; exists m; apply in_or_app; cbn; auto|auto]|]. split; [|congruence].
      intros _. exists m. rewrite shown_app, Q1. reflexivity.
    + split; [split; [discriminate|intros (m & G); exfalso; eapply Q2; eauto]|]. split; [discriminate|auto].
Qed.
Print Assumptions C78_exit.

(** An AT&T file: either every line is in order, and then nothing is said; or there is a first line that is not, and then the
    message names this line, unless only a number in it is too large. *)
Theorem C78_att trace t ls : lines_of t ls ->
  (forall items, Forall2 att_denotes ls items -> from_att_istream_said trace t = ([], from_att_istream t)) /\
  (forall pre l post items, ls = pre ++ l :: post -> Forall2 att_denotes pre items -> (forall it, ~ att_denotes l it) ->
     (~ att_shaped l -> from_att_istream_said trace t = complains trace [] (Some (lit "Invalid line: " ++ l))) /\
     (att_shaped l -> from_att_istream_said trace t = complains trace [] None)) /\
  ((exists items, Forall2 att_denotes ls items) \/
   (exists pre l post items, ls = pre ++ l :: post /\ Forall2 att_denotes pre items /\ (forall it, ~ att_denotes l it) /\
      (att_shaped l \/ ~ att_shaped l))).
Proof.
  intros HL. split; [|split].
  - intros items H. eapply att_good; eauto.
  - intros pre l post items -> H ND. destruct (att_bad trace t pre l post items HL H) as [A B]. auto.
  - destruct (att_lines_cases ls) as [H|(pre & l & post & its & E & H & C)]; [auto|right].
    exists pre, l, post, its. split; auto. split; auto. destruct C as [C|[C ND]]; auto. split; auto.
    intros it G. apply C. eapply att_denotes_shaped; eauto.
Qed.
Print Assumptions C78_att.

(** A file that cannot be opened: att2spec names it; a specification ends in a failed assert without a message of the tool.
    A file that can be opened is read like the standard input. *)
Theorem C78_missing trace (f : fs) p :
  match f p with
  | None => from_att_file_said trace f p = complains trace [] (Some (lit "Invalid filename: " ++ p)) /\
            from_file_said trace f p = ([], Fail FAssert)
  | Some b => from_att_file_said trace f p = from_att_istream_said trace (map ascii_of_N b) /\
              from_file_said trace f p = from_istream_said trace (map ascii_of_N b)
  end.
Proof. unfold from_att_file_said, from_file_said. destruct (f p); auto. Qed.
Print Assumptions C78_missing.

(** A formula that Spot cannot parse: ltl2spec fails its assertion and prints no specification.  (Spot prints the errors.) *)
Theorem C78_formula T (Y : crypto T) (spot : spot_lib) f stdin coin argv fml t n :
  command_line argv ["ltl2spec"%string] [] [fml; t] -> MainSpec.number t n -> parses spot fml = false ->
  main T Y spot f stdin coin argv = Fail FAssert.
Proof.
  intros C HN HF. rewrite (C51_manual T Y spot f stdin coin argv _ _ _ _ C (man_ltl2spec T Y spot f stdin coin fml t n false HN)).
  rewrite HF. reflexivity.
Qed.
Print Assumptions C78_formula.

(** ** The hypotheses are met *)
Local Notation "a +++ b" := (app a b) (at level 60, right associativity).
Definition nl1 : list ascii := ["010"%char].
Example C78_nonvacuous trace :
  let t := lit "hello" +++ nl1 +++ lit ">0 1 0" +++ nl1 +++ lit "5* 0 1" +++ nl1 +++ lit "world" in
  from_istream_said trace t =
    ([(LInfo, lit "Skip line ""hello"""); (LError, lit "Invalid state number: 5 != 1");
      (LError, lit "Preparing backtrace..."); (LError, trace)], Fail FExit) /\
  exists pre l post rows c, lines_of t (pre ++ l :: post) /\ rows_of 0 pre rows /\ bad_row (length rows) l c /\ length rows = 1.
Proof.
  split; [reflexivity|].
  exists [lit "hello"; lit ">0 1 0"], (lit "5* 0 1"), [lit "world"], [(true, false, [1], [0])].
  eexists. split; [exact (lines_of_getlines (lit "hello" +++ nl1 +++ lit ">0 1 0" +++ nl1 +++ lit "5* 0 1" +++ nl1 +++ lit "world"))|].
  split; [apply rows_of_skip; [reflexivity|]; eapply (rows_of_step 0 _ _ _ (mkRow true (lit "0") false (lit "1") (lit "0"))); try reflexivity; constructor|].
  split; [|reflexivity].
  assert (R : row_format (lit "5* 0 1") false (lit "5") true (lit "0") (lit "1")) by (apply match_row_iff; reflexivity).
  pose proof R as (? & ? & _ & _ & D & _ & _ & _ & _ & F0 & F1).
  eapply (bad_number 1 _ false (lit "5") true (lit "0") (lit "1") [0] [1] 5); auto.
  - apply load_states_ok; auto.
  - apply load_states_ok; auto.
  - apply load_item_ok; auto.
Qed.
(** An empty entry; an empty entry after one that is too large; a number that is wrong and a list that is. *)
Example C78_lists trace :
  from_istream_said trace (lit "0 1,,2 0") =
    (die_notes trace (lit "Expected number as comma separted state, but got  (stoi)"), Fail FExit) /\
  from_istream_said trace (lit "0 1,2147483648,,2 0") = ([], Fail FOutOfRange) /\
  from_istream_said trace (lit "7 1 ,") =
    (die_notes trace (lit "Expected number as comma separted state, but got  (stoi)"), Fail FExit) /\
  fst (from_istream_said trace (lit ">0* 0 0,")) = [].
Proof. repeat split; reflexivity. Qed.
Example C78_att_nonvacuous trace :
  let tab := ["009"%char] in
  from_att_istream_said trace (lit "0" +++ tab +++ lit "0" +++ tab +++ lit "1" +++ nl1 +++ lit "0 0 0" +++ nl1) =
    (die_notes trace (lit "Invalid line: 0 0 0"), Fail FExit) /\
  from_att_istream_said trace (lit "2147483648" +++ nl1 +++ lit "x") = ([], Fail FOutOfRange) /\
  fst (from_att_istream_said trace (lit "0" +++ tab +++ lit "0" +++ tab +++ lit "1" +++ nl1 +++ lit "0")) = [].
Proof. repeat split; reflexivity. Qed.
(** The same from the command line: with a file that is not there. *)
Example C78_main T Y spot coin t :
  let gone : fs := fun _ => None in
  main T Y spot gone t coin [lit "att2spec"; lit "x.att"] = Fail FExit /\
  main T Y spot gone t coin [lit "spec2att"; lit "x.spec"] = Fail FAssert /\
  main T Y spot gone t coin [lit "spec2dot"; lit "x.spec"] = Fail FAssert /\
  main T Y spot gone t coin [lit "spec2spec"; lit "--minimized"; lit "x.spec"] = Fail FAssert.
Proof. repeat split; reflexivity. Qed.
(** A formula without its closing parenthesis. *)
Definition balanced (t : text) : bool := count_occ ascii_dec t "("%char =? count_occ ascii_dec t ")"%char.
Example C78_formula_nonvacuous : let S := mkSpot (fun _ _ => ex_monitor) balanced in
  let argv := map lit ["ltl2spec"; "G(p0 -> X p1"; "2"]%string in
  command_line argv ["ltl2spec"%string] [] [lit "G(p0 -> X p1"; lit "2"] /\ MainSpec.number (lit "2") 2 /\
  parses S (lit "G(p0 -> X p1") = false /\ main ex_T ex_Y S ex_f [] 0 argv = Fail FAssert.
Proof.
  split; [|split; [split; [reflexivity|lia]|split; reflexivity]].
  exists [], [Pos (lit "G(p0 -> X p1"); Pos (lit "2")]. split; [split; constructor|]. split; [reflexivity|]. split; [constructor|]. split; [reflexivity|].
  apply Forall_cons; [|apply Forall_cons; [|apply Forall_nil]];
    (split; [right; discriminate|]; intros c H; cbn in H; repeat (destruct H as [<-|H]; [discriminate|]); destruct H).
Qed.
