(** C79: what homfa writes to the standard error.  The messages of each command are in SaySpec.v. *)
From Coq Require Import String.
From Coq Require Import List Arith Bool NArith ZArith Lia Ascii Permutation.
Import ListNotations.
From Verif Require Import Base BaseFacts GraphModel TextModel DotModel TorusModel StreamModel CmdModel LtlModel MainModel MainSpec MainFacts MainClaims
  MsgModel MsgFacts SayModel SaySpec SayFacts SayClaims PropsRunner PropsCmd PropsLtl PropsMain.
Local Open Scope list_scope.

Section Say.
Context (trace : text) (T : tfhe) (Y : crypto T) (spot : spot_lib) (E : setting).
Notation log f stdin coin argv := (fst (main_said trace T Y spot E f stdin coin argv)).

(** What the program does is what main of MainModel does. *)
Theorem C79_same f stdin coin argv : snd (main_said trace T Y spot E f stdin coin argv) = main T Y spot f stdin coin argv.
Proof. apply main_same. Qed.

(** The header: on the screen it reads as in SaySpec.v, with the command line as it was given; it holds no error. *)
Theorem C79_header argv :
  screen (dump_basic_info E argv) =
    header_text (if e_debug E then lit "debug" else lit "release") (match e_revision E with Some r => r | None => lit "unknown" end)
      (if e_profile E then lit "enabled" else lit "disabled") (blanks (e_program E :: argv))
      (variable "CPUPROFILE" (e_cpuprofile E) ++ variable "HEAPPROFILE" (e_heapprofile E)) (show_nat (e_concurrency E)) /\
  calm (dump_basic_info E argv).
Proof.
  split; [|apply calm_header].
  assert (B : forall l, concat (map (fun a => a ++ lit " ") l) = blanks l).
  { induction l as [|w l IH]; cbn [map concat blanks]; auto. rewrite IH, <- app_assoc. reflexivity. }
  assert (V1 : forall v, match v with Some t => lit "CPUPROFILE=" ++ t ++ lit " " | None => [] end = variable "CPUPROFILE" v).
  { intros [t|]; reflexivity. }
  assert (V2 : forall v, match v with Some t => lit "HEAPPROFILE=" ++ t ++ lit " " | None => [] end = variable "HEAPPROFILE" v).
  { intros [t|]; reflexivity. }
  unfold dump_basic_info. rewrite B, V1, V2. generalize (blanks (e_program E :: argv)) as bs. intros bs.
  generalize (variable "CPUPROFILE" (e_cpuprofile E)) as v1. generalize (variable "HEAPPROFILE" (e_heapprofile E)) as v2.
  generalize (show_nat (e_concurrency E)) as n. generalize (match e_revision E with Some r => r | None => lit "unknown" end) as r. intros r n v2 v1.
  replace (lit (if e_debug E then "debug" else "release")) with (if e_debug E then lit "debug" else lit "release") by (destruct (e_debug E); reflexivity).
  replace (lit (if e_profile E then "enabled" else "disabled")) with (if e_profile E then lit "enabled" else lit "disabled")
    by (destruct (e_profile E); reflexivity).
  generalize (if e_debug E then lit "debug" else lit "release") as k. generalize (if e_profile E then lit "enabled" else lit "disabled") as pf. intros pf k.
  unfold screen, header_text, tab. cbn -[app]. rewrite !app_nil_r.
  repeat (rewrite <- !app_assoc; cbn [app]). reflexivity.
Qed.

(** A command from the manual: the header, and then what SaySpec.v says. *)
Theorem C79_notes f stdin coin argv c o p l : command_line argv c o p -> notes trace T Y f stdin c o p l ->
  log f stdin coin argv = dump_basic_info E argv ++ l.
Proof. apply notes_log. Qed.

(** Every command line: a command with its messages, no command at all, or it is refused by the parser and nothing is logged. *)
Theorem C79_total f stdin coin argv :
  (exists c o p r l, command_line argv c o p /\ manual T Y spot f stdin coin c o p r /\ notes trace T Y f stdin c o p l /\
     log f stdin coin argv = dump_basic_info E argv ++ l) \/
  (exists g, general g /\ (argv = g \/ argv = g ++ [lit "run"]) /\ main T Y spot f stdin coin argv = Fail FExit /\
     log f stdin coin argv = dump_basic_info E argv ++ died trace (lit "Please specify subcommand")) \/
  (log f stdin coin argv = [] /\
     (main T Y spot f stdin coin argv = Fail FExit \/ (main T Y spot f stdin coin argv = Fail FUndefined /\ outside argv))).
Proof.
  destruct (parse f argv) as [A|e] eqn:P.
  - destruct (accepted T Y spot f stdin coin argv A P) as (g & G & _ & [(c & o & p & r & C & M)|(-> & Q)]).
    + left. destruct (manual_notes trace T Y spot f stdin coin c o p r M) as (l & N). exists c, o, p, r, l.
      split; auto. split; auto. split; auto. eapply notes_log; eauto.
    + right. left. exists g. split; auto. split; auto. split; [unfold main; rewrite P; reflexivity|].
      rewrite (log_of trace T Y spot E f stdin coin argv _ P). reflexivity.
  - assert (L : log f stdin coin argv = []) by (unfold main_said; rewrite P; reflexivity).
    right. right. split; auto.
    destruct (C51_total T Y spot f stdin coin argv) as [(c & o & p & r & C & M & _)|H]; auto.
    destruct (manual_notes trace T Y spot f stdin coin c o p r M) as (l & N).
    rewrite (notes_log trace T Y spot E f stdin coin argv c o p l C N) in L. discriminate L.
Qed.

(** Unless the command line is refused: the program exits with an error if and only if it has logged one; it is then the last thing logged. *)
Theorem C79_exit f stdin coin argv : log f stdin coin argv <> [] ->
  (main T Y spot f stdin coin argv = Fail FExit <-> exists m, In (LError, m) (log f stdin coin argv)) /\
  (main T Y spot f stdin coin argv = Fail FExit -> exists l m, log f stdin coin argv = dump_basic_info E argv ++ l ++ died trace m /\ calm l).
Proof.
  unfold main_said at 1. destruct (parse f argv) as [A|e] eqn:P; [|intros []; reflexivity]. intros _.
  rewrite <- (main_same trace T Y spot E f stdin coin argv).
  pose proof (honest_dispatch trace T Y spot f stdin coin A) as H.
  pose proof (calm_header E argv) as CH.
  unfold main_said, after, mute, first. rewrite P. cbn [fst snd app]. unfold honest in H.
  destruct (dispatch_said trace T Y spot f stdin coin A) as [l r]. cbn [fst snd app] in *. split.
  - split.
    + intros ->. destruct H as (l' & t & -> & _). exists t. rewrite !in_app_iff. right. right. left. reflexivity.
    + intros (m & HI). destruct r as [a|[]]; auto; exfalso; (apply in_app_or in HI as [HI|HI]; [eapply CH; exact HI|eapply H; exact HI]).
  - intros ->. destruct H as (l' & t & -> & H). exists l', t. auto.
Qed.

(** With --quiet only errors are seen: nothing, unless the program exits with an error. Without it everything is seen. *)
Theorem C79_quiet f stdin coin argv : log f stdin coin argv <> [] ->
  (~ quietly argv -> seen trace T Y spot E f stdin coin argv = log f stdin coin argv) /\
  (quietly argv -> main T Y spot f stdin coin argv <> Fail FExit -> seen trace T Y spot E f stdin coin argv = []) /\
  (quietly argv -> main T Y spot f stdin coin argv = Fail FExit -> exists m, seen trace T Y spot E f stdin coin argv = died trace m).
Proof.
  assert (SC : forall l, calm l -> shown true l = []).
  { induction l as [|[lv t] l IH]; intros H; auto. destruct lv; cbn; [apply IH; intros m Hm; apply (H m); right; auto|].
    exfalso. apply (H t). left. reflexivity. }
  assert (QI : forall g rest, general g -> In (lit "--quiet") g -> is_quiet (g ++ rest) = true).
  { intros g rest [G _] HI. unfold is_quiet. apply existsb_exists. exists (lit "--quiet"). split; [|reflexivity].
    induction g as [|a g IH]; [destruct HI|]. cbn. inversion G; subst. apply general_is in H1. rewrite H1.
    destruct HI as [->|HI]; [left; reflexivity|right; auto]. }
  intros NE. destruct (C79_exit f stdin coin argv NE) as [X1 X2].
  assert (A : exists A, parse f argv = Ok A).
  { unfold main_said in NE. destruct (parse f argv); [eauto|]. exfalso. apply NE. reflexivity. }
  destruct A as (A & P). destruct (accepted T Y spot f stdin coin argv A P) as (g & G & GF & _).
  split; [|split].
  - intros N. unfold seen. replace (is_quiet argv) with false.
    + assert (SF : forall l, shown false l = l) by (induction l as [|[[] t] l IH]; [reflexivity|exact (f_equal (cons (LInfo, t)) IH)|exact (f_equal (cons (LError, t)) IH)]).
      apply SF.
    + symmetry. destruct (is_quiet argv) eqn:Q; auto. exfalso. apply N. unfold is_quiet in Q. apply existsb_exists in Q as (w & HI & W).
      apply is_name_iff in W as ->. rewrite GF in HI.
      assert (D : exists rest, argv = general_flags argv ++ rest).
      { clear. induction argv as [|a argv [rest IH]]; [exists []; auto|]. cbn. destruct (is_name a "--verbose" || is_name a "--quiet").
        - exists rest. cbn. congruence.
        - exists (a :: argv). reflexivity. }
      destruct D as (rest & D). rewrite GF in D. exists g, rest. auto.
  - intros (g' & rest & G' & -> & HI) NX. unfold seen. rewrite QI by auto. apply SC. intros m Hm. apply NX, X1. eauto.
  - intros (g' & rest & G' & -> & HI) HX. unfold seen. rewrite QI by auto. destruct (X2 HX) as (l & m & -> & C). exists m.
    rewrite !shown_app, (SC _ (calm_header E _)), (SC _ C). reflexivity.
Qed.
End Say.
Print Assumptions C79_same.
Print Assumptions C79_header.
Print Assumptions C79_notes.
Print Assumptions C79_total.
Print Assumptions C79_exit.
Print Assumptions C79_quiet.

(** ** The hypotheses are met *)
Definition ex_E : setting := mkSetting false (Some (lit "1a2b3c")) false None (Some (lit "heap")) 4 (lit "homfa").
(** dec of a file that is no ciphertext, with and without --quiet; the specification as a key. *)
Example C79_bad_archive trace : exists argv argv', command_line argv ["dec"%string] [("--key", Some (lit "sk")); ("--in", Some (lit "s"))]%string [] /\
  command_line argv' ["dec"%string] [("--key", Some (lit "sk")); ("--in", Some (lit "s"))]%string [] /\ quietly argv' /\
  let f := write ex_f (lit "sk") (c_skey ex_T ex_Y) in let log := main_said trace ex_T ex_Y ex_spot ex_E f [] 0 in
  log argv = (dump_basic_info ex_E argv ++ died trace (lit "Invalid archive: s"), Fail FExit) /\
  seen trace ex_T ex_Y ex_spot ex_E f [] 0 argv = fst (log argv) /\
  seen trace ex_T ex_Y ex_spot ex_E f [] 0 argv' = died trace (lit "Invalid archive: s").
Proof.
  exists (map lit ["dec"; "--key"; "sk"; "--in"; "s"]%string), (map lit ["--quiet"; "dec"; "--in"; "s"; "--key"; "sk"]%string).
  split. { exists [], [Opt "--key" (lit "sk"); Opt "--in" (lit "s")]. split; [split; constructor|]. split; [reflexivity|]. split; [reflexivity|]. split; [reflexivity|constructor]. }
  split. { exists [lit "--quiet"], [Opt "--in" (lit "s"); Opt "--key" (lit "sk")]. split; [split; repeat constructor; auto; intros []|].
           split; [reflexivity|]. split; [apply perm_swap|]. split; [reflexivity|constructor]. }
  split. { exists [lit "--quiet"], (map lit ["dec"; "--in"; "s"; "--key"; "sk"]%string). split; [split; repeat constructor; auto; intros []|].
           split; [reflexivity|left; reflexivity]. }
  cbv zeta. split; [|split]; vm_compute; reflexivity.
Qed.
Example C79_screen : exists argv, argv = map lit ["--verbose"; "spec2att"; "none.spec"]%string /\
  screen (dump_basic_info ex_E argv) = lit "===================================
  _   _                 _____ _    
 | | | | ___  _ __ ___ |  ___/ \   
 | |_| |/ _ \| '_ ` _ \| |_ / _ \  
 |  _  | (_) | | | | | |  _/ ___ \ 
 |_| |_|\___/|_| |_| |_|_|/_/   \_\
                                   
Built with:
	Type: release
	Git revision: 1a2b3c
	Profiling: disabled
Executed with:
	Args: homfa --verbose spec2att none.spec 
	Env var: HEAPPROFILE=heap 
	Concurrency:	4
===================================
".
Proof. eexists. split; reflexivity. Qed.
(** No command; a command line that is refused. *)
Example C79_refused trace : let log := main_said trace ex_T ex_Y ex_spot ex_E ex_f [] 0 in
  log [lit "--quiet"; lit "run"] =
    (dump_basic_info ex_E [lit "--quiet"; lit "run"] ++ died trace (lit "Please specify subcommand"), Fail FExit) /\
  log [lit "dec"; lit "--key"; lit "s"] = ([], Fail FExit).
Proof. split; reflexivity. Qed.
