(** The messages command by command (SaySpec.v): proofs. *)
From Coq Require Import String.
From Coq Require Import List Arith Bool NArith ZArith Lia Ascii Permutation.
Import ListNotations.
From Verif Require Import Base BaseFacts GraphModel TextModel CliModel DotModel BitsModel TorusModel StreamModel CmdModel LtlModel MainModel MainSpec MainFacts
  MainClaims MsgModel MsgFacts SayModel SaySpec SayFacts.
Local Open Scope list_scope.

Section M.
Context (trace : text) (T : tfhe) (Y : crypto T) (spot : spot_lib).
Context (E0 : setting) (f : fs) (stdin : text) (coin : nat).
Notation log argv := (fst (main_said trace T Y spot E0 f stdin coin argv)).

Ltac reads := repeat match goal with
  | H : positive ?t ?n |- _ => apply positive_read in H as (? & H & <-)
  | H : number ?t ?n |- _ => apply number_read in H
  | H : readable _ _ |- _ => unfold readable in H
  | H : common_ok _ _ _ _ _ |- _ => destruct H as (? & ? & ? & ?)
  end.
Ltac known := repeat match goal with
  | H : read_num ?t = _ |- context [read_num ?t] => rewrite H
  | H : f ?p <> None |- context [f ?p] => let E := fresh "E" in destruct (f p) eqn:E; [|congruence]
  | H : f ?p = _ |- context [f ?p] => rewrite H
  | |- _ => progress cbn
  end.
Ltac nodup := cbn; repeat constructor; cbn; intuition discriminate.
Ltac fore s := match goal with C : command_line _ _ ?o _ |- _ =>
  rewrite (command_parse f _ _ _ _ s C); [| reflexivity | apply entry_okb_ok; reflexivity
    | let E := fresh in intros ? E; cbn in E; injection E as <-; nodup] end.

Lemma log_of argv A : parse f argv = Ok A ->
  log argv = dump_basic_info E0 argv ++ fst (dispatch_said trace T Y spot f stdin coin A).
Proof. intros H. unfold main_said. rewrite H. reflexivity. Qed.
Lemma fst_then {A B} (m : said A) (k : A -> B) : fst (then_ m k) = fst m.
Proof. unfold then_. destruct m as [l [a|e]]; cbn; [apply app_nil_r|reflexivity]. Qed.
Lemma fst_mute_after {A B} (r : res A) (k : A -> said B) a : r = Ok a -> fst (after (mute r) k) = fst (k a).
Proof. intros ->. cbn. destruct (k a). reflexivity. Qed.
Lemma fst_after_mute {A B} (m : said A) (k : A -> res B) : fst (after m (fun a => mute (k a))) = fst m.
Proof. destruct m as [l [a|e]]; cbn; [apply app_nil_r|reflexivity]. Qed.

Lemma fst_let {A B} (m : said A) (k : A -> B) : fst (let (l', r) := then_ m k in (l', r)) = fst m.
Proof. rewrite <- (fst_then m k). destruct (then_ m k). reflexivity. Qed.

Notation talk A := (fst (dispatch_said trace T Y spot f stdin coin A)).
Lemma d_genbkey A k o : a_type A = GENBKEY -> a_text A Fskey = Some k -> a_text A Foutput = Some o -> talk A = fst (do_genbkey_said trace T Y f k o).
Proof. intros E E1 E2. unfold dispatch_said. rewrite E, E1, E2. cbn [value bind mute after app]. apply fst_let. Qed.
Lemma d_enc A k i o n : a_type A = ENC -> a_text A Fskey = Some k -> a_text A Finput = Some i -> a_text A Foutput = Some o -> a_num A Fnum_ap = Some n ->
  talk A = fst (do_enc_said trace T Y f k i o n coin).
Proof. intros E E1 E2 E3 E4. unfold dispatch_said. rewrite E, E1, E2, E3, E4. cbn [value bind mute after app]. apply fst_let. Qed.
Lemma d_dec A k i : a_type A = DEC -> a_text A Fskey = Some k -> a_text A Finput = Some i -> talk A = fst (do_dec_said trace T Y f k i).
Proof. intros E E1 E2. unfold dispatch_said. rewrite E, E1, E2. cbn [value bind mute after app]. apply fst_let. Qed.
Lemma d_plain A s i n : a_type A = RUN_PLAIN -> a_text A Fspec = Some s -> a_text A Finput = Some i -> a_num A Fnum_ap = Some n ->
  talk A = fst (run_plain_said trace f s i n).
Proof. intros E E1 E2 E3. unfold dispatch_said. rewrite E, E1, E2, E3. cbn [value bind mute after app]. apply fst_let. Qed.
Lemma d_spec A : a_type A = SPEC2SPEC \/ a_type A = SPEC2DOT \/ a_type A = SPEC2ATT -> talk A = fst (spec_said trace f stdin (a_text A Fspec)).
Proof.
  intros [E|[E|E]]; unfold dispatch_said; rewrite E, fst_then; [unfold do_spec2spec_said| |]; apply fst_after_mute.
Qed.
Lemma d_att A : a_type A = ATT2SPEC -> talk A = fst (att_said trace f stdin (a_text A Fspec)).
Proof. intros E. unfold dispatch_said. rewrite E, fst_then. apply fst_after_mute. Qed.

Lemma key_dec p : readable f p -> holds_key T Y f p \/ ~ holds_key T Y f p.
Proof.
  unfold readable, holds_key. destruct (f p) as [b|]; [|congruence]. intros _. destruct (c_read_skey T Y b) eqn:E; [left; eauto|].
  right. intros (b' & [= <-] & E'). congruence.
Qed.
Lemma key_good p : holds_key T Y f p -> read_skey T Y f p = Ok tt.
Proof. intros (b & E & R). unfold read_skey, open_file. rewrite E. cbn. rewrite R. reflexivity. Qed.
Lemma key_bad p : readable f p -> ~ holds_key T Y f p -> read_skey T Y f p = Fail FExit.
Proof.
  unfold readable, holds_key, read_skey, open_file. destruct (f p) as [b|]; [|congruence]. intros _ N. cbn.
  destruct (c_read_skey T Y b) eqn:E; auto. exfalso. apply N. eauto.
Qed.
Lemma key_readable p : holds_key T Y f p -> readable f p.
Proof. intros (b & E & _). unfold readable. congruence. Qed.
Lemma read_words_exit k swap : forall b e, read_words k swap b = Fail e -> e = FExit.
Proof.
  induction k as [|k IH]; cbn [read_words]; intros b e; [discriminate|]. destruct (length b <? 4); [congruence|]. cbv zeta.
  destruct (read_words k swap (skipn 4 b)) eqn:E; cbn [bind]; [discriminate|]. intros [= <-]. eauto.
Qed.
Lemma tlwe_bad p : readable f p -> (forall c, ~ holds_tlwe T f p c) -> (do b <- open_file f p; read_tlwe (t_n1 T) b) = Fail FExit.
Proof.
  unfold readable, holds_tlwe, open_file. destruct (f p) as [b|]; [|congruence]. intros _ N. cbn.
  destruct (read_tlwe (t_n1 T) b) as [c|e] eqn:E; [exfalso; eapply N; eauto|].
  unfold read_tlwe in E. destruct b; [congruence|]. apply read_words_exit in E. congruence.
Qed.
Lemma tlwe_good p c : holds_tlwe T f p c -> readable f p /\ (do b <- open_file f p; read_tlwe (t_n1 T) b) = Ok c.
Proof. intros (b & E & R). unfold readable, open_file. rewrite E. split; [discriminate|exact R]. Qed.

Lemma reading_spec p l : reading_notes f stdin (from_istream_said trace) (fun _ => []) p l ->
  exists n, p = match n with Some x => [x] | None => [] end /\ l = fst (spec_said trace f stdin n).
Proof.
  destruct p as [|n [|]]; cbn.
  - intros ->. exists None. split; auto.
  - intros H. exists (Some n). split; auto. unfold spec_said. destruct H as [[-> ->]|[N H]].
    + reflexivity.
    + destruct (is_name n "-") eqn:E; [apply is_name_iff in E; contradiction|]. unfold from_file_said. destruct (f n); rewrite H; reflexivity.
  - intros [].
Qed.
Lemma reading_att p l : reading_notes f stdin (from_att_istream_said trace) (fun n => died trace (lit "Invalid filename: " ++ n)) p l ->
  exists n, p = match n with Some x => [x] | None => [] end /\ l = fst (att_said trace f stdin n).
Proof.
  destruct p as [|n [|]]; cbn [reading_notes].
  - intros ->. exists None. split; auto.
  - intros H. exists (Some n). split; auto. unfold att_said. destruct H as [[-> ->]|[N H]].
    + reflexivity.
    + destruct (is_name n "-") eqn:E; [apply is_name_iff in E; contradiction|]. unfold from_att_file_said. destruct (f n); rewrite H; reflexivity.
  - intros [].
Qed.
Lemma print_notes b : fst (print_result_said b) = [result_note b].
Proof. destruct b; reflexivity. Qed.
Lemma plain_notes s i n bs : f s = Some bs ->
  fst (run_plain_said trace f s i n) = fst (from_istream_said trace (map ascii_of_N bs)) ++
    match run_plain f s i n with
    | Ok printed => if list_eq_dec ascii_dec printed (lit "1") then [result_note true] else [result_note false]
    | Fail _ => []
    end.
Proof.
  intros E. rewrite <- (plain_same trace f s i n). unfold run_plain_said, from_file_said. rewrite E.
  destruct (from_istream_said trace (map ascii_of_N bs)) as [l [gr|e]]; cbn [after fst snd]; [|rewrite app_nil_r; reflexivity].
  match goal with |- context [mute ?r] => destruct r as [b|e] end; cbn [mute after fst snd app].
  - destruct (print_result_said b) as [l' r'] eqn:P. unfold print_result_said in P. injection P as <- <-. cbn [fst snd app].
    destruct b; reflexivity.
  - rewrite app_nil_r. reflexivity.
Qed.

Lemma notes_log argv c o p l : command_line argv c o p -> notes trace T Y f stdin c o p l ->
  log argv = dump_basic_info E0 argv ++ l.
Proof.
  intros C H.
  assert (G : forall A, parse f argv = Ok A -> fst (dispatch_said trace T Y spot f stdin coin A) = l -> log argv = dump_basic_info E0 argv ++ l).
  { intros A P <-. apply log_of. exact P. }
  destruct H.
  - eapply G; [fore genkey; reflexivity|]. reflexivity.
  - pose proof (key_good _ H) as K. apply key_readable in H. reads. eapply G; [fore genbkey; known; reflexivity|].
    rewrite (d_genbkey _ k o) by reflexivity. unfold do_genbkey_said. rewrite K. reflexivity.
  - pose proof (key_bad _ H H0) as K. reads. eapply G; [fore genbkey; known; reflexivity|].
    rewrite (d_genbkey _ k o) by reflexivity. unfold do_genbkey_said. rewrite K. reflexivity.
  - pose proof (key_good _ H) as K. apply key_readable in H. reads. eapply G; [fore enc; known; reflexivity|].
    erewrite (d_enc _ k i o) by reflexivity. unfold do_enc_said. rewrite K, fst_after_mute. reflexivity.
  - pose proof (key_bad _ H H0) as K. reads. eapply G; [fore enc; known; reflexivity|].
    erewrite (d_enc _ k i o) by reflexivity. unfold do_enc_said. rewrite K, fst_after_mute. reflexivity.
  - pose proof (key_good _ H) as K. apply key_readable in H. pose proof (tlwe_good _ _ H0) as [R D]. reads. eapply G; [fore dec; known; reflexivity|].
    rewrite (d_dec _ k i) by reflexivity. unfold do_dec_said. rewrite K, D. cbn. destruct (decrypt_TLWELvl1_to_bit _ _ _); reflexivity.
  - pose proof (key_bad _ H H0) as K. reads. eapply G; [fore dec; known; reflexivity|].
    rewrite (d_dec _ k i) by reflexivity. unfold do_dec_said. rewrite K. reflexivity.
  - pose proof (key_good _ H) as K. apply key_readable in H. pose proof (tlwe_bad _ H0 H1) as D. reads. eapply G; [fore dec; known; reflexivity|].
    rewrite (d_dec _ k i) by reflexivity. unfold do_dec_said. rewrite K, D. reflexivity.
  - assert (R : readable f s) by (unfold readable; congruence).
    pose proof (plain_notes s i n bs H) as Q. reads. eapply G; [fore (plain false); known; reflexivity|].
    erewrite (d_plain _ s i) by reflexivity. exact Q.
  - inversion H; subst; cbn [readable_opt] in *; try congruence.
    + destruct d as [d|]; reads; cbn [readable_opt] in *; reads; (eapply G; [fore (offline false); known; reflexivity|reflexivity]).
    + match goal with HI : In _ _ |- _ => cbn in HI; destruct HI as [<-|[<-|[]]] end; destruct d as [d|], r0; reads; cbn [readable_opt] in *; reads;
        (eapply G; [fore (reverse false); known; reflexivity|reflexivity]).
    + match goal with HI : In _ _ |- _ => cbn in HI; destruct HI as [<-|[<-|[<-|[]]]] end; destruct d as [d|]; reads; cbn [readable_opt] in *; reads;
        (eapply G; [fore (block false); known; reflexivity|reflexivity]).
    + match goal with HI : In _ _ |- _ => cbn in HI; destruct HI as [<-|[<-|[]]] end; destruct d as [d|]; reads; cbn [readable_opt] in *; reads;
        (eapply G; [fore (flut false); known; reflexivity|reflexivity]).
  - destruct all; reads; (eapply G; [fore ltl2spec; known; reflexivity|reflexivity]).
  - apply reading_spec in H as (n' & -> & ->). destruct n' as [x|], m, r, n; (eapply G; [fore spec2spec; known; reflexivity|]);
      rewrite d_spec by (cbn; auto); reflexivity.
  - apply reading_spec in H as (n' & -> & ->). destruct n' as [x|]; (eapply G; [fore spec2dot; known; reflexivity|]);
      rewrite d_spec by (cbn; auto); reflexivity.
  - apply reading_spec in H as (n' & -> & ->). destruct n' as [x|]; (eapply G; [fore spec2att; known; reflexivity|]);
      rewrite d_spec by (cbn; auto); reflexivity.
  - apply reading_att in H as (n' & -> & ->). destruct n' as [x|]; (eapply G; [fore att2spec; known; reflexivity|]);
      rewrite d_att by reflexivity; reflexivity.
Qed.

(** ** Every command line *)
Lemma reading_total missing read gone p r : text_of missing f stdin p r -> exists l, reading_notes f stdin read gone p l.
Proof.
  destruct p as [|n [|]]; cbn.
  - eauto.
  - intros [[-> _]|[N _]]; [eexists; left; split; reflexivity|]. destruct (f n); eexists; right; split; auto.
  - intros [].
Qed.
Lemma manual_notes c o p r : manual T Y spot f stdin coin c o p r -> exists l, notes trace T Y f stdin c o p l.
Proof.
  intros H. pose proof H as M. destruct H.
  - eexists. apply note_genkey.
  - destruct (key_dec k) as [K|K]; auto; eexists; [apply note_genbkey|apply note_genbkey_bad]; auto.
  - destruct (key_dec k) as [K|K]; auto; eexists; [eapply note_enc|eapply note_enc_bad]; eauto.
  - destruct (key_dec k) as [K|K]; auto; [|eexists; apply note_dec_bad_key; auto].
    destruct (f i) as [b|] eqn:E; [|unfold readable in *; congruence].
    destruct (read_tlwe (t_n1 T) b) as [c|e] eqn:R.
    + eexists. apply (note_dec trace T Y f stdin k i c); auto. exists b. auto.
    + eexists. apply note_dec_bad; auto. intros c (b' & E' & R'). rewrite E in E'. injection E' as <-. congruence.
  - eexists. eapply note_run; [exact M|discriminate].
  - eexists. eapply note_run; [exact M|]. intros [= ->]. cbn in H. intuition discriminate.
  - eexists. eapply note_run; [exact M|]. intros [= ->]. cbn in H. intuition discriminate.
  - eexists. eapply note_run; [exact M|]. intros [= ->]. cbn in H. intuition discriminate.
  - destruct (f s) as [bs|] eqn:E; [|unfold readable in *; congruence]. eexists. eapply note_plain; eauto.
  - eexists. eapply note_ltl2spec; eauto.
  - destruct (reading_total _ (from_istream_said trace) (fun _ => []) _ _ H) as (l & L). eexists. eapply note_spec2spec; eauto.
  - destruct (reading_total _ (from_istream_said trace) (fun _ => []) _ _ H) as (l & L). eexists. eapply note_spec2dot; eauto.
  - destruct (reading_total _ (from_istream_said trace) (fun _ => []) _ _ H) as (l & L). eexists. eapply note_spec2att; eauto.
  - destruct (reading_total _ (from_att_istream_said trace) (fun n => died trace (lit "Invalid filename: " ++ n)) _ _ H) as (l & L).
    eexists. eapply note_att2spec; eauto.
Qed.
Lemma accepted argv A : parse f argv = Ok A ->
  exists g, general g /\ general_flags argv = g /\
  ((exists c o p r, command_line argv c o p /\ manual T Y spot f stdin coin c o p r) \/
   (A = args0 UNSPECIFIED /\ (argv = g \/ argv = g ++ [lit "run"]))).
Proof.
  assert (GF : forall g rest, general g -> begins_general rest = false -> general_flags (g ++ rest) = g).
  { intros g rest [G _] B. induction g as [|a g IH]; cbn.
    - destruct rest as [|a rest]; auto. cbn in *. rewrite B. reflexivity.
    - inversion G; subst. apply general_is in H1. rewrite H1, IH; auto. }
  intros P.
  destruct (parse_cases f argv) as [(g & G & [(c & s & rest & -> & L)|[(E & Q)|[E|(E & _)]]])|[(E & _)|(E & _)]]; try congruence; exists g; split; auto.
  - split.
    { apply GF; auto. clear P. apply lookup_cases in L. each_sub L; reflexivity. }
    left. rewrite (parse_lookup f g c s rest G L) in P. destruct (lookup_sane c s L) as [ND SN].
    pose proof P as P0. unfold parse_sub in P0. apply bind_ok in P0 as ([given pos] & C & _).
    apply collect_inv in C as (items & -> & -> & -> & F & FP); auto.
    assert (P' : parsed f s (options items) (positionals items) = Ok A).
    { rewrite <- (parse_sub_items f s items ND SN F FP). exact P. }
    destruct (accepted_manual T Y spot f stdin coin c s items A L F P') as (o & r & CP & M).
    exists c, o, (positionals items), r. split; auto. exists g, items. auto.
  - split; [|right; split; [congruence|exact Q]]. destruct Q as [-> | ->]; [rewrite <- (app_nil_r g) at 1|]; apply GF; auto.
Qed.
End M.
