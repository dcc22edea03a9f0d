(** C82: the whole standard error of a run on ciphertexts. *)
From Coq Require Import String.
From Coq Require Import List Arith Bool NArith ZArith Ascii Lia Permutation.
Import ListNotations.
From Verif Require Import Base BaseFacts GraphModel Spec TextModel DotModel BitsModel TorusModel RunnerModel RunnerSpec RunnerFacts ReachFacts FlutFacts ParModel StreamModel InputSpec
  ClientModel CmdModel CmdSpec CmdFacts ServerSpec LtlModel MainModel MainSpec MainFacts MainClaims PropsMain MsgModel SayModel SaySpec SayFacts SayClaims
  PropsRunner PropsCmd PropsServer PropsLtl PropsSay
  LogModel LogSpec LogFacts PropsLog RefuseSpec RefuseFacts PropsRefuse BlameSpec PropsBlame StderrModel StderrSpec.
Local Open Scope list_scope.

Section Err.
Context (trace : text) (T : tfhe) (Y : crypto T) (spot : spot_lib) (E : setting).
Context (f : fs) (stdin : text) (coin : nat).

Lemma header_messages argv : map as_message (dump_basic_info E argv) = header E argv.
Proof. unfold dump_basic_info, header, rule, info. cbn [map as_message fst snd]. reflexivity. Qed.
Lemma passed_visible v l : passed v l = visible v l.
Proof. symmetry. apply visible_filter. Qed.

Lemma quiet_prefix g rest w : general g -> In w g -> In w (general_flags (g ++ rest)).
Proof.
  intros [G _]. induction g as [|a g IH]; [intros []|]. intros HI. cbn. inversion G as [|? ? H1 H2]; subst. apply general_is in H1. rewrite H1.
  destruct HI as [->|HI]; [now left|right; auto].
Qed.
Lemma flags_prefix argv : exists rest, argv = general_flags argv ++ rest.
Proof.
  induction argv as [|a argv [rest IH]]; [exists []; auto|]. cbn. destruct (is_name a "--verbose" || is_name a "--quiet").
  - exists rest. cbn. congruence.
  - exists (a :: argv). reflexivity.
Qed.
Lemma asks_level argv : general (general_flags argv) -> asks argv (level_of argv).
Proof.
  intros G.
  assert (K : forall w, In (lit w) (general_flags argv) <-> exists g rest, general g /\ argv = g ++ rest /\ In (lit w) g).
  { intros w. split.
    - intros HI. destruct (flags_prefix argv) as (rest & E1). exists (general_flags argv), rest. auto.
    - intros (g & rest & Gg & -> & HI). apply quiet_prefix; auto. }
  assert (X : forall w, existsb (fun a => is_name a w) (general_flags argv) = true <-> In (lit w) (general_flags argv)).
  { intros w. rewrite existsb_exists. split.
    - intros (x & HI & E1). apply is_name_iff in E1 as ->. exact HI.
    - intros HI. exists (lit w). split; auto. apply is_name_iff. reflexivity. }
  unfold level_of, is_quiet.
  destruct (existsb (fun a => is_name a "--quiet") (general_flags argv)) eqn:Q.
  - apply X, K in Q. constructor. exact Q.
  - assert (NQ : ~ quietly argv) by (intros H; apply K, X in H; congruence).
    destruct (existsb (fun a => is_name a "--verbose") (general_flags argv)) eqn:V.
    + apply X, K in V. constructor; auto.
    + constructor; auto. intros H. apply K, X in H. congruence.
Qed.

(** A command line that is accepted: the header at the level that is asked for, and then the command. *)
Lemma main_run_is store argv A talk : parse f argv = Ok A -> (forall v, dispatch_run trace T Y store v f A = ([], Some (talk v))) ->
  exists v, asks argv v /\ main_run trace T Y store E f argv = (visible v (header E argv), Some (talk v)).
Proof.
  intros P D. destruct (accepted T Y spot f stdin coin argv A P) as (g & G & GF & _).
  exists (level_of argv). split; [apply asks_level; rewrite GF; exact G|].
  unfold main_run. rewrite P. cbv zeta. rewrite D, app_nil_r, header_messages, passed_visible. reflexivity.
Qed.


Ltac reads := repeat match goal with
  | H : positive ?t ?n |- _ => apply positive_read in H as (? & H & <-)
  | H : number ?t ?n |- _ => apply number_read in H
  | H : readable _ _ |- _ => unfold readable in H
  | H : common_ok _ _ _ _ _ |- _ => destruct H as (? & ? & ? & ?)
  end.
Ltac known := repeat match goal with
  | H : read_num ?t = _ |- context [read_num ?t] => rewrite H
  | H : f ?p <> None |- context [f ?p] => let E := fresh "E" in destruct (f p) eqn:E; [|congruence]
  | H : f ?p = _ |- context [f ?p] => rewrite H
  | |- _ => progress cbn
  end.
Ltac nodup := cbn; repeat constructor; cbn; intuition discriminate.
Ltac fore s := match goal with C : command_line _ _ ?o _ |- _ =>
  rewrite (command_parse f _ _ _ _ s C); [| reflexivity | apply entry_okb_ok; reflexivity
    | let E := fresh in intros ? E; cbn in E; injection E as <-; nodup] end.

(** What each command line is. *)
Definition wired (store : verbosity -> world -> text -> list N -> (world -> client world) -> client world) (argv : list text) (plain : res command) (talk : verbosity -> res (@talking world)) : Prop :=
  exists A, parse f argv = Ok A /\ dispatch T Y spot f stdin coin A = runs plain /\ (forall v, dispatch_run trace T Y store v f A = ([], Some (talk v))).
Lemma wired_offline store argv b o s i d t n : command_line argv ["run"; "offline"]%string (common b o s i d ++ [("--bootstrapping-freq"%string, Some t)]) [] ->
  common_ok f b s i d -> positive t n ->
  wired store argv (do_run_offline T Y f s i o n b false) (fun v => do_run_offline_log trace T Y (store v) (log_says v) f ([], f) s i o n b false).
Proof.
  intros C H H0. destruct d as [d|]; reads; cbn [readable_opt] in *; reads;
    (eexists; split; [fore (offline false); known; reflexivity|split; reflexivity]).
Qed.
Lemma wired_reverse store argv name b o s i d t n t' n' r : In name ["reverse"; "reversed"]%string ->
  command_line argv ["run"%string; name] (common b o s i d ++ [("--out-freq"%string, Some t); ("--bootstrapping-freq"%string, Some t')]
                                            ++ flagged "--spec-reversed" r) [] ->
  common_ok f b s i d -> positive t n -> positive t' n' ->
  wired store argv (do_run_reverse T Y f s i (Some o) None n n' r b false)
    (fun v => do_run_reverse_log trace T Y (store v) (log_says v) f ([], f) s i (Some o) None n n' r b false).
Proof.
  intros HI C H H0 H1. cbn in HI. destruct HI as [<-|[<-|[]]]; destruct d as [d|], r; reads; cbn [readable_opt] in *; reads;
    (eexists; split; [fore (reverse false); known; reflexivity|split; reflexivity]).
Qed.
Lemma wired_block store argv name b o s i d t n t' n' : In name ["block"; "bbs"; "block-backstream"]%string ->
  command_line argv ["run"%string; name] (common b o s i d ++ [("--out-freq"%string, Some t); ("--queue-size"%string, Some t')]) [] ->
  common_ok f b s i d -> positive t n -> positive t' n' ->
  wired store argv (do_run_block T Y f s i o n' b false) (fun v => do_run_block_log trace T Y (store v) (log_says v) f ([], f) s i o n' b false).
Proof.
  intros HI C H H0 H1. cbn in HI. destruct HI as [<-|[<-|[<-|[]]]]; destruct d as [d|]; reads; cbn [readable_opt] in *; reads;
    (eexists; split; [fore (block false); known; reflexivity|split; reflexivity]).
Qed.
Lemma wired_flut store argv name b o s i d t n t1 n1 t2 n2 t3 n3 : In name ["flut"; "qtrlwe2"]%string ->
  command_line argv ["run"%string; name] (common b o s i d ++ [("--out-freq"%string, Some t); ("--queue-size"%string, Some t1);
                                   ("--max-second-lut-depth"%string, Some t2); ("--bootstrapping-freq"%string, Some t3)]) [] ->
  common_ok f b s i d -> positive t n -> positive t1 n1 -> positive t2 n2 -> positive t3 n3 ->
  wired store argv (do_run_flut T Y f s i (Some o) None n n1 n3 b (Some n2) d false)
    (fun v => do_run_flut_log trace T Y (store v) (log_says v) f ([], f) s i (Some o) None n n1 n3 b (Some n2) d false).
Proof.
  intros HI C H H0 H1 H2 H3. cbn in HI. destruct HI as [<-|[<-|[]]]; destruct d as [d|]; reads; cbn [readable_opt] in *; reads;
    (eexists; split; [fore (flut false); known; reflexivity|split; reflexivity]).
Qed.

Lemma wired_v store argv plain talk : wired store argv plain talk ->
  main T Y spot f stdin coin argv = runs plain /\
  exists v, asks argv v /\ main_run trace T Y store E f argv = (visible v (header E argv), Some (talk v)).
Proof.
  intros (A & P & D & DR). split; [unfold main; rewrite P; exact D|]. apply (main_run_is store argv A talk P DR).
Qed.
Lemma reports_ok argv plain talk v f2 log : wired (fun _ => log_store) argv plain talk -> asks argv v ->
  main_run trace T Y (fun _ => log_store) E f argv = (visible v (header E argv), Some (talk v)) -> logs Y v f plain (talk v) log f2 ->
  reports trace T Y spot E f stdin coin argv (header E argv ++ log) f2.
Proof.
  intros W HA HM (L1 & L2 & L3). destruct (wired_v _ _ _ _ W) as (M & _). destruct plain as [c|e]; [|discriminate L1].
  exists c, (talk v), (visible v (header E argv)), v. split; [exact M|]. split; [exact HM|]. split; [exact HA|].
  split; [exact L1|]. rewrite visible_app. split; [eauto|]. intros w HW. destruct (L3 w HW) as (rest & ->). exists rest. reflexivity.
Qed.
Lemma gives_up_ok argv c talk v log : wired (fun _ => log_store) argv (Ok c) talk -> asks argv v ->
  main_run trace T Y (fun _ => log_store) E f argv = (visible v (header E argv), Some (talk v)) -> refused Y v f (Ok c) (talk v) log ->
  gives_up trace T Y spot E f stdin coin argv (header E argv ++ log).
Proof.
  intros W HA HM ((L1 & L2 & L3 & L4) & L5). destruct (wired_v _ _ _ _ W) as (M & _).
  exists c, (talk v), (visible v (header E argv)), v. split; [exact M|]. split; [exact HM|]. split; [exact HA|].
  split; [exact L1|]. split; [exact L2|]. rewrite visible_app. split.
  - intros r w HO. split; [rewrite (L4 r w HO); reflexivity|]. apply L5. right.
    destruct HO as (kd & input & body & bytes & junk & s & t & O). exists kd, input, body, bytes, junk, s. eexists. exact O.
  - intros w HW. destruct (L3 w HW) as (rest & ->). exists rest. reflexivity.
Qed.

Notation words := (c_words T Y).
Notation N1 := (t_n1 T).
Hypothesis HW : 0 < words.
Hypothesis HB : (Z.of_nat (words * 8) < 2 ^ 63)%Z.
Lemma has p (b : list N) : f p = Some b -> readable f p.
Proof. unfold readable. congruence. Qed.

(** ** Runs that succeed *)
Theorem C82_offline argv bkey output spec cipher debug t interval g n bytes kb ik sb :
  command_line argv ["run"; "offline"]%string (common bkey output spec cipher debug ++ [("--bootstrapping-freq"%string, Some t)]) [] ->
  positive t interval -> readable_opt f debug ->
  f bkey = Some kb -> c_read_bkey T Y kb = Some (true, ik) -> f spec = Some sb -> from_file f spec = Ok g -> 0 < size g ->
  f cipher = Some bytes -> ciphertexts words n bytes ->
  0 < N1 -> (Z.of_nat n < 2 ^ 31)%Z -> (Z.of_nat (n * (words * 8)) < 2 ^ 64)%Z ->
  exists skips m W f2, skipped (LogSpec.lines_of sb) skips /\ smallest (accepts g) m /\ (forall j, width m j (W j)) /\
    reports trace T Y spot E f stdin coin argv
      (header E argv ++ offline_log skips n (size m) interval (list_sum (map W (seq 0 n)))) f2.
Proof.
  intros C P D HK RK FS EG SG FC BC HN H31 H64.
  assert (W : wired (fun _ => log_store) argv _ _) by (eapply wired_offline; [exact C|repeat split; eauto using has|exact P]).
  destruct (wired_v _ _ _ _ W) as (_ & v & HA & HM).
  destruct (C76_offline trace T Y v HW HB f bkey spec cipher output interval g n bytes kb ik sb) as (skips & m & Wd & f2 & A1 & A2 & A3 & L); auto.
  { apply P. }
  exists skips, m, Wd, f2. do 3 (split; [assumption|]). eapply reports_ok; eauto.
Qed.
Theorem C82_reverse argv name bkey output spec cipher debug t freq t' interval spec_reversed g n bytes kb ik sb :
  In name ["reverse"; "reversed"]%string ->
  command_line argv ["run"%string; name] (common bkey output spec cipher debug ++ [("--out-freq"%string, Some t); ("--bootstrapping-freq"%string, Some t')]
                                            ++ flagged "--spec-reversed" spec_reversed) [] ->
  positive t freq -> positive t' interval -> readable_opt f debug ->
  f bkey = Some kb -> c_read_bkey T Y kb = Some (true, ik) -> f spec = Some sb -> from_file f spec = Ok g -> 0 < size g ->
  f cipher = Some bytes -> ciphertexts words n bytes ->
  0 < N1 -> (Z.of_nat (n * (words * 8)) < 2 ^ 64)%Z ->
  exists skips states f2, skipped (LogSpec.lines_of sb) skips /\ reverse_states g spec_reversed states /\
    reports trace T Y spot E f stdin coin argv (header E argv ++ reverse_log skips n states (ToFile output) interval) f2.
Proof.
  intros HI C P P' D HK RK FS EG SG FC BC HN H64.
  assert (W : wired (fun _ => log_store) argv _ _) by (eapply wired_reverse; [exact HI|exact C|repeat split; eauto using has|exact P|exact P']).
  destruct (wired_v _ _ _ _ W) as (_ & v & HA & HM).
  destruct (C76_reverse trace T Y v HW HB f bkey spec cipher (ToFile output) interval freq spec_reversed g n bytes kb ik sb)
    as (skips & states & f2 & A1 & A2 & L); auto.
  { exact I. } { apply P'. }
  exists skips, states, f2. do 2 (split; [assumption|]). eapply reports_ok; eauto.
Qed.
Theorem C82_flut argv name bkey output spec cipher t freq t1 queue_size t2 max_depth t3 interval g n bytes kb sb :
  In name ["flut"; "qtrlwe2"]%string ->
  command_line argv ["run"%string; name] (common bkey output spec cipher None ++ [("--out-freq"%string, Some t); ("--queue-size"%string, Some t1);
                                   ("--max-second-lut-depth"%string, Some t2); ("--bootstrapping-freq"%string, Some t3)]) [] ->
  positive t freq -> positive t1 queue_size -> positive t2 max_depth -> positive t3 interval ->
  f bkey = Some kb -> c_read_bkey T Y kb = Some (true, true) -> f spec = Some sb -> from_file f spec = Ok g -> 0 < size g ->
  f cipher = Some bytes -> ciphertexts words n bytes ->
  queue_size < 31 -> max_depth < 31 -> table_fits N1 max_depth queue_size g -> (Z.of_nat (n * (words * 8)) < 2 ^ 64)%Z ->
  let calls := asked None 0 (repeat tt n) in
  ~ (exists m k, In m (flushes queue_size 0 0 calls) /\ width g m k /\ 2 ^ max_depth <= k) ->
  exists skips W f2, skipped (LogSpec.lines_of sb) skips /\ (forall j, width g j (W j)) /\
    reports trace T Y spot E f stdin coin argv
      (header E argv ++ flut_log skips n (size g) queue_size (ToFile output) interval W max_depth calls) f2.
Proof.
  intros HI C P P1 P2 P3 HK RK FS EG SG FC BC HQ HD HT H64 calls NT.
  assert (W : wired (fun _ => log_store) argv _ _) by (eapply wired_flut; [exact HI|exact C|repeat split; eauto using has|exact P|exact P1|exact P2|exact P3]).
  destruct (wired_v _ _ _ _ W) as (_ & v & HA & HM).
  destruct (C76_flut trace T Y v HW HB f bkey spec cipher (ToFile output) interval queue_size max_depth freq g n bytes kb sb)
    as (skips & Wd & f2 & A1 & A2 & L); auto.
  { exact I. } { split; [apply P1|exact HQ]. } { apply P3. }
  exists skips, Wd, f2. do 2 (split; [assumption|]). eapply reports_ok; eauto.
Qed.
Theorem C82_block argv name bkey output spec cipher debug t freq t' queue_size g n bytes kb ik sb :
  In name ["block"; "bbs"; "block-backstream"]%string ->
  command_line argv ["run"%string; name] (common bkey output spec cipher debug ++ [("--out-freq"%string, Some t); ("--queue-size"%string, Some t')]) [] ->
  positive t freq -> positive t' queue_size -> readable_opt f debug ->
  f bkey = Some kb -> c_read_bkey T Y kb = Some (true, ik) -> f spec = Some sb -> from_file f spec = Ok g -> 0 < size g ->
  f cipher = Some bytes -> ciphertexts words n bytes -> 0 < n ->
  Nat.log2 (size g) + 1 < N1 -> Nat.log2 (size g) + 1 < 31 -> (Z.of_nat (n * (words * 8)) < 2 ^ 64)%Z ->
  exists skips f2, skipped (LogSpec.lines_of sb) skips /\
    reports trace T Y spot E f stdin coin argv (header E argv ++ block_log skips n (size g) queue_size) f2.
Proof.
  intros HI C P P' D HK RK FS EG SG FC BC N0 HL1 HL2 H64.
  assert (W : wired (fun _ => log_store) argv _ _) by (eapply wired_block; [exact HI|exact C|repeat split; eauto using has|exact P|exact P']).
  destruct (wired_v _ _ _ _ W) as (_ & v & HA & HM).
  destruct (C76_block trace T Y v HW HB f bkey spec cipher output queue_size g n bytes kb ik sb) as (skips & f2 & A1 & L); auto.
  exists skips, f2. split; [assumption|]. eapply reports_ok; eauto.
Qed.

(** ** A file that is no bootstrapping key *)
Theorem C82_bad_key argv bkey output spec cipher kb sb g n bytes : run_line f argv bkey output spec cipher ->
  f bkey = Some kb -> c_read_bkey T Y kb = None -> f spec = Some sb -> from_file f spec = Ok g ->
  f cipher = Some bytes -> ciphertexts words n bytes -> (Z.of_nat (n * (words * 8)) < 2 ^ 64)%Z ->
  exists skips, (skips = [] \/ skipped (LogSpec.lines_of sb) skips) /\
    gives_up trace T Y spot E f stdin coin argv (header E argv ++ map skip_line skips ++ error trace (lit "Invalid archive: " ++ bkey)).
Proof.
  intros R HK RK FS EG FC BC H64. destruct R as [d t k P D C|name d t k t' k' r HI P P' D C|name d t k t' k' HI P P' D C|name d t k t1 k1 t2 k2 t3 k3 HI P P1 P2 P3 D C].
  - assert (W : wired (fun _ => log_store) argv _ _) by (eapply wired_offline; [exact C|repeat split; eauto using has|exact P]).
    destruct (wired_v _ _ _ _ W) as (_ & v & HA & HM).
    destruct (C80_offline trace T Y v HW HB f bkey spec cipher output k false n bytes kb FC BC H64 HK) as (B & _).
    exists []. split; [now left|]. eapply gives_up_ok; eauto.
  - assert (W : wired (fun _ => log_store) argv _ _) by (eapply wired_reverse; [exact HI|exact C|repeat split; eauto using has|exact P|exact P']).
    destruct (wired_v _ _ _ _ W) as (_ & v & HA & HM).
    destruct (C80_reverse trace T Y v HW HB f bkey spec cipher (ToFile output) k' k r false n bytes kb FC BC H64 HK) as (B & _).
    exists []. split; [now left|]. eapply gives_up_ok; eauto.
  - assert (W : wired (fun _ => log_store) argv _ _) by (eapply wired_block; [exact HI|exact C|repeat split; eauto using has|exact P|exact P']).
    destruct (wired_v _ _ _ _ W) as (_ & v & HA & HM).
    destruct (C80_block trace T Y v HW HB f bkey spec cipher output k' false n bytes sb FC BC H64 FS) as (_ & B).
    destruct (B g EG) as (skips & SK & B'). destruct (B' kb HK) as (B'' & _).
    exists skips. split; [now right|]. eapply gives_up_ok; eauto.
  - assert (W : wired (fun _ => log_store) argv _ _) by (eapply wired_flut; [exact HI|exact C|repeat split; eauto using has|exact P|exact P1|exact P2|exact P3]).
    destruct (wired_v _ _ _ _ W) as (_ & v & HA & HM).
    destruct (C80_flut trace T Y v HW HB f bkey spec cipher (Some output) None k k1 k3 (Some k2) d false n bytes sb FC BC H64 FS) as (_ & B).
    destruct (B g EG) as (skips & SK & B' & _).
    exists skips. split; [now right|]. eapply gives_up_ok; eauto.
Qed.


(** ** Every run on ciphertexts *)
Theorem C82_exit argv c : main T Y spot f stdin coin argv = Ok (Runs c) -> owns_up trace T Y E f argv.
Proof.
  intros M. unfold main in M. apply bind_ok in M as (A & P & M).
  assert (K : exists talk : verbosity -> _, (forall v, dispatch_run trace T Y (fun _ => log_store) v f A = ([], Some (talk v))) /\ forall v, accountable Y trace v f (talk v)).
  { unfold dispatch in M. unfold dispatch_run.
    destruct (a_type A); try discriminate M; try (destruct (negb (one_output A)); [discriminate M|]);
      repeat (apply bind_ok in M as (? & ? & M)); try discriminate M;
      repeat match goal with H : value _ = Ok _ |- _ => rewrite H; clear H; cbn [bind] end;
      (eexists; split; [reflexivity|]; intros v; apply (C81_exit trace T Y v f)). }
  destruct K as (talk & D & AC). destruct (main_run_is (fun _ => log_store) argv A talk P D) as (v & HA & HM).
  exists (talk v), (visible v (header E argv)), v. split; [exact HM|]. split; [exact HA|].
  destruct (AC v) as (A1 & A2 & A3). split; [exact A1|]. intros r w O. destruct (A3 r w O) as (B1 & B2 & B3).
  assert (NH : no_error (visible v (header E argv))).
  { intros m HI. rewrite visible_filter in HI. apply filter_In in HI as (HI & _). unfold header in HI. apply in_map_iff in HI as (x & [= ] & _). }
  split; [|split].
  - intros X. destruct (B1 X) as (l & m & -> & NE). exists (visible v (header E argv) ++ l), m. split; [apply app_assoc|].
    intros m' HI. apply in_app_or in HI as [HI|HI]; [eapply NH|eapply NE]; eauto.
  - intros w' X m' HI. apply in_app_or in HI as [HI|HI]; [eapply NH|eapply B2]; eauto.
  - intros X s m HI. apply in_app_or in HI as [HI|HI]; [|eapply B3; eauto]. subst v.
    rewrite visible_filter in HI. apply filter_In in HI as (_ & HI). destruct s; [discriminate HI..|reflexivity].
Qed.
End Err.

(** * Concrete cases, with the files of PropsLog *)
Ltac ex_general := split; [repeat (apply Forall_cons; [auto|]); apply Forall_nil|repeat constructor; cbn; intuition discriminate].
Ltac ex_line g items := exists g, items; split; [ex_general|];
  split; [reflexivity|]; split; [apply Permutation_refl|]; split; [reflexivity|constructor].
Definition ex_common : list item := [Opt "--bkey" (lit "b"); Opt "--out" (lit "o"); Opt "--spec" (lit "s"); Opt "--in" (lit "c")].
Definition ex_argv (g : list text) (name : string) (items : list item) : list text := g ++ map lit ["run"%string; name] ++ MainSpec.words (ex_common ++ items).
Definition ex_reverse := ex_argv [lit "--verbose"] "reversed" [Opt "--out-freq" (lit "3"); Opt "--bootstrapping-freq" (lit "2"); Flag "--spec-reversed"].
Definition ex_offline g := ex_argv g "offline" [Opt "--bootstrapping-freq" (lit "2")].
Definition ex_block := ex_argv [] "bbs" [Opt "--out-freq" (lit "3"); Opt "--queue-size" (lit "2")].
Definition ex_flut := ex_argv [lit "--verbose"; lit "--quiet"] "flut"
  [Opt "--out-freq" (lit "3"); Opt "--queue-size" (lit "2"); Opt "--max-second-lut-depth" (lit "2"); Opt "--bootstrapping-freq" (lit "2")].
Example ex_words : ex_reverse = map lit ["--verbose"; "run"; "reversed"; "--bkey"; "b"; "--out"; "o"; "--spec"; "s"; "--in"; "c";
  "--out-freq"; "3"; "--bootstrapping-freq"; "2"; "--spec-reversed"]%string.
Proof. reflexivity. Qed.
Lemma ex_two : positive (lit "2") 2 /\ positive (lit "3") 3.
Proof. repeat split; lia. Qed.

Example C82_reverse_nonvacuous trace stdin coin : exists f2,
  reports trace ex_T ex_Y ex_spot ex_E ex_logf stdin coin ex_reverse
   (header ex_E ex_reverse ++
    [(Info, lit "Skip line ""# a comment""");
      (Info, lit "Parameter:"); shows "Mode" (lit "Online FA Runner2 (reversed)"); shows "Input size" (lit "3 (hidden)");
      shows "State size" (lit "3"); shows "Output file name" (lit "o");
      shows "Bootstrapping frequency" (lit "2"); shows "Sanitization" (lit "false"); (Info, []);
      (Debug, lit "Processing input 0"); (Debug, lit "Processing input 1"); (Debug, lit "Bootstrapping occurred"); (Debug, lit "Processing input 2")]) f2.
Proof.
  destruct ex_srv_file as (H1 & H2 & H3 & _ & H5 & _ & H7). destruct ex_logf_facts as (F1 & F2 & F3 & F4).
  destruct ex_from_file as (_ & WG & SG). destruct ex_two as (P2 & P3).
  destruct (C82_reverse trace ex_T ex_Y ex_spot ex_E ex_logf stdin coin H1 H2 ex_reverse "reversed" ["b"%char] ["o"%char] ["s"%char] ["c"%char] None (lit "3") 3 (lit "2") 2 true
    ex_g 3 (map N.of_nat (seq 200 24)) [8%N] true (map N_of_ascii (lit "# a comment" ++ c_nl :: PropsText.ex_spec2))) as (skips & k & f2 & SK & HS & L); auto; try (cbn; lia).
  - right. left. reflexivity.
  - ex_line [lit "--verbose"] (ex_common ++ [Opt "--out-freq" (lit "3"); Opt "--bootstrapping-freq" (lit "2"); Flag "--spec-reversed"]).
  - exists f2. apply ex_logf_skips in SK as ->. cbn in HS. subst k. rewrite SG in L. exact L.
Qed.
Example C82_offline_nonvacuous trace stdin coin : exists m W f2, smallest (accepts ex_g) m /\ (forall j, width m j (W j)) /\
  reports trace ex_T ex_Y ex_spot ex_E ex_logf stdin coin (ex_offline [])
    (header ex_E (ex_offline []) ++ offline_log [lit "# a comment"] 3 (size m) 2 (list_sum (map W (seq 0 3)))) f2.
Proof.
  destruct ex_srv_file as (H1 & H2 & H3 & _ & H5 & _ & H7). destruct ex_logf_facts as (F1 & F2 & F3 & F4).
  destruct ex_from_file as (_ & WG & SG). destruct ex_two as (P2 & P3).
  destruct (C82_offline trace ex_T ex_Y ex_spot ex_E ex_logf stdin coin H1 H2 (ex_offline []) ["b"%char] ["o"%char] ["s"%char] ["c"%char] None (lit "2") 2
    ex_g 3 (map N.of_nat (seq 200 24)) [8%N] true (map N_of_ascii (lit "# a comment" ++ c_nl :: PropsText.ex_spec2))) as (skips & m & W & f2 & SK & HS & HWd & L); auto; try (cbn; lia).
  - ex_line (@nil text) (ex_common ++ [Opt "--bootstrapping-freq" (lit "2")]).
  - exists m, W, f2. apply ex_logf_skips in SK as ->. auto.
Qed.
Example C82_block_nonvacuous trace stdin coin : exists f2,
  reports trace ex_T ex_Y ex_spot ex_E ex_logf stdin coin ex_block (header ex_E ex_block ++ block_log [lit "# a comment"] 3 3 2) f2.
Proof.
  destruct ex_srv_file as (H1 & H2 & H3 & _ & H5 & _ & H7). destruct ex_logf_facts as (F1 & F2 & F3 & F4).
  destruct ex_from_file as (_ & WG & SG). destruct ex_two as (P2 & P3).
  destruct (C82_block trace ex_T ex_Y ex_spot ex_E ex_logf stdin coin H1 H2 ex_block "bbs" ["b"%char] ["o"%char] ["s"%char] ["c"%char] None (lit "3") 3 (lit "2") 2
    ex_g 3 (map N.of_nat (seq 200 24)) [8%N] true (map N_of_ascii (lit "# a comment" ++ c_nl :: PropsText.ex_spec2))) as (skips & f2 & SK & L);
    auto; try (rewrite SG; cbn; lia); try (cbn; lia).
  - right. left. reflexivity.
  - ex_line (@nil text) (ex_common ++ [Opt "--out-freq" (lit "3"); Opt "--queue-size" (lit "2")]).
  - exists f2. apply ex_logf_skips in SK as ->. rewrite SG in L. exact L.
Qed.
(** Both flags: nothing is seen of a run that succeeds. *)
Example C82_flut_nonvacuous trace stdin coin : exists W f2, (forall j, width ex_g j (W j)) /\ asks ex_flut QUIET /\
  reports trace ex_T ex_Y ex_spot ex_E ex_logf stdin coin ex_flut
    (header ex_E ex_flut ++ flut_log [lit "# a comment"] 3 3 2 (ToFile ["o"%char]) 2 W 2 (asked None 0 (repeat tt 3))) f2.
Proof.
  destruct ex_srv_file as (H1 & H2 & H3 & _ & H5 & _ & H7). destruct ex_logf_facts as (F1 & F2 & F3 & F4).
  destruct ex_from_file as (_ & WG & SG). destruct ex_two as (P2 & P3).
  destruct (C82_flut trace ex_T ex_Y ex_spot ex_E ex_logf stdin coin H1 H2 ex_flut "flut" ["b"%char] ["o"%char] ["s"%char] ["c"%char] (lit "3") 3 (lit "2") 2 (lit "2") 2 (lit "2") 2
    ex_g 3 (map N.of_nat (seq 200 24)) [8%N] (map N_of_ascii (lit "# a comment" ++ c_nl :: PropsText.ex_spec2)))
    as (skips & W & f2 & SK & HWd & L); auto; try (cbn; lia).
  - left. reflexivity.
  - ex_line [lit "--verbose"; lit "--quiet"] (ex_common ++
      [Opt "--out-freq" (lit "3"); Opt "--queue-size" (lit "2"); Opt "--max-second-lut-depth" (lit "2"); Opt "--bootstrapping-freq" (lit "2")]).
  - apply FlutFacts.depth_fits. cbn. lia.
  - intros (m & k & _ & HWk & HK). destruct (reach_exists ex_g m) as [l HR].
    rewrite (width_unique _ _ _ _ HWk (reach_width _ WG _ _ HR)) in HK.
    pose proof (reach_len _ WG _ _ HR) as HL. rewrite SG in HL. cbn in HK. lia.
  - exists W, f2. split; [exact HWd|]. split.
    + constructor. exists [lit "--verbose"; lit "--quiet"], (skipn 2 ex_flut).
      split; [ex_general|]. split; [reflexivity|right; left; reflexivity].
    + apply ex_logf_skips in SK as ->. rewrite SG in L. exact L.
Qed.
(** With --quiet and a file that is no key, this is all that is on the standard error. *)
Example C82_bad_key_nonvacuous trace stdin coin : asks (ex_offline [lit "--quiet"]) QUIET /\
  exists skips, gives_up trace ex_T ex_Y ex_spot ex_E ex_badkey stdin coin (ex_offline [lit "--quiet"])
    (header ex_E (ex_offline [lit "--quiet"]) ++ map skip_line skips ++ error trace (lit "Invalid archive: b")) /\
    visible QUIET (header ex_E (ex_offline [lit "--quiet"]) ++ map skip_line skips ++ error trace (lit "Invalid archive: b")) =
    error trace (lit "Invalid archive: b").
Proof.
  assert (Q : general [lit "--quiet"]) by ex_general.
  split. { constructor. exists [lit "--quiet"], (skipn 1 (ex_offline [lit "--quiet"])). split; [exact Q|]. split; [reflexivity|left; reflexivity]. }
  destruct ex_srv_file as (H1 & H2 & H3 & _ & H5 & _ & H7). destruct ex_two as (P2 & P3).
  assert (B : ex_badkey ["b"%char] = Some [9%N] /\ c_read_bkey ex_T ex_Y [9%N] = None /\ ex_badkey ["c"%char] = Some (map N.of_nat (seq 200 24)) /\
    from_file ex_badkey ["s"%char] = Ok ex_g) by (repeat split; vm_compute; reflexivity).
  destruct B as (B1 & B2 & B3 & B4).
  assert (B5 : exists sb, ex_badkey ["s"%char] = Some sb) by (eexists; reflexivity). destruct B5 as (sb & B5).
  destruct (C82_bad_key trace ex_T ex_Y ex_spot ex_E ex_badkey stdin coin H1 H2 (ex_offline [lit "--quiet"]) ["b"%char] ["o"%char] ["s"%char] ["c"%char]
    [9%N] sb ex_g 3 (map N.of_nat (seq 200 24))) as (skips & _ & G); auto.
  - eapply (line_offline _ _ _ _ _ _ None); [exact P2|exact I|].
    ex_line [lit "--quiet"] (ex_common ++ [Opt "--bootstrapping-freq" (lit "2")]).
  - exists skips. split; [exact G|]. rewrite !visible_app. replace (visible QUIET (map skip_line skips)) with (@nil message); [reflexivity|].
    clear. induction skips as [|l skips IH]; [reflexivity|exact IH].
Qed.
Example C82_exit_nonvacuous trace stdin coin : exists c, main ex_T ex_Y ex_spot ex_badkey stdin coin (ex_offline [lit "--quiet"]) = Ok (Runs c) /\
  owns_up trace ex_T ex_Y ex_E ex_badkey (ex_offline [lit "--quiet"]).
Proof.
  destruct (C82_bad_key_nonvacuous trace stdin coin) as (_ & skips & (c & talk & before & v & M & _) & _). exists c. split; [exact M|].
  eapply C82_exit. exact M.
Qed.

Print Assumptions C82_offline.
Print Assumptions C82_reverse.
Print Assumptions C82_flut.
Print Assumptions C82_block.
Print Assumptions C82_bad_key.
Print Assumptions C82_exit.
