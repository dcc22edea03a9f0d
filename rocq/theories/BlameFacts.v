(** Proofs about the errors in the logs of the run commands. *)
From Coq Require Import String.
From Coq Require Import List Arith Bool NArith ZArith Ascii Lia.
Import ListNotations.
From Verif Require Import Base BaseFacts GraphModel Spec TextModel TextSpec TextFacts BitsModel TorusModel
  RunnerModel ParModel StreamModel ClientModel CmdModel CmdSpec CmdFacts MsgModel MsgSpec MsgFacts SayFacts LogModel LogSpec LogFacts RefuseSpec RefuseFacts BlameSpec.
From Verif Require Import DotModel.
From Verif Require PropsMsg.
Local Open Scope list_scope.

(** ** Tasks and outcomes that never exit *)
Fixpoint peaceful {V} (p : prog V) : Prop :=
  match p with Done => True | Throw f => f <> FExit | Rd _ k => forall v, peaceful (k v) | Wr _ _ k => peaceful k end.
Lemma peaceful_steps {V} (c c' : list (prog V) * mem V) : ParModel.steps c c' -> Forall peaceful (fst c) -> Forall peaceful (fst c').
Proof.
  induction 1 as [c|c c' c'' S _ IH]; [auto|]. intros H. apply IH. clear IH. destruct S as [l p r m p' m' A]. cbn [fst] in *.
  apply Forall_app in H as [H1 H2]. inversion H2 as [|? ? H3 H4]; subst. apply Forall_app. split; [exact H1|]. constructor; [|exact H4].
  destruct A; cbn in H3; auto.
Qed.
Definition oexit {X} (o : outcomes X) : Prop := ~ o (Fail FExit).
Lemma oe_det {X} (m : res X) : noexit m -> oexit (det m).
Proof. intros H E. apply H. symmetry. exact E. Qed.
Lemma oe_bind {A B} (m : outcomes A) (k : A -> outcomes B) : oexit m -> (forall a, m (Ok a) -> oexit (k a)) -> oexit (obind m k).
Proof. intros H1 H2 ([a|e] & Hx & E); [exact (H2 a Hx E)|]. injection E as <-. exact (H1 Hx). Qed.
Lemma oe_foldS {A S} (f : S -> A -> outcomes S) l : (forall s a, oexit (f s a)) -> forall s, oexit (foldS f l s).
Proof. intros H. induction l as [|a l IH]; intros s; cbn [foldS]; [apply oe_det, ne_ok|]. apply oe_bind; auto. Qed.
Lemma peaceful_region {V} (ps : list (prog V)) m ps' m' : Forall peaceful ps -> region ps m ps' m' -> ~ In (Throw FExit) ps'.
Proof.
  intros H [S _] HI. pose proof (peaceful_steps _ _ S H) as P. cbn [fst] in P. rewrite Forall_forall in P. apply (P _ HI). reflexivity.
Qed.
Lemma oe_par T {J} o targets (task : J -> nat -> prog (cell T)) ctx out : (forall j q, peaceful (task j q)) -> oexit (par_any T o targets task ctx out).
Proof.
  intros H (m & junk & ps' & m' & _ & _ & R & HI). eapply peaceful_region; [|exact R|exact HI].
  apply Forall_forall. intros p HP. apply in_map_iff in HP as (q & <- & _). apply H.
Qed.
Lemma pf_lift {V A} (r : res A) (k : A -> prog V) : noexit r -> (forall a, peaceful (k a)) -> peaceful (lift r k).
Proof. intros H1 H2. destruct r as [a|e]; cbn; auto. intros ->. now apply H1. Qed.
Lemma pf_reads {V} srcs (k : prog V) : peaceful k -> peaceful (reads srcs k).
Proof. intros H. induction srcs; cbn; auto. Qed.
Lemma pf_busy {V} srcs dst junk (k : prog V) : peaceful k -> peaceful (busy srcs dst junk k).
Proof. intros H. induction junk; cbn; auto. apply pf_reads. exact IHjunk. Qed.
Lemma pf_fill T srcs dst junk v k : peaceful k -> peaceful (fill T srcs dst junk v k).
Proof. intros H. apply pf_busy. exact H. Qed.
Lemma pf_ref T b n i k : (forall a, peaceful (k a)) -> peaceful (ref T b n i k).
Proof. intros H. unfold ref. destruct (i <? n); [apply H|discriminate]. Qed.
Lemma pf_rlwe T a k : (forall c, peaceful (k c)) -> peaceful (rd_rlwe T a k).
Proof. intros H v. destruct v; [apply H|discriminate|discriminate]. Qed.
Lemma pf_lwe T a k : (forall c, peaceful (k c)) -> peaceful (rd_lwe T a k).
Proof. intros H v. destruct v; [discriminate|apply H|discriminate]. Qed.
Ltac pf := repeat match goal with
  | |- forall _, _ => intro
  | |- peaceful Done => exact I
  | |- peaceful (Throw _) => discriminate
  | |- peaceful (lift _ _) => apply pf_lift; [ne; try apply ne_mult|]
  | |- peaceful (ref _ _ _ _ _) => apply pf_ref
  | |- peaceful (rd_rlwe _ _ _) => apply pf_rlwe
  | |- peaceful (rd_lwe _ _ _) => apply pf_lwe
  | |- peaceful (fill _ _ _ _ _ _) => apply pf_fill
  | |- peaceful (if ?b then _ else _) => destruct b
  end.
Ltac oe := repeat match goal with
  | |- forall _, _ => intro
  | |- oexit (det _) => apply oe_det; ne
  | |- oexit (obind _ _) => apply oe_bind
  | |- oexit (par_any _ _ _ _ _ _) => apply oe_par
  | |- oexit (foldS _ _ _) => apply oe_foldS
  | |- oexit (let _ := _ in _) => cbv zeta
  | |- oexit (match ?x with _ => _ end) => destruct x
  end.

Section Runners.
Context (trace : text) (T : tfhe).
Lemma pf_entry g memo idx nn first nw nt junk i work : peaceful (entry_task T g memo idx nn first nw nt junk i work).
Proof. induction work as [|[st i2] work IH]; cbn [entry_task]; pf. exact IH. Qed.
Lemma oe_lookup_levels inputs : forall table tmp timer, oexit (lookup_levels_any T inputs table tmp timer).
Proof.
  induction inputs as [|it rest IH]; intros; cbn [lookup_levels_any]; oe; [|apply IH].
  unfold lookup_level_any. oe. unfold lookup_task. pf.
Qed.
Lemma oe_lookup_timer table inputs ws timer : oexit (lookup_table_with_timer_any T table inputs ws timer).
Proof. unfold lookup_table_with_timer_any. oe. apply oe_lookup_levels. Qed.
Lemma oe_lookup table inputs ws : oexit (lookup_table_any T table inputs ws).
Proof. unfold lookup_table_any. oe. apply oe_lookup_timer. Qed.
Lemma oe_back s c : oexit (backstream_eval_any T s c).
Proof.
  unfold backstream_eval_any. cbv zeta. oe.
  - unfold states_at_depth. ne.
  - unfold cmux_task. pf.
  - unfold bootstrap_weight_any. oe. unfold bootstrap_task. pf.
Qed.
Lemma ne_back_result s : noexit (backstream_result T s).
Proof. unfold backstream_result. ne. Qed.
Lemma oe_reverse_ask s : oexit (reverse_ask_any T s).
Proof. unfold reverse_ask_any, online2_result. oe. apply ne_back_result. Qed.
Lemma ne_track g l d : noexit (track_live_states g l d).
Proof.
  unfold track_live_states. match goal with |- noexit (live_levels _ _ ?a ?b) => generalize a b end.
  induction d as [|d IH]; intros a b; cbn [live_levels]; ne. unfold live_step. ne. apply IH.
Qed.
Lemma oe_block_queued s : oexit (block_eval_queued_any T s).
Proof.
  unfold block_eval_queued_any. cbv zeta. oe.
  - apply ne_track.
  - unfold block_index. ne.
  - unfold block_init_weight. ne; try apply ne_mult.
  - unfold block_propagate_any. oe. unfold cmux_task. pf.
  - intros (m & j1 & j2 & ps1 & m1 & ps2 & m2 & _ & R1 & R2 & HI). apply in_app_or in HI as [HI|HI].
    + eapply peaceful_region; [|exact R1|exact HI]. apply Forall_forall. intros pr HP. apply in_map_iff in HP as (qi & <- & _). unfold extract_task. pf.
    + eapply peaceful_region; [|exact R2|exact HI]. apply Forall_forall. intros pr HP. apply in_map_iff in HP as (qi & <- & _). unfold cb_task. pf.
  - apply oe_lookup_timer.
Qed.
Lemma oe_block_one s c : oexit (block_eval_one_any T s c).
Proof. unfold block_eval_one_any. oe. apply oe_block_queued. Qed.
Lemma oe_block_result s : oexit (block_result_any T s).
Proof. unfold block_result_any. oe. apply oe_block_queued. Qed.
End Runners.

Definition blamed (trace : text) (l : list message) : Prop := exists before m, l = before ++ error trace m /\ no_error before.
Lemma no_error_nil : no_error []. Proof. intros m []. Qed.
Lemma no_error_app a b : no_error a -> no_error b -> no_error (a ++ b).
Proof. intros A B m H. apply in_app_or in H as [H|H]; [eapply A|eapply B]; eauto. Qed.
Lemma no_error_cons s t l : s <> Err -> no_error l -> no_error ((s, t) :: l).
Proof. intros A B m [H|H]; [injection H; auto|eapply B; eauto]. Qed.
Lemma no_error_visible v l : no_error l -> no_error (visible v l).
Proof. intros H m HI. rewrite visible_filter in HI. apply filter_In in HI as [HI _]. eapply H; eauto. Qed.
Lemma visible_error v trace m : visible v (error trace m) = error trace m.
Proof. destruct v; reflexivity. Qed.
Lemma blamed_app trace v a b : no_error a -> blamed trace b -> blamed trace (a ++ visible v b).
Proof.
  intros A (l & m & -> & H). exists (a ++ visible v l), m. rewrite visible_app, visible_error, app_assoc. split; [reflexivity|].
  apply no_error_app; [exact A|now apply no_error_visible].
Qed.
Ltac calm := repeat first [apply no_error_nil | apply no_error_cons; [discriminate|] | apply no_error_app].

(** What is said before the computation [o] fits its outcome. *)
Definition fits {X} (trace : text) (ms : list message) (o : outcomes X) : Prop :=
  (o (Fail FExit) -> blamed trace ms) /\ (forall x, o (Ok x) -> no_error ms).
Lemma fits_calm {X} trace ms (o : outcomes X) : no_error ms -> oexit o -> fits trace ms o.
Proof. intros A B. split; [intros H; contradiction|auto]. Qed.

Lemma fits_ok {X Z} trace ms (m : res X) a (k : X -> outcomes Z) : m = Ok a -> fits trace ms (k a) -> fits trace ms (obind (det m) k).
Proof.
  intros -> [A B]. split.
  - intros (x & -> & H). apply A, H.
  - intros y (x & -> & H). apply (B y), H.
Qed.
Lemma fits_fail {X Z} trace ms (m : res X) e (k : X -> outcomes Z) : m = Fail e -> noexit m -> no_error ms -> fits trace ms (obind (det m) k).
Proof.
  intros -> N C. apply fits_calm; [exact C|]. apply oe_bind; [now apply oe_det|]. intros a H. discriminate.
Qed.

Section Flut.
Context (trace : text) (T : tfhe).
Lemma fits_queued s : fits trace (flut_messages trace T s (length (f_queue T s))) (flut_eval_queued_any T s).
Proof.
  unfold flut_eval_queued_any, flut_messages. cbv zeta. destruct (_ =? 0); [apply fits_calm; [calm|oe]|].
  destruct (31 <=? _); [apply fits_calm; [calm|oe]|].
  destruct (at_ (f_memo T s) _) as [memo|e] eqn:E1; cbn [bind].
  2:{ apply (fits_fail _ _ _ e); [reflexivity|rewrite <- E1; ne|calm]. }
  apply (fits_ok _ _ _ memo); [reflexivity|].
  destruct (flut_next_live _ memo _ _) as [next|e] eqn:E2; cbn [bind].
  2:{ apply (fits_fail _ _ _ e); [reflexivity|rewrite <- E2; unfold flut_next_live; ne|calm]. }
  apply (fits_ok _ _ _ next); [reflexivity|].
  destruct (flut_st2idx _ next) as [idx|e] eqn:E3; cbn [bind].
  2:{ apply (fits_fail _ _ _ e); [reflexivity|rewrite <- E3; unfold flut_st2idx; ne|calm]. }
  apply (fits_ok _ _ _ idx); [reflexivity|].
  destruct (32 <=? _); [apply fits_calm; [calm|oe]|].
  destruct (if f_max T s =? 31 then _ else _).
  - split; [|discriminate]. intros _. eexists [_; _], _. split; [reflexivity|]. calm.
  - apply fits_calm; [calm|]. oe.
    + apply pf_entry.
    + apply oe_lookup.
    + unfold rotate_task. pf.
    + apply oe_lookup.
    + unfold refresh_task. pf.
Qed.
Lemma fits_one s c : fits trace (flut_feed_messages trace T s) (flut_eval_one_any T s c).
Proof.
  unfold flut_feed_messages, flut_eval_one_any. cbv zeta. cbn [f_queue f_qsize]. rewrite app_length. cbn [length]. rewrite Nat.add_1_r.
  destruct (_ <? _); [apply fits_calm; [calm|oe]|].
  match goal with |- fits _ _ (flut_eval_queued_any T ?s') => pose proof (fits_queued s') as F end.
  cbn [f_queue] in F. rewrite app_length in F. cbn [length] in F. rewrite Nat.add_1_r in F. exact F.
Qed.
Lemma fits_result s : fits trace (flut_ask_messages trace T s) (flut_result_any T s).
Proof.
  destruct (fits_queued s) as [A B]. unfold flut_ask_messages, flut_result_any. split.
  - intros ([s'|e] & H1 & H2).
    + exfalso. revert H2. apply oe_det. ne.
    + injection H2 as <-. apply A, H1.
  - intros x ([s'|e] & H1 & H2); [|discriminate]. apply (B s'), H1.
Qed.
End Flut.

(** ** Files *)
Lemma skips_calm ls ns : skips ls ns -> no_error (map as_message ns).
Proof. induction 1; cbn [map]; auto using no_error_nil. apply no_error_cons; [discriminate|auto]. Qed.
Lemma fits_file trace f p : fits trace (file_messages trace f p) (det (from_file f p)).
Proof.
  unfold file_messages, from_file_said, from_file, open_file. destruct (f p) as [b|]; cbn [bind]; [|split; discriminate].
  set (t := map ascii_of_N b). pose proof (PropsMsg.C78_exit trace t) as (_ & NE & _).
  pose proof (lines_of_getlines t) as HL. set (ls := getlines c_nl [] t) in *.
  destruct (lines_cases ls 0) as [(rows & HR)|(pre & l & post & rows & c & E & HR & B)].
  - destruct (skips_ex ls) as (ns & HS). rewrite (file_good trace _ ls rows ns HL HR HS) in *. cbn [fst] in *.
    split; [|intros; eapply skips_calm; eauto].
    intros H. exfalso. destruct (NE (eq_sym H)) as (m & G).
    assert (Q : forall l ns, skips l ns -> shown true ns = []) by (induction 1; auto). rewrite (Q _ _ HS) in G. discriminate.
  - destruct (skips_ex pre) as (ns & HS). rewrite E in HL. pose proof (file_bad trace _ pre l post rows c ns HL HR HS B) as HB.
    rewrite <- (from_istream_same trace), HB. destruct c as [m|]; cbn [complains fst snd].
    + split; [|discriminate]. intros _. exists (map as_message ns), m. split; [rewrite map_app; reflexivity|eapply skips_calm; eauto].
    + split; discriminate.
Qed.
Lemma fits_archive {A} trace p (r : res A) : fits trace (archive_messages trace p r) (det r).
Proof.
  split.
  - intros <-. cbn [archive_messages]. exists [], (lit "Invalid archive: " ++ p). split; [reflexivity|apply no_error_nil].
  - intros x <-. apply no_error_nil.
Qed.

(** ** Commands *)
Section Commands.
Context (trace : text) (v : verbosity) (B : world -> Prop).   (* [B]: the error has been reported *)
(** every way to report an error will do *)
Definition any_blame : Prop := forall l f, blamed trace l -> B (l, f).
Definition seen_at (l : list message) : Prop := Forall (fun m => enabled v (fst m) = true) l.
Fixpoint honest (p : client world) (w : world) : Prop :=
  match p with
  | PRet r => match r with Ok _ => no_error (fst w) | Fail e => e = FExit -> B w end
  | PSize k => forall n, honest (k n) w
  | PNext k => forall c, honest (k c) w
  | PAny o k => (o (Fail FExit) -> B w) /\ forall x, o (Ok x) -> honest (k x) w
  | PFiles t r q => (forall d, t d -> fst d = fst w) /\ (seen_at (fst w) -> seen_at (fst r)) /\ honest q r
  end.

Lemma step_ne kd words t s r : StreamModel.step kd words t s = Some r -> noexit r.
Proof.
  destruct t; cbn [StreamModel.step].
  - destruct (s_prog s) as [|o rest]; [discriminate|]. intros E.
    destruct o; cbn [cstep] in E; try (destruct (s_run s) as [[|? ?]|]); try discriminate E; injection E as <-;
      unfold StreamModel.quiet, start; ne.
  - destruct (s_run s) as [[|o os]|]; try discriminate. intros E. injection E as <-. unfold wstep. ne. unfold load_double. ne.
Qed.
Lemma open_ne kd words bytes junk : open_stream kd words bytes junk [] <> Fail FExit.
Proof. change (noexit (open_stream kd words bytes junk [])). unfold open_stream, tell, start. ne. Qed.

Definition clean (c : control world) (w : world) : Prop :=
  match c with
  | Run p => honest p w
  | InSize k => forall n, honest (k n) w
  | InNext k => forall c, honest (k c) w
  | Over r => (r = Fail FExit -> B w) /\ (forall w', r = Ok w' -> no_error (fst w))
  end.
Lemma honest_run kd words s p w t r w' : honest p w -> seen_at (fst w) ->
  fmoves_to kd words ((s, Run p), w) ((t, Over r), w') ->
  (r = Fail FExit -> B w') /\ (forall w2, r = Ok w2 -> no_error (fst w')) /\ seen_at (fst w').
Proof.
  intros H S M.
  assert (K : forall z, fmoves_to kd words ((s, Run p), w) z -> clean (snd (fst z)) (snd z) /\ seen_at (fst (snd z))).
  { clear M. intros z M. remember ((s, Run p), w) as z0 eqn:E0. induction M as [z|z y z' M' IH N].
    - subst z. cbn [fst snd clean]. auto.
    - specialize (IH E0). clear E0 M'. revert IH. destruct N as [s' t0 w0 q d1 d2 TD|s' t0 w0 q d1|x1 y1 d1 MV NF]; cbn [fst snd clean honest].
      + intros ((A & A' & C) & D). rewrite (A d2 TD). auto.
      + intros ((A & A' & C) & D). auto.
      + intros (G & D). split; [|exact D]. revert G NF.
        destruct MV as [s1 s1' c N1 ST|s1 e c N1 ST|s1 k|s1 k|s1 s1' k ST|s1 e k ST|s1 s1' k ST|s1 e k ST|s1 k out n _ _|s1 k out c _ _
                       |X s1 o k x O|X s1 o k e O|s1 t1 r1 q1|s1 r1]; cbn [fst snd clean honest]; intros G NF; auto.
        * split; [|discriminate]. intros [= ->]. exfalso. exact (step_ne _ _ _ _ _ ST eq_refl).
        * split; [|discriminate]. intros [= ->]. exfalso. exact (step_ne _ _ _ _ _ ST eq_refl).
        * split; [|discriminate]. intros [= ->]. exfalso. exact (step_ne _ _ _ _ _ ST eq_refl).
        * apply (proj2 G). exact O.
        * split; [|discriminate]. intros [= ->]. apply (proj1 G). exact O.
        * exfalso. eapply NF; reflexivity.
        * destruct r1 as [w2|e]; (split; [|]).
          -- discriminate.
          -- intros w3 _. exact G.
          -- intros [= ->]. apply G. reflexivity.
          -- discriminate. }
  destruct (K _ M) as ((A & A') & C). cbn [fst snd] in *. auto.
Qed.

Lemma seen_says ms l : seen_at l -> seen_at (l ++ visible v ms).
Proof.
  intros H. apply Forall_app. split; [exact H|]. rewrite visible_filter. apply Forall_forall. intros m HI. apply filter_In in HI. tauto.
Qed.
Lemma honest_says ms : forall w k, honest (k (fst w ++ visible v ms, snd w)) (fst w ++ visible v ms, snd w) -> honest (log_says v w ms k) w.
Proof.
  induction ms as [|m ms IH]; intros w k H; cbn [log_says].
  - rewrite visible_nil in H. rewrite app_nil_r in H. destruct w. exact H.
  - rewrite visible_filter in H. cbn [filter] in H. destruct (enabled v (fst m)) eqn:EM.
    + cbn [honest fst]. split; [intros d []|]. split.
      * intros S. apply Forall_app. split; [exact S|]. repeat constructor. exact EM.
      * apply (IH (fst w ++ [m], snd w)). cbn [fst snd]. rewrite visible_filter, <- app_assoc. exact H.
    + apply IH. rewrite visible_filter. exact H.
Qed.
(** messages and the computation they belong to *)
Lemma honest_fits {X} ms (o : outcomes X) (k : world -> X -> client world) w : no_error (fst w) -> (o (Fail FExit) -> any_blame) -> fits trace ms o ->
  (forall x w', o (Ok x) -> no_error (fst w') -> honest (k w' x) w') ->
  honest (log_says v w ms (fun w => PAny o (k w))) w.
Proof.
  intros N HB [A A'] H. apply honest_says. cbn [honest]. split.
  - intros O. apply (HB O), blamed_app; auto.
  - intros x O. apply (H x (fst w ++ visible v ms, snd w) O). cbn [fst]. apply no_error_app; [exact N|]. apply no_error_visible. eapply A'; eauto.
Qed.
Lemma honest_any {X} (o : outcomes X) k l : oexit o -> (forall x, o (Ok x) -> honest (k x) l) -> honest (PAny o k) l.
Proof. intros A A'. split; [intros H; contradiction|exact A']. Qed.
Lemma honest_det {X} (m : res X) k l : noexit m -> (forall x, m = Ok x -> honest (k x) l) -> honest (pdet m k) l.
Proof. intros A A'. apply honest_any; [now apply oe_det|]. intros x H. apply A'. symmetry. exact H. Qed.
Lemma honest_calm ms k w : no_error (fst w) -> no_error ms -> (forall w', no_error (fst w') -> honest (k w') w') ->
  honest (log_says v w ms k) w.
Proof.
  intros N M H. apply honest_says. apply (H (_, snd w)). cbn [fst]. apply no_error_app; [exact N|now apply no_error_visible].
Qed.
(** a way to store a result in one of the files [P] that reports its errors *)
Definition reports_errors (P : text -> list N -> Prop) (store : world -> text -> list N -> (world -> client world) -> client world) : Prop :=
  forall w p b k, P p b -> no_error (fst w) -> (forall w', no_error (fst w') -> honest (k w') w') -> honest (store w p b k) w.
Lemma store_reports P : reports_errors P log_store.
Proof. intros w p b k _ N H. unfold log_store. cbn [honest fst]. split; [intros d []; auto|]. split; auto. Qed.

Section Loop.
Context (store : world -> text -> list N -> (world -> client world) -> client world).
Context (P : text -> list N -> Prop).
Hypothesis HS : reports_errors P store.
Context (T : tfhe) (Y : crypto T) {St : Type} (feed : St -> trgsw T -> outcomes St) (ask : St -> outcomes (list Z * St)) (feed_ms ask_ms : St -> list message).
Hypothesis HF : forall s c, fits trace (feed_ms s) (feed s c).
Hypothesis HA : forall s, fits trace (ask_ms s) (ask s).
Hypothesis HFB : forall s c, feed s c (Fail FExit) -> any_blame.
Hypothesis HAB : forall s, ask s (Fail FExit) -> any_blame.
Context (input : text) (dir : option text) (freq : nat).
Hypothesis HD : forall d n c, dir = Some d -> P (report_file d n) (archive_tlwe (t_n1 T) c).
Lemma honest_last out n s w : (forall o c, out = Some o -> P o (archive_tlwe (t_n1 T) c)) -> no_error (fst w) -> honest (last_output_log T store (log_says v) ask ask_ms dir out n s w) w.
Proof.
  intros HO N. unfold last_output_log. apply (honest_fits _ _ (fun w x => _)); [exact N|apply HAB|apply HA|].
  intros [c t] w' O N'. destruct out as [o|]; [|destruct dir as [d|]; [|discriminate]]; [|rewrite report_path]; apply HS; auto.
Qed.
Lemma honest_loop finish : (forall s w, no_error (fst w) -> honest (finish s w) w) ->
  forall fuel i s w, no_error (fst w) ->
  honest (monitor_loop_log T Y store (log_says v) feed ask feed_ms ask_ms input dir freq finish fuel i s w) w.
Proof.
  intros HFin. induction fuel as [|fuel IH]; intros i s w N; cbn [monitor_loop_log honest]; intros n; destruct (n =? 0); auto.
  - cbn [honest]. discriminate.
  - apply honest_calm; [exact N|calm|]. intros w1 N1 c. apply (honest_fits _ _ (fun w x => _)); [exact N1|apply HFB|apply HF|].
    intros t w2 O N2. destruct dir as [d|]; [|auto]. destruct (freq =? 0); [cbn [honest]; discriminate|]. destruct (_ =? freq - 1); [|auto].
    apply (honest_fits _ _ (fun w x => _)); [exact N2|apply HAB|apply HA|]. intros [c1 t1] w3 O3 N3.
    destruct (path_eqb _ _); [cbn [honest]; discriminate|]. rewrite report_path. apply HS; auto.
Qed.
End Loop.

(** ** The four commands, with a way to store results that reports its errors *)
Section Runs.
Context (store : world -> text -> list N -> (world -> client world) -> client world).
Context (P : text -> list N -> Prop) (T : tfhe) (Y : crypto T).
Hypothesis HS : reports_errors P store.
Lemma fits_sanitize {X} (m : res X) : fits trace (sanitize_messages trace m) (det m).
Proof.
  split.
  - intros <-. exists [], (lit "Sanitization of results is not implemented"). split; [reflexivity|apply no_error_nil].
  - intros x <-. apply no_error_nil.
Qed.
Lemma fits_back s c : fits trace (back_messages s) (backstream_eval_any T s c).
Proof. apply fits_calm; [|apply oe_back]. unfold back_messages. destruct (_ =? 0); calm. Qed.
Lemma ne_levels g d : forall sts acc, noexit (sad_levels g d sts acc).
Proof. induction d as [|d IH]; intros sts acc; cbn [sad_levels]; ne; try apply IH; unfold sad_collect, sad_mark; ne. Qed.
Lemma ne_backstream_new g i n e : noexit (backstream_new T g i n e false).
Proof. unfold backstream_new, assert_. destruct e; [|discriminate]. ne; try (unfold reserve_states_at_depth; ne; apply ne_levels); unfold is_final_state; ne. Qed.
Lemma ne_online2_new g i b e : noexit (online2_new T g i b e false).
Proof. unfold online2_new. ne; try apply ne_minimized; try apply ne_reversed; apply ne_backstream_new. Qed.
Ltac file HB := apply (honest_fits _ _ (fun w x => _)); [auto|intros HX; apply HB; symmetry; exact HX|apply fits_file|].
Ltac key HB := apply (honest_fits _ _ (fun w x => _)); [auto|intros HX; apply HB; symmetry; exact HX|apply fits_archive|].
Ltac out := intros; match goal with H : Some _ = Some _ |- _ => injection H as <- end; auto.

Context (f : fs) (spec bkey : text) (sanitize : bool).
Hypothesis HK : read_bkey T Y f bkey = Fail FExit -> any_blame.
Hypothesis HG : from_file f spec = Fail FExit -> any_blame.
Hypothesis HZ : sanitize = true -> any_blame.
Definition body_of (c : res (@talking world)) (w : world) : Prop := match c with Ok (_, _, body) => honest body w | Fail e => e <> FExit end.

Lemma honest_offline w input output interval : (forall c, P output (archive_tlwe (t_n1 T) c)) -> no_error (fst w) ->
  body_of (do_run_offline_log trace T Y store (log_says v) f w spec input output interval bkey sanitize) w.
Proof.
  intros HO N. cbn [body_of do_run_offline_log]. key HK. clear w N. intros [ekey ik] w _ N.
  apply (honest_fits _ _ (fun w x => _)); [exact N| | |].
  { intros HX. apply HG. destruct (from_file f spec) as [g|e] eqn:EG; cbn [bind] in HX.
    - exfalso. apply (ne_minimized g). symmetry. exact HX.
    - symmetry. exact HX. }
  { destruct (fits_file trace f spec) as [A A']. split.
    - intros H. destruct (from_file f spec) as [g|e] eqn:EG; cbn [bind] in H.
      + exfalso. apply (ne_minimized g). symmetry. exact H.
      + apply A. exact H.
    - intros x H. destruct (from_file f spec) as [g|e] eqn:EG; [|discriminate]. apply (A' g). reflexivity. }
  clear w N. intros g w _ N. intros n. apply (honest_fits _ _ (fun w x => _)); [exact N| |apply fits_sanitize|].
  { intros HX. apply HZ. destruct sanitize; [reflexivity|]. exfalso. eapply ne_backstream_new. symmetry. exact HX. }
  clear w N. intros r w _ N. intros n'. apply honest_calm; [exact N|calm|].
  clear w N. intros w N. apply honest_det; [ne; unfold states_at_depth; ne|]. intros dl _. apply honest_calm; [exact N|calm|].
  clear w N. intros w N k.
  enough (L : forall k r w, no_error (fst w) -> honest (offline_loop_log T Y (log_says v) k r w (fun r w =>
     pdet (offline_result T r) (fun c => store w output (archive_tlwe (t_n1 T) c) (fun w => PRet (Ok w))))) w) by (apply L; exact N).
  clear k w N r n'. induction k as [|k IH]; intros r w N; cbn [offline_loop_log].
  - apply honest_det; [apply ne_back_result|]. intros c _. apply HS; auto.
  - intros c. apply (honest_fits _ _ (fun w x => _)); [exact N|intros HX; exfalso; eapply oe_back; exact HX|apply fits_back|].
    intros x w' _ N'. apply IH. exact N'.
Qed.
Lemma honest_reverse w input output dir freq interval spec_reversed :
  (forall o c, output = Some o -> P o (archive_tlwe (t_n1 T) c)) -> (forall d n c, dir = Some d -> P (report_file d n) (archive_tlwe (t_n1 T) c)) -> no_error (fst w) ->
  body_of (do_run_reverse_log trace T Y store (log_says v) f w spec input output dir freq interval spec_reversed bkey sanitize) w.
Proof.
  intros HO HD N. unfold do_run_reverse_log, assert_. destruct (match output with Some _ => _ | None => _ end); cbn [body_of]; [|discriminate].
  key HK. clear w N. intros [ekey ik] w _ N. file HG. clear w N. intros g w _ N.
  apply (honest_fits _ _ (fun w x => _)); [exact N| |apply fits_sanitize|].
  { intros HX. apply HZ. destruct sanitize; [reflexivity|]. exfalso. eapply ne_online2_new. symmetry. exact HX. }
  clear w N. intros r w _ N. intros n. apply honest_calm; [exact N| |].
  { apply no_error_app; [|apply no_error_app]; [|unfold output_params; destruct output, dir; cbn [app]|]; calm. }
  clear w N. intros w N h.
  assert (AF : forall s, fits trace [] (reverse_ask_any T s)) by (intros s; apply fits_calm; [calm|apply oe_reverse_ask]).
  assert (AB : forall s, reverse_ask_any T s (Fail FExit) -> any_blame) by (intros s HX; exfalso; eapply oe_reverse_ask; exact HX).
  apply honest_loop with (P := P); auto.
  - intros s c. apply fits_back.
  - intros s c HX. exfalso. eapply oe_back. exact HX.
  - intros s w' N'. apply honest_last with (P := P); auto.
Qed.
Lemma honest_block w input output queue_size : (forall c, P output (archive_tlwe (t_n1 T) c)) -> no_error (fst w) ->
  body_of (do_run_block_log trace T Y store (log_says v) f w spec input output queue_size bkey sanitize) w.
Proof.
  intros HO N. cbn [body_of do_run_block_log]. file HG. clear w N. intros g w _ N. key HK.
  clear w N. intros [ekey ik] w _ N. apply honest_det; [destruct ekey; cbn; discriminate|]. intros _ _.
  apply (honest_fits _ _ (fun w x => _)); [exact N| |apply fits_sanitize|].
  { intros HX. apply HZ. destruct sanitize; [reflexivity|]. discriminate HX. }
  clear w N. intros r w _ N. intros n. apply honest_calm; [exact N|calm|].
  clear w N. intros w N.
  assert (AF : forall s, fits trace [] (block_result_any T s)) by (intros s; apply fits_calm; [calm|apply oe_block_result]).
  assert (AB : forall s, block_result_any T s (Fail FExit) -> any_blame) by (intros s HX; exfalso; eapply oe_block_result; exact HX).
  apply honest_loop with (P := P); auto.
  - intros s c. apply fits_calm; [calm|apply oe_block_one].
  - intros s c HX. exfalso. eapply oe_block_one. exact HX.
  - discriminate.
  - intros s w' N'. apply honest_last with (P := P); auto; [discriminate|]. intros o c [= <-]. apply HO.
Qed.
Lemma honest_flut w input output dir freq queue_size interval depth debug : any_blame ->
  (forall o c, output = Some o -> P o (archive_tlwe (t_n1 T) c)) -> (forall d n c, dir = Some d -> P (report_file d n) (archive_tlwe (t_n1 T) c)) -> no_error (fst w) ->
  body_of (do_run_flut_log trace T Y store (log_says v) f w spec input output dir freq queue_size interval bkey depth debug sanitize) w.
Proof.
  intros AB HO HD N. cbn [body_of do_run_flut_log]. file HG. clear w N. intros g w _ N. key HK.
  clear w N. intros [ekey ik] w _ N. apply honest_det; [destruct (ekey && ik); cbn; discriminate|]. intros _ _.
  apply (honest_fits _ _ (fun w x => _)); [exact N|auto| |].
  { destruct debug; [apply fits_archive|apply fits_calm; [apply no_error_nil|apply oe_det, ne_ok]]. }
  clear w N. intros _ w _ N. apply (honest_fits _ _ (fun w x => _)); [exact N|auto|apply fits_sanitize|].
  clear w N. intros r w _ N. intros n. apply honest_calm; [exact N| |].
  { apply no_error_app; [|apply no_error_app]; [|unfold output_params; destruct output, dir; cbn [app]|]; calm. }
  clear w N. intros w N. apply honest_det; [ne|]. intros _ _. apply honest_calm; [exact N| |].
  { destruct dir; [|apply no_error_nil]. destruct (_ =? 0); calm. }
  clear w N. intros w N h. apply honest_loop with (P := P); auto.
  - intros s c. apply fits_one.
  - intros s. apply fits_result.
  - intros s w' N'. apply honest_last with (P := P); auto. intros s'. apply fits_result.
Qed.
End Runs.
End Commands.
