(** Proofs about runs that exit with an error. *)
From Coq Require Import String.
From Coq Require Import List Arith Bool NArith ZArith Ascii Lia.
Import ListNotations.
From Verif Require Import Base BaseFacts GraphModel Spec GraphFacts TextModel TextSpec TextFacts BitsModel BitsFacts TorusModel TfheSpec TfheFacts
  RunnerModel RunnerSpec RunnerFacts PropsRunner ParModel ParFacts SchedFacts StreamModel InputSpec StreamFacts
  ClientModel ClientFacts CmdModel CmdSpec CmdFacts CrashModel CrashFacts MsgModel MsgSpec MsgFacts SayFacts LogModel LogSpec LogFacts RefuseSpec.
Local Open Scope list_scope.

(** The world at the end of every execution is [w1]. *)
Fixpoint leaves {R} (w1 : R) (d : R) (p : client R) (rem : list (list N)) : Prop :=
  match p with
  | PRet _ => d = w1
  | PSize k => leaves w1 d (k (length rem)) rem
  | PNext k => match rem with [] => d = w1 | c :: rem' => leaves w1 d (k c) rem' end
  | PAny o k => forall a, o a -> match a with Ok x => leaves w1 d (k x) rem | Fail _ => d = w1 end
  | PFiles _ r q => leaves w1 r q rem
  end.
Lemma kept_leaves {R} (w1 d : R) : kept (leaves w1 d) (fun _ => d = w1).
Proof.
  constructor; cbn [leaves]; try solve [intros; assumption].
  - intros X o k rem x H O. apply (H _ O).
  - intros X o k rem f H O. apply (H _ O).
Qed.
Section Runs.
Context (k : kind) (words : nat) (cts : list (list N)).
Hypothesis HW : 0 < words.
Hypothesis HB : (Z.of_nat (block_size words) < 2 ^ 63)%Z.
Hypothesis HC : Forall (is_ctxt words) cts.
Hypothesis HF : (Z.of_nat (length cts * block_size words) < two64)%Z.
Context {R : Type}.
Theorem stream_leaves (w1 : R) p d junk s t r d' : length junk = words -> leaves w1 d p (delivery k cts) ->
  open_stream k words (concat (map save cts)) junk [] = Ok s -> fmoves_to k words ((s, Run p), d) ((t, Over r), d') -> d' = w1.
Proof.
  intros HJ A ES M. destruct (open_idle k words cts HW HB HC HF junk HJ) as (s1 & E1 & I1 & P1). rewrite ES in E1. injection E1 as <-.
  assert (K : forall z, fmoves_to k words ((s, Run p), d) z -> good k words cts (leaves w1 (snd z)) (fun _ => snd z = w1) (fst z)).
  { clear M. intros z M'. remember ((s, Run p), d) as z0 eqn:E0. induction M' as [z|z y z' M' IH N].
    - subst z. cbn [fst snd]. exists 0. auto.
    - specialize (IH E0). clear E0 M'. revert IH.
      destruct N as [s' t0 w q d1 d2 TD|s' t0 w q d1|x1 y1 d1 MV NF]; cbn [fst snd]; intros G.
      + destruct G as (i & J1 & J2 & J3). exists i. auto.
      + destruct G as (i & J1 & J2 & J3). exists i. auto.
      + eapply (good_move k words cts HW HB HC _ _ x1 y1); eauto. apply kept_leaves. }
  exact (K _ M).
Qed.
End Runs.

(** [p] with its log and [q] without both fail with [e]; [p] logs [es] on the way and nothing else and leaves the files [f2]; on
    the way the files satisfy [Q]. *)
Definition stops (e : fault) (Q : fs -> Prop) (p : client world) (q : client fs) (rem : list (list N)) (w : world) (es : list message) : Prop :=
  sure p rem (Fail e) /\ sure q rem (Fail e) /\
  always (fun d => (exists a b, fst d = fst w ++ a /\ es = a ++ b) /\ Q (snd d)) w p rem /\
  exists f2, leaves (fst w ++ es, f2) w p rem.

Section Steps.
Context (T : tfhe) (Y : crypto T) (v : verbosity) (e : fault) (Q : fs -> Prop).
Notation N1 := (t_n1 T).
Notation stops := (stops e Q).

Lemma stops_fail {X} (o : outcomes X) k k' rem w : Q (snd w) -> (forall x, o x <-> x = Fail e) -> stops (PAny o k) (PAny o k') rem w [].
Proof.
  intros HQ H. split; [now apply sure_any_fail|]. split; [now apply sure_any_fail|]. split.
  - cbn [always]. split; [split; [exists [], []; rewrite app_nil_r; auto|exact HQ]|]. intros a O. apply H in O as ->. exact I.
  - exists (snd w). cbn [leaves]. intros a O. apply H in O as ->. rewrite app_nil_r. destruct w; reflexivity.
Qed.
Lemma stops_det_fail {X} (m : res X) k k' rem w : Q (snd w) -> m = Fail e -> stops (pdet m k) (pdet m k') rem w [].
Proof. intros HQ ->. apply stops_fail; auto. intros x. reflexivity. Qed.
Lemma stops_any {X} (o : outcomes X) a k k' rem w es : (forall x, o x <-> x = Ok a) ->
  stops (k a) (k' a) rem w es -> stops (PAny o k) (PAny o k') rem w es.
Proof.
  intros H (A & B & C & f2 & D). split; [apply (sure_any _ _ a); auto|]. split; [apply (sure_any _ _ a); auto|].
  split; [apply (always_any _ _ _ _ a); auto|]. exists f2. cbn [leaves]. intros x O. apply H in O as ->. exact D.
Qed.
Lemma stops_det {X} (m : res X) a k k' rem w es : m = Ok a ->
  stops (k a) (k' a) rem w es -> stops (pdet m k) (pdet m k') rem w es.
Proof. intros ->. apply stops_any. intros x. reflexivity. Qed.
Lemma stops_size k k' rem w es : stops (k (length rem)) (k' (length rem)) rem w es -> stops (PSize k) (PSize k') rem w es.
Proof. intros (A & B & C & D). split; [exact A|]. split; [exact B|]. split; [apply always_size; exact C|exact D]. Qed.
Lemma stops_next k k' c rem w es : stops (k c) (k' c) rem w es -> stops (PNext k) (PNext k') (c :: rem) w es.
Proof. intros (A & B & C & D). split; [exact A|]. split; [exact B|]. split; [apply always_next; exact C|exact D]. Qed.
Lemma stops_says ms : forall w k q rem es,
  stops (k (fst w ++ visible v ms, snd w)) q rem (fst w ++ visible v ms, snd w) es ->
  stops (log_says v w ms k) q rem w (visible v ms ++ es).
Proof.
  induction ms as [|m ms IH]; intros w k q rem es H; cbn [log_says].
  - rewrite visible_nil in *. rewrite app_nil_r in H. destruct w. exact H.
  - rewrite !visible_filter in H |- *. cbn [filter] in H |- *. destruct (enabled v (fst m)).
    + destruct (IH (fst w ++ [m], snd w) k q rem es) as (A & B & C & f2 & D).
      { rewrite visible_filter. cbn [fst snd]. rewrite <- app_assoc. exact H. }
      cbn [fst snd] in *. rewrite visible_filter in C, D. rewrite <- app_assoc in D. split; [exact A|]. split; [exact B|]. split.
      * pose proof (always_here _ _ _ _ C) as [_ HQ]. cbn [snd] in HQ.
        cbn [always]. split; [split; [exists [], (m :: filter (fun m => enabled v (fst m)) ms ++ es); split; [rewrite app_nil_r|]; reflexivity|exact HQ]|].
        split; [intros d' []|]. eapply always_mono; [|exact C]. cbn beta. intros d ((a & b & E1 & E2) & HD). split; [|exact HD].
        exists (m :: a), b. split; [rewrite E1, <- app_assoc; reflexivity|]. cbn [app]. now rewrite E2.
      * exists f2. exact D.
    + rewrite <- visible_filter. apply IH. rewrite visible_filter. exact H.
Qed.
Lemma stops_mute ms w k q rem es : ms = [] -> stops (k w) q rem w es -> stops (log_says v w ms k) q rem w es.
Proof. intros ->. auto. Qed.
Lemma stops_store p b k k' rem w es : (forall f, Q f) ->
  stops (k (fst w, write (snd w) p b)) (k' (write (snd w) p b)) rem (fst w, write (snd w) p b) es ->
  stops (log_store w p b k) (store_file (snd w) p b k') rem w es.
Proof.
  intros HQ (A & B & C & D). unfold log_store, store_file. split; [exact A|]. split; [exact B|]. split; [|exact D]. cbn [always].
  split; [split; [exists [], es; rewrite app_nil_r; auto|auto]|]. split; [|exact C].
  intros d' (E & _). split; [|auto]. exists [], es. rewrite app_nil_r. auto.
Qed.

Section Loop.
Context {St : Type} (feed : St -> trgsw T -> outcomes St) (ask : St -> outcomes (list Z * St))
        (feedD : St -> trgsw T -> res St) (askD : St -> res (list Z * St)) (feed_ms ask_ms : St -> list message).
Hypothesis HFeed : forall s c, exact (feed s c) (feedD s c).
Hypothesis HAsk : forall s, exact (ask s) (askD s).
Hypothesis HFeedX : forall s c, feedD s c = Fail e -> forall x, feed s c x <-> x = Fail e.
Hypothesis HAskX : forall s, askD s = Fail e -> forall x, ask s x <-> x = Fail e.
Hypothesis HQ : forall f, Q f.
Context (input : text) (dir : option text) (freq : nat).
Notation freq_of := (freq_of dir freq).
Notation chat := (chat T feedD askD feed_ms ask_ms).

Lemma loop_stops rem : forall i s w out n,
  (forall d, dir = Some d -> 0 < freq) ->
  (forall d j, dir = Some d -> report_file d j <> input) ->
  play feedD askD (asked freq_of i (map (c_load T Y) rem)) s = Fail e ->
  stops (monitor_loop_log T Y log_store (log_says v) feed ask feed_ms ask_ms input dir freq
           (last_output_log T log_store (log_says v) ask ask_ms dir out n) (length rem) i s w)
        (monitor_loop T Y feed ask input dir freq (last_output T ask out dir n) (length rem) i s (snd w)) rem w
        (visible v (chat i (asked freq_of i (map (c_load T Y) rem)) s)).
Proof.
  induction rem as [|c rem IH]; intros i s w out n HD HN HP.
  - cbn [map asked play LogFacts.chat] in *. destruct (askD s) as [[c t]|e'] eqn:EA; [discriminate|]. cbn [bind] in HP. injection HP as ->.
    cbn [monitor_loop_log monitor_loop length]. apply stops_size. cbn [length Nat.eqb]. rewrite app_nil_r.
    unfold last_output_log, last_output. rewrite <- (app_nil_r (visible v _)). apply stops_says. apply stops_fail; [apply HQ|]. now apply HAskX.
  - cbn [map asked play] in HP. cbn [length monitor_loop_log monitor_loop map asked LogFacts.chat].
    assert (EV : forall es, visible v (processing i :: feed_ms s ++ es) = visible v [processing i] ++ visible v (feed_ms s) ++ visible v es).
    { intros es. rewrite <- !visible_app. reflexivity. }
    rewrite EV. set (w' := ((fst w ++ visible v [processing i]) ++ visible v (feed_ms s), snd w)).
    apply stops_size. cbn [length Nat.eqb]. apply stops_says. apply stops_next. apply stops_says.
    destruct (feedD s (c_load T Y c)) as [t|e'] eqn:EF.
    2:{ cbn [bind] in HP. injection HP as ->. rewrite visible_nil. apply stops_fail; [apply HQ|]. now apply HFeedX. }
    cbn [bind] in HP. apply (stops_any _ t); [apply HFeed; exact EF|]. cbn [fst snd].
    destruct dir as [d|] eqn:Edir; [|exact (IH (S i) t w' out n HD HN HP)].
    pose proof (HD d eq_refl) as HD0. destruct (Nat.eqb_spec freq 0) as [|_]; [lia|].
    unfold CmdFacts.freq_of in *. rewrite (mod_step freq i HD0). destruct (S i mod freq =? 0) eqn:EM; [|exact (IH (S i) t w' out n HD HN HP)].
    cbn [play LogFacts.chat] in HP |- *. replace (i + 1) with (S i) by lia. rewrite visible_app. cbn zeta. apply (stops_says _ w').
    destruct (askD t) as [[c1 t1]|e'] eqn:EA.
    2:{ cbn [bind] in HP. injection HP as ->. rewrite visible_nil. apply stops_fail; [apply HQ|]. now apply HAskX. }
    apply (stops_any _ (c1, t1)); [apply HAsk; exact EA|].
    rewrite report_path. rewrite path_eqb_neq by (eapply HN; eauto). cbn [fst snd].
    apply (stops_store _ _ _ _ _ (_, snd w)); [exact HQ|]. cbn [bind] in HP.
    destruct (play feedD askD (asked (Some freq) (S i) (map (c_load T Y) rem)) t1) as [[o2 s2]|e'] eqn:EP; [discriminate|].
    cbn [bind] in HP. injection HP as ->.
    exact (IH (S i) t1 (fst w' ++ visible v (ask_ms t), write (snd w) (report_file d (S i)) (archive_tlwe N1 c1)) out n HD HN EP).
Qed.
End Loop.
End Steps.

(** ** When flut gives up, it does so before its parallel loops *)
Section Flut.
Context (T : tfhe).
Lemma ne_par_for {A} l (b : nat -> res A) o : (forall i, noexit (b i)) -> noexit (par_for l b o).
Proof. intros H. unfold par_for. ne. apply H. Qed.
Lemma ne_mult N w k : noexit (TRLWELvl1_mult_X_k N w k).
Proof. unfold TRLWELvl1_mult_X_k, PolyLvl1_mult_X_k. ne. Qed.
Lemma ne_lookup t i w : noexit (lookup_table T t i w).
Proof.
  unfold lookup_table, lookup_table_with_timer. ne.
  match goal with |- noexit (lookup_levels T ?l ?a ?b ?c) => generalize a b c; induction l as [|x l IH]; intros a' b' c' end;
    cbn [lookup_levels]; ne; [unfold lookup_level; ne; apply ne_par_for; ne|apply IH].
Qed.
Lemma obind_ok {A B} (m : res A) a (k : A -> outcomes B) x : m = Ok a -> (obind (det m) k x <-> k a x).
Proof. intros ->. split; [intros (y & -> & H); exact H|]. intros H. exists (Ok a). split; [reflexivity|exact H]. Qed.
Lemma bind_exit {A B} (m : res A) (k : A -> res B) : noexit m -> bind m k = Fail FExit -> exists a, m = Ok a /\ k a = Fail FExit.
Proof. intros N H. destruct m as [a|e']; [eauto|]. exfalso. cbn in H. injection H as ->. now apply N. Qed.
Lemma queued_exit s : flut_eval_queued T s = Fail FExit -> forall x, flut_eval_queued_any T s x <-> x = Fail FExit.
Proof.
  unfold flut_eval_queued, flut_eval_queued_any. cbv zeta. destruct (_ =? 0); [discriminate|]. destruct (31 <=? _); [discriminate|].
  intros H x. apply bind_exit in H as (memo & E1 & H); [|apply ne_at]. rewrite (obind_ok _ memo) by exact E1.
  apply bind_exit in H as (next & E2 & H); [|unfold flut_next_live; ne]. rewrite (obind_ok _ next) by exact E2.
  apply bind_exit in H as (idx & E3 & H); [|unfold flut_st2idx; ne]. rewrite (obind_ok _ idx) by exact E3.
  destruct (32 <=? _); [discriminate|]. destruct (if f_max T s =? 31 then _ else _); [reflexivity|].
  exfalso. revert H. match goal with |- ?m = _ -> _ => change (noexit m) end.
  ne; try apply ne_par_for; ne; try apply ne_lookup; unfold flut_entry, flut_rotate; ne; apply ne_mult.
Qed.
Lemma one_exit s c : flut_eval_one T s c = Fail FExit -> forall x, flut_eval_one_any T s c x <-> x = Fail FExit.
Proof. unfold flut_eval_one, flut_eval_one_any. cbv zeta. destruct (_ <? _); [discriminate|apply queued_exit]. Qed.
Lemma result_exit s : flut_result T s = Fail FExit -> forall x, flut_result_any T s x <-> x = Fail FExit.
Proof.
  unfold flut_result, flut_result_any. intros H x. destruct (flut_eval_queued T s) as [s'|e'] eqn:E.
  - exfalso. cbn [bind] in H. revert H. match goal with |- ?m = _ -> _ => change (noexit m) end. ne.
  - cbn [bind] in H. injection H as ->. pose proof (queued_exit s E) as X. unfold obind. split.
    + intros (y & Hy & H). apply X in Hy as ->. exact H.
    + intros ->. exists (Fail FExit). split; [now apply X|reflexivity].
Qed.
End Flut.

(** ** What flut says when it gives up *)
From Verif Require Import DotModel LookupFacts ReachFacts FlutFacts BenchFacts2.
Section FlutChat.
Context (trace : text) (T : tfhe) (s0 s1 : list Z) (bit : trgsw T -> bool -> Prop) (E : noise).
Hypothesis OK : tfhe_ok T s0 s1 bit E.
Hypothesis NN : noise_nonneg E.
Context (g : Graph) (Wg : wf_graph g) (max q freq : nat).
Hypothesis Hq0 : 0 < q.
Hypothesis Hq : q < 31.
Hypothesis Hfreq : 0 < freq.
Hypothesis Hmax : max < 31.
Hypothesis HmaxN : table_fits (t_n1 T) max q g.
Hypothesis HM : flut_margin (size g * 2 ^ (q / 2)) q freq E.
Context (W : nat -> nat) (HW : forall n, width g n (W n)).
Notation inv := (flut_inv T s1 bit E g max q freq).

Lemma flut_messages_exit u v s k : inv u v s -> 0 < k -> k <= q -> 2 ^ max <= W (length u + k) ->
  flut_messages trace T s k =
    [(Debug, DotModel.lit "live states: " ++ show_nat (W (length u))); (Debug, DotModel.lit "next live states: " ++ show_nat (W (length u + k)))] ++
    error trace (DotModel.lit "The number of next live states (" ++ show_nat (W (length u + k)) ++
                 DotModel.lit ") must be smaller than 2^max_second_lut_depth (" ++ show_nat (2 ^ max) ++ DotModel.lit ")").
Proof.
  intros HI K0 KQ HWk. unfold flut_messages. destruct (Nat.eqb_spec k 0); [lia|]. destruct (Nat.leb_spec 31 k); [lia|].
  destruct (fi_memo _ _ _ _ _ _ _ _ _ _ _ HI k KQ) as (memo & Em & Hm). unfold at_. rewrite Em. cbn [bind].
  pose proof (fi_live _ _ _ _ _ _ _ _ _ _ _ HI) as HL.
  rewrite (fi_graph _ _ _ _ _ _ _ _ _ _ _ HI), (fi_max _ _ _ _ _ _ _ _ _ _ _ HI).
  destruct (flut_next_live_ok g memo (f_live T s) k Wg Hm (fun p => reach_lt g Wg _ _ p HL)) as (next & EN & IS & HNx).
  rewrite EN. cbn [bind].
  assert (HR : reach_set g (length u + k) next) by (eapply reach_step; eauto).
  destruct (st2idx_ok g next (is_set_NoDup _ IS) (fun p => reach_lt g Wg _ _ p HR)) as (idx & EX & _). rewrite EX. cbn [bind].
  destruct (Nat.leb_spec 32 max); [lia|].
  rewrite (reach_W g Wg W HW _ _ HR), (reach_W g Wg W HW _ _ HL).
  destruct (Nat.eqb_spec max 31); [lia|].
  destruct (Nat.leb_spec (2 ^ max) (W (length u + k))); [|lia]. reflexivity.
Qed.

Lemma flut_chat_exit h hb : encrypts bit h hb -> forall u v s, inv u v s -> length v < q ->
  play (flut_eval_one T) (flut_result T) h s = Fail FExit ->
  chat T (flut_eval_one T) (flut_result T) (flut_feed_messages trace T) (flut_ask_messages trace T) (length u + length v) h s =
  flut_gives_up trace W max q (length u) (length v) hb.
Proof.
  intros HE. induction HE as [|x y h hb Hxy HE IH]; intros u v s HI LV H; [reflexivity|].
  pose proof (fi_queue _ _ _ _ _ _ _ _ _ _ _ HI) as HQ. apply Forall2_len in HQ.
  destruct Hxy as [c b Hc|]; cbn [play chat flut_gives_up] in *; cbv zeta.
  - f_equal.
    unfold flut_feed_messages. rewrite HQ, (fi_q _ _ _ _ _ _ _ _ _ _ _ HI).
    pose proof (flut_feed_ok T s0 s1 bit E OK NN g Wg max q freq Hq Hfreq Hmax HmaxN HM u v s c b HI Hc (or_introl LV)) as HF.
    destruct (Nat.ltb_spec (S (length v)) q) as [L|L].
    + destruct HF as (s3 & E3 & I3). rewrite E3 in H |- *. cbn [bind app] in *.
      specialize (IH u (v ++ [b]) s3 I3). rewrite app_length in IH. cbn [length] in IH. rewrite Nat.add_1_r in IH.
      rewrite Nat.add_succ_r in IH. apply IH; auto.
    + destruct HF as [?|(next & HR & HO)]; [lia|]. destruct (flut_eval_one T s c) as [s2|e'] eqn:E2; cbn [flut_outcome bind] in HO, H.
      * destruct HO as [RF I3]. apply Nat.leb_gt in RF. rewrite (reach_W g Wg W HW _ _ HR) in RF.
        rewrite (flut_messages_ok trace T s1 bit E g Wg max q freq Hq0 Hq Hfreq Hmax W HW u v s) by (auto; lia).
        destruct (Nat.ltb_spec (W (length u + S (length v))) (2 ^ max)) as [_|]; [|lia]. f_equal.
        specialize (IH (u ++ v ++ [b]) [] s2 I3). rewrite !app_length in IH. cbn [length] in IH. rewrite Nat.add_1_r in IH.
        rewrite Nat.add_0_r, Nat.add_succ_r in IH. rewrite !Nat.add_succ_r. apply IH; auto.
      * destruct HO as [RF _]. apply Nat.leb_le in RF. rewrite (reach_W g Wg W HW _ _ HR) in RF.
        rewrite (flut_messages_exit u v s) by (auto; lia). rewrite app_nil_r.
        destruct (Nat.ltb_spec (W (length u + S (length v))) (2 ^ max)); [lia|]. reflexivity.
  - destruct (flut_ask_ok T s0 s1 bit E OK NN g Wg max q freq Hq Hfreq Hmax HmaxN HM u v s HI ltac:(lia)) as (next & HR & HO).
    unfold flut_ask_messages. rewrite HQ.
    destruct (flut_result T s) as [[c s2]|e'] eqn:E2; cbn [bind] in HO, H.
    + destruct (play _ _ h s2) as [[o s3]|e'] eqn:EP; [discriminate|]. cbn [bind] in H. injection H as ->.
      destruct HO as (RF & I3 & _).
      specialize (IH (u ++ v) [] s2 I3). rewrite app_length in IH. cbn [length] in IH. rewrite Nat.add_0_r in IH.
      destruct (Nat.eqb_spec (length v) 0) as [Z0|Z0].
      * unfold flut_messages. rewrite Z0 in *. rewrite Nat.add_0_r in *. cbn [Nat.eqb app]. eapply IH; eauto.
      * destruct RF as [->|RF]; [cbn in Z0; lia|]. rewrite (reach_W g Wg W HW _ _ HR) in RF.
        rewrite (flut_messages_ok trace T s1 bit E g Wg max q freq Hq0 Hq Hfreq Hmax W HW u v s) by (auto; lia).
        destruct (Nat.ltb_spec (W (length u + length v)) (2 ^ max)) as [_|]; [|lia]. f_equal. eapply IH; eauto.
    + destruct HO as (NV & RF & _). rewrite (reach_W g Wg W HW _ _ HR) in RF.
      destruct v as [|b0 v']; [congruence|]. destruct (Nat.eqb_spec (length (b0 :: v')) 0) as [Z0|Z0]; [discriminate|].
      rewrite (flut_messages_exit u (b0 :: v') s) by (auto; cbn in *; lia). rewrite app_nil_r.
      destruct (Nat.ltb_spec (W (length u + length (b0 :: v'))) (2 ^ max)); [lia|]. reflexivity.
Qed.
End FlutChat.
Lemma gives_up_shape {C C'} trace W depth q (h : list (option C)) : forall (h' : list (option C')) n p, ObliviousSpec.shape h = ObliviousSpec.shape h' ->
  flut_gives_up trace W depth q n p h = flut_gives_up trace W depth q n p h'.
Proof.
  induction h as [|[c|] h IH]; intros [|[c'|] h'] n p SH; try discriminate; [reflexivity| |]; injection SH as SH; cbn [flut_gives_up]; cbv zeta.
  - f_equal. destruct (S p <? q); [auto|]. destruct (_ <? _); [f_equal|]; auto.
  - destruct (p =? 0); [auto|]. destruct (_ <? _); [f_equal|]; auto.
Qed.
