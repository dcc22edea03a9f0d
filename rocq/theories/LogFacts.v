(** Proofs about the logs of the run commands. *)
From Coq Require Import String.
From Coq Require Import List Arith Bool NArith ZArith Ascii Lia.
Import ListNotations.
From Verif Require Import Base BaseFacts GraphModel Spec GraphFacts TextModel TextSpec TextFacts BitsModel BitsFacts TorusModel TfheSpec TfheFacts
  RunnerModel RunnerSpec RunnerFacts PropsRunner ParModel ParFacts SchedFacts StreamModel InputSpec StreamFacts
  ClientModel ClientFacts CmdModel CmdSpec CmdFacts CrashModel CrashFacts PropsCrash DiskRunFacts MsgModel MsgSpec MsgFacts LogModel LogSpec.
Local Open Scope list_scope.

Lemma visible_filter v ms : visible v ms = filter (fun m => enabled v (fst m)) ms.
Proof.
  destruct v; cbn [visible].
  - apply filter_ext. intros [[] t]; reflexivity.
  - apply filter_ext. intros [[] t]; reflexivity.
  - induction ms as [|[[] t] ms IH]; cbn; f_equal; auto.
Qed.
Lemma visible_app v a b : visible v (a ++ b) = visible v a ++ visible v b.
Proof. rewrite !visible_filter. apply filter_app. Qed.
Lemma visible_nil v : visible v [] = [].
Proof. destruct v; reflexivity. Qed.

Lemma skips_skipped lines ns : skips lines ns -> exists out, skipped lines out /\ map as_message ns = map skip_line out.
Proof.
  induction 1 as [|l ls ns R H (out & S & M)|l ls ns R H (out & S & M)].
  - exists []. split; constructor.
  - exists out. split; [apply sk_row; auto|exact M].
  - exists (l :: out). split; [apply sk_skip; auto|]. cbn [map]. rewrite M. reflexivity.
Qed.
Lemma file_messages_spec trace f p b g : f p = Some b -> from_file f p = Ok g ->
  exists out, skipped (lines_of b) out /\ file_messages trace f p = map skip_line out.
Proof.
  unfold from_file, open_file, file_messages, from_file_said, lines_of. intros -> H. cbn [bind] in H.
  pose proof (lines_of_getlines (map ascii_of_N b)) as HL. set (ls := getlines c_nl [] (map ascii_of_N b)) in *.
  destruct (lines_cases ls 0) as [(rows & HR)|(pre & l & post & rows & c & E & HR & B)].
  - destruct (skips_ex ls) as (ns & HS). rewrite (file_good trace _ ls rows ns HL HR HS). cbn [fst]. now apply skips_skipped.
  - exfalso. destruct (skips_ex pre) as (ns & HS). rewrite E in HL.
    pose proof (file_bad trace _ pre l post rows c ns HL HR HS B) as HB.
    pose proof (from_istream_same trace (map ascii_of_N b)) as ES. rewrite HB, H in ES. destruct c; discriminate.
Qed.
Lemma archive_good trace {A} p (r : res A) a : r = Ok a -> archive_messages trace p r = [].
Proof. intros ->. reflexivity. Qed.
Lemma skipped_fun lines out : skipped lines out -> forall out', skipped lines out' -> out' = out.
Proof.
  induction 1 as [|l ls o R S IH|l ls o R S IH]; intros out' H; inversion H; subst; try contradiction; auto.
  f_equal. auto.
Qed.

(** [p] is a command with its log, [q] the same without: with the world [w], both end with the files [f2], [p] logs
    [es] on the way and nothing else. *)
Definition spoken (p : client world) (q : client fs) (rem : list (list N)) (w : world) (es : list message) (f2 : fs) : Prop :=
  sure p rem (Ok (fst w ++ es, f2)) /\ sure q rem (Ok f2) /\
  always (fun d => exists a b, fst d = fst w ++ a /\ es = a ++ b) w p rem.

Section Steps.
Context (T : tfhe) (Y : crypto T) (v : verbosity).
Notation N1 := (t_n1 T).

Lemma spoken_ret rem w : spoken (PRet (Ok w)) (PRet (Ok (snd w))) rem w [] (snd w).
Proof.
  split; [cbn; rewrite app_nil_r; destruct w; reflexivity|]. split; [reflexivity|]. cbn [always]. split; [|exact I].
  exists [], []. rewrite app_nil_r. auto.
Qed.
Lemma spoken_any {X} (o : outcomes X) a k k' rem w es f2 : (forall x, o x <-> x = Ok a) ->
  spoken (k a) (k' a) rem w es f2 -> spoken (PAny o k) (PAny o k') rem w es f2.
Proof.
  intros H (A & B & C). split; [apply (sure_any _ _ a); auto|]. split; [apply (sure_any _ _ a); auto|].
  apply (always_any _ _ _ _ a); auto.
Qed.
Lemma spoken_det {X} (m : res X) a k k' rem w es f2 : m = Ok a ->
  spoken (k a) (k' a) rem w es f2 -> spoken (pdet m k) (pdet m k') rem w es f2.
Proof. intros ->. apply spoken_any. intros x. reflexivity. Qed.
Lemma spoken_size k k' rem w es f2 :
  spoken (k (length rem)) (k' (length rem)) rem w es f2 -> spoken (PSize k) (PSize k') rem w es f2.
Proof. intros (A & B & C). split; [exact A|]. split; [exact B|]. apply always_size. exact C. Qed.
Lemma spoken_next k k' c rem w es f2 :
  spoken (k c) (k' c) rem w es f2 -> spoken (PNext k) (PNext k') (c :: rem) w es f2.
Proof. intros (A & B & C). split; [exact A|]. split; [exact B|]. apply always_next. exact C. Qed.
Lemma spoken_says ms : forall w k q rem es f2,
  spoken (k (fst w ++ visible v ms, snd w)) q rem (fst w ++ visible v ms, snd w) es f2 ->
  spoken (log_says v w ms k) q rem w (visible v ms ++ es) f2.
Proof.
  induction ms as [|m ms IH]; intros w k q rem es f2 H; cbn [log_says].
  - rewrite visible_nil in *. rewrite app_nil_r in H. destruct w. exact H.
  - rewrite !visible_filter in H |- *. cbn [filter] in H |- *. destruct (enabled v (fst m)).
    + destruct (IH (fst w ++ [m], snd w) k q rem es f2) as (A & B & C).
      { rewrite visible_filter. cbn [fst snd]. rewrite <- app_assoc. exact H. }
      cbn [fst snd] in *. rewrite visible_filter in A, C. rewrite <- app_assoc in A. split; [cbn [sure]; cbn [app] in *; exact A|]. split; [exact B|].
      cbn [always]. split; [exists [], (m :: filter (fun m => enabled v (fst m)) ms ++ es); split; [rewrite app_nil_r|]; reflexivity|].
      split; [intros d' []|]. eapply always_mono; [|exact C]. cbn beta. intros d (a & b & E1 & E2).
      exists (m :: a), b. split; [rewrite E1, <- app_assoc; reflexivity|]. cbn [app]. now rewrite E2.
    + rewrite <- visible_filter. apply IH. rewrite visible_filter. exact H.
Qed.
Lemma spoken_mute ms w k q rem es f2 : ms = [] -> spoken (k w) q rem w es f2 -> spoken (log_says v w ms k) q rem w es f2.
Proof. intros ->. auto. Qed.
Lemma spoken_store p b k k' rem w es f2 :
  spoken (k (fst w, write (snd w) p b)) (k' (write (snd w) p b)) rem (fst w, write (snd w) p b) es f2 ->
  spoken (log_store w p b k) (store_file (snd w) p b k') rem w es f2.
Proof.
  intros (A & B & C). unfold log_store, store_file. split; [exact A|]. split; [exact B|]. cbn [always].
  split; [exists [], es; rewrite app_nil_r; auto|]. split; [|exact C].
  intros d' (E & _). exists [], es. rewrite app_nil_r. auto.
Qed.

(** * The loops *)
Lemma offline_spoken rem : forall r r' w finish finish' es f2,
  foldM (offline_eval_one T) (map (c_load T Y) rem) r = Ok r' ->
  (forall l, spoken (finish r' (l, snd w)) (finish' r') [] (l, snd w) es f2) ->
  let chat := fix chat n i := match n with O => [] | S n => visible v (bootstrapped (b_interval r) (S i)) ++ chat n (S i) end in
  spoken (offline_loop_log T Y (log_says v) (length rem) r w finish) (offline_loop T Y (length rem) r finish') rem w
    (chat (length rem) (b_nproc r) ++ es) f2.
Proof.
  induction rem as [|c rem IH]; intros r r' w finish finish' es f2 EF HF chat; cbn [map foldM length offline_loop_log offline_loop chat].
  - injection EF as <-. cbn [app]. destruct w as [l f]. apply HF.
  - apply bind_ok in EF as (t & E1 & EF). apply spoken_next. rewrite <- app_assoc. apply spoken_says.
    apply (spoken_any _ t); [apply backstream_any_exact; exact E1|].
    assert (NP : b_nproc t = S (b_nproc r) /\ b_interval t = b_interval r).
    { clear - E1. unfold offline_eval_one, backstream_eval in E1. cbv zeta in E1.
      apply bind_ok in E1 as (states & _ & E1). apply bind_ok in E1 as (w' & _ & E1).
      destruct (b_interval r =? 0) eqn:Z; [discriminate|]. destruct (_ mod _ =? 0).
      - apply bind_ok in E1 as (w2 & _ & [= <-]). auto.
      - injection E1 as <-. auto. }
    destruct NP as [NP IV].
    specialize (IH t r' (fst w ++ visible v (bootstrapped (b_interval r) (S (b_nproc r))), snd w) finish finish' es f2 EF HF).
    cbv zeta in IH. rewrite NP, IV in IH. exact IH.
Qed.

Section Loop.
Context {St : Type} (feed : St -> trgsw T -> outcomes St) (ask : St -> outcomes (list Z * St))
        (feedD : St -> trgsw T -> res St) (askD : St -> res (list Z * St)) (feed_ms ask_ms : St -> list message).
Hypothesis HFeed : forall s c, exact (feed s c) (feedD s c).
Hypothesis HAsk : forall s, exact (ask s) (askD s).

(** what is logged for a history of calls *)
Fixpoint chat (i : nat) (h : list (option (trgsw T))) (s : St) : list message :=
  match h with
  | [] => []
  | Some c :: h' => processing i :: feed_ms s ++ match feedD s c with Ok s' => chat (S i) h' s' | Fail _ => [] end
  | None :: h' => ask_ms s ++ match askD s with Ok (_, s') => chat i h' s' | Fail _ => [] end
  end.

Context (input : text) (dir : option text) (freq : nat).
Notation freq_of := (freq_of dir freq).

Lemma loop_spoken rem : forall i s w finish finish' outs s',
  (forall d, dir = Some d -> 0 < freq) ->
  (forall d j, dir = Some d -> report_file d j <> input) ->
  play feedD askD (asked freq_of i (map (c_load T Y) rem)) s = Ok (outs, s') ->
  (forall t l f, (exists x, askD t = Ok x) -> exists f2, spoken (finish t (l, f)) (finish' t f) [] (l, f) (visible v (ask_ms t)) f2) ->
  exists f2, spoken
    (monitor_loop_log T Y log_store (log_says v) feed ask feed_ms ask_ms input dir freq finish (length rem) i s w)
    (monitor_loop T Y feed ask input dir freq finish' (length rem) i s (snd w)) rem w
    (visible v (chat i (asked freq_of i (map (c_load T Y) rem)) s)) f2.
Proof.
  induction rem as [|c rem IH]; intros i s w finish finish' outs s' HD HN HP HF.
  - cbn [map asked play chat] in *. apply bind_ok in HP as ([c t] & EA & HP). destruct w as [l f].
    destruct (HF s l f ltac:(eauto)) as (f2 & H). exists f2. cbn [monitor_loop_log monitor_loop length].
    apply spoken_size. cbn [length Nat.eqb snd]. rewrite EA, app_nil_r. exact H.
  - cbn [map asked play] in HP. apply bind_ok in HP as (t & EF & HP).
    cbn [length monitor_loop_log monitor_loop map asked chat]. rewrite EF.
    assert (EV : forall es, visible v (processing i :: feed_ms s ++ es) = visible v [processing i] ++ visible v (feed_ms s) ++ visible v es).
    { intros es. rewrite <- !visible_app. reflexivity. }
    rewrite EV. set (w' := ((fst w ++ visible v [processing i]) ++ visible v (feed_ms s), snd w)).
    destruct dir as [d|] eqn:Edir.
    2:{ destruct (IH (S i) t w' finish finish' outs s' HD HN HP HF) as (f2 & H). exists f2.
        apply spoken_size. cbn [length Nat.eqb]. apply spoken_says. apply spoken_next. apply spoken_says.
        apply (spoken_any _ t); [apply HFeed; exact EF|]. exact H. }
    pose proof (HD d eq_refl) as HD0. destruct (Nat.eqb_spec freq 0) as [|_]; [lia|].
    unfold CmdFacts.freq_of in *. rewrite (mod_step freq i HD0). destruct (S i mod freq =? 0) eqn:EM.
    2:{ destruct (IH (S i) t w' finish finish' outs s' HD HN HP HF) as (f2 & H). exists f2.
        apply spoken_size. cbn [length Nat.eqb]. apply spoken_says. apply spoken_next. apply spoken_says.
        apply (spoken_any _ t); [apply HFeed; exact EF|]. exact H. }
    cbn [play] in HP. apply bind_ok in HP as ([c1 t1] & EA & HP). apply bind_ok in HP as ([o2 s2] & HP & HP').
    cbn [chat]. rewrite EA.
    set (w2 := (fst w' ++ visible v (ask_ms t), write (snd w) (report_file d (S i)) (archive_tlwe N1 c1))).
    destruct (IH (S i) t1 w2 finish finish' o2 s2 HD HN HP HF) as (f2 & H). exists f2.
    rewrite visible_app.
    apply spoken_size. cbn [length Nat.eqb]. apply spoken_says. apply spoken_next. apply spoken_says.
    apply (spoken_any _ t); [apply HFeed; exact EF|]. replace (i + 1) with (S i) by lia.
    apply spoken_says. apply (spoken_any _ (c1, t1)); [apply HAsk; exact EA|].
    rewrite report_path. rewrite path_eqb_neq by (eapply HN; eauto). cbn [fst snd].
    apply (spoken_store _ _ _ _ _ (_, snd w)). exact H.
Qed.

Lemma last_spoken out n s l f : (out = None -> dir <> None) -> (exists x, askD s = Ok x) ->
  exists f2, spoken (last_output_log T log_store (log_says v) ask ask_ms dir out n s (l, f)) (last_output T ask out dir n s f) []
    (l, f) (visible v (ask_ms s)) f2.
Proof.
  intros HO ([c t] & EA).
  assert (G : forall p, spoken (log_says v (l, f) (ask_ms s) (fun w => PAny (ask s) (fun '(c, _) => log_store w p (archive_tlwe N1 c) (fun w => PRet (Ok w)))))
     (PAny (ask s) (fun '(c, _) => store_file f p (archive_tlwe N1 c) (fun f => PRet (Ok f)))) [] (l, f) (visible v (ask_ms s))
     (write f p (archive_tlwe N1 c))).
  { intros p. rewrite <- (app_nil_r (visible v (ask_ms s))) at 1. apply spoken_says.
    apply (spoken_any _ (c, t)); [apply HAsk; exact EA|]. cbn [fst snd].
    apply (spoken_store _ _ _ _ _ (_, f)). apply (spoken_ret _ (_, _)). }
  unfold last_output_log, last_output.
  destruct out as [o|]; [eexists; apply G|]. destruct dir as [d|]; [eexists; apply G|]. exfalso. now apply HO.
Qed.
End Loop.
End Steps.

(** * What the runners say along a history *)
From Verif Require Import LookupFacts ReachFacts FlutFacts ObliviousSpec ObliviousFacts BenchFacts2 Quotient.
Section Chats.
Context (T : tfhe).

Lemma back_eval_counts s c s' : backstream_eval T s c = Ok s' -> b_nproc s' = S (b_nproc s) /\ b_interval s' = b_interval s.
Proof.
  intros E1. unfold backstream_eval in E1. cbv zeta in E1.
  apply bind_ok in E1 as (states & _ & E1). apply bind_ok in E1 as (w' & _ & E1).
  destruct (b_interval s =? 0) eqn:Z; [discriminate|]. destruct (_ mod _ =? 0).
  - apply bind_ok in E1 as (w2 & _ & [= <-]). auto.
  - injection E1 as <-. auto.
Qed.
Lemma reverse_chat freq cts : forall i s outs s', b_nproc s = i ->
  play (online2_eval_one T) (reverse_ask T) (asked freq i cts) s = Ok (outs, s') ->
  chat T (online2_eval_one T) (reverse_ask T) back_messages (fun _ => []) i (asked freq i cts) s =
  flat_map (fun i => processing i :: bootstrapped (b_interval s) (S i)) (seq i (length cts)).
Proof.
  induction cts as [|c cts IH]; intros i s outs s' EI H; cbn [asked play chat length seq flat_map] in *.
  - apply bind_ok in H as ([x t] & -> & _). reflexivity.
  - apply bind_ok in H as (t & E1 & H). rewrite E1.
    destruct (back_eval_counts _ _ _ E1) as [EN EV]. rewrite EI in EN.
    assert (EM : back_messages s = bootstrapped (b_interval s) (S i)) by (unfold back_messages, bootstrapped; rewrite EI; reflexivity).
    rewrite EM. cbn [app]. f_equal. f_equal.
    destruct freq as [k|]; [|rewrite <- EV; eapply IH; eauto].
    destruct (S i mod k =? 0); [|rewrite <- EV; eapply IH; eauto].
    cbn [play chat] in *. apply bind_ok in H as ([x t'] & E2 & H). rewrite E2.
    apply bind_ok in H as ([y t2] & H & _). unfold reverse_ask in E2. apply bind_ok in E2 as (z & _ & [= _ <-]).
    cbn [app]. rewrite <- EV. eapply IH; eauto.
Qed.
Lemma block_chat cts : forall i s outs s',
  play (block_eval_one T) (block_result T) (asked None i cts) s = Ok (outs, s') ->
  chat T (block_eval_one T) (block_result T) (fun _ => []) (fun _ => []) i (asked None i cts) s = map processing (seq i (length cts)).
Proof.
  induction cts as [|c cts IH]; intros i s outs s' H; cbn [asked play chat length seq map] in *.
  - apply bind_ok in H as ([x t] & -> & _). reflexivity.
  - apply bind_ok in H as (t & E1 & H). rewrite E1. cbn [app]. f_equal. eapply IH; eauto.
Qed.
End Chats.

Section FlutChat.
Context (trace : text) (T : tfhe) (s0 s1 : list Z) (bit : trgsw T -> bool -> Prop) (E : noise).
Hypothesis OK : tfhe_ok T s0 s1 bit E.
Hypothesis NN : noise_nonneg E.
Context (g : Graph) (Wg : wf_graph g) (max q freq : nat).
Hypothesis Hq0 : 0 < q.
Hypothesis Hq : q < 31.
Hypothesis Hfreq : 0 < freq.
Hypothesis Hmax : max < 31.
Hypothesis HmaxN : table_fits (t_n1 T) max q g.
Hypothesis HM : flut_margin (size g * 2 ^ (q / 2)) q freq E.
Context (W : nat -> nat) (HW : forall n, width g n (W n)).
Notation inv := (flut_inv T s1 bit E g max q freq).

Lemma flut_messages_ok u v s k : inv u v s -> 0 < k -> k <= q -> W (length u + k) < 2 ^ max ->
  flut_messages trace T s k = evaluates W max (length u) (length u + k).
Proof.
  intros HI K0 KQ HWk. unfold flut_messages. destruct (Nat.eqb_spec k 0); [lia|]. destruct (Nat.leb_spec 31 k); [lia|].
  destruct (fi_memo _ _ _ _ _ _ _ _ _ _ _ HI k KQ) as (memo & Em & Hm). unfold at_. rewrite Em. cbn [bind].
  pose proof (fi_live _ _ _ _ _ _ _ _ _ _ _ HI) as HL.
  rewrite (fi_graph _ _ _ _ _ _ _ _ _ _ _ HI), (fi_max _ _ _ _ _ _ _ _ _ _ _ HI).
  destruct (flut_next_live_ok g memo (f_live T s) k Wg Hm (fun p => reach_lt g Wg _ _ p HL)) as (next & EN & IS & HNx).
  rewrite EN. cbn [bind].
  assert (HR : reach_set g (length u + k) next) by (eapply reach_step; eauto).
  destruct (st2idx_ok g next (is_set_NoDup _ IS) (fun p => reach_lt g Wg _ _ p HR)) as (idx & EX & _). rewrite EX. cbn [bind].
  destruct (Nat.leb_spec 32 max); [lia|].
  rewrite (reach_W g Wg W HW _ _ HR), (reach_W g Wg W HW _ _ HL). unfold evaluates.
  destruct (Nat.eqb_spec max 31); [lia|].
  destruct (Nat.leb_spec (2 ^ max) (W (length u + k))); [lia|]. replace (length u + k - length u) with k by lia. reflexivity.
Qed.

Lemma flut_chat h hb : encrypts bit h hb -> forall u v s outs s', inv u v s -> length v < q ->
  play (flut_eval_one T) (flut_result T) h s = Ok (outs, s') ->
  chat T (flut_eval_one T) (flut_result T) (flut_feed_messages trace T) (flut_ask_messages trace T) (length u + length v) h s =
  flut_progress W max q (length u) (length v) hb.
Proof.
  intros HE. induction HE as [|x y h hb Hxy HE IH]; intros u v s outs s' HI LV H; [reflexivity|].
  pose proof (fi_queue _ _ _ _ _ _ _ _ _ _ _ HI) as HQ. apply Forall2_len in HQ.
  destruct Hxy as [c b Hc|]; cbn [play chat flut_progress] in *.
  - apply bind_ok in H as (s2 & E2 & H). rewrite E2. f_equal.
    unfold flut_feed_messages. rewrite HQ, (fi_q _ _ _ _ _ _ _ _ _ _ _ HI).
    pose proof (flut_feed_ok T s0 s1 bit E OK NN g Wg max q freq Hq Hfreq Hmax HmaxN HM u v s c b HI Hc (or_introl LV)) as HF.
    destruct (Nat.ltb_spec (S (length v)) q) as [L|L].
    + destruct HF as (s3 & E3 & I3). rewrite E2 in E3. injection E3 as <-. cbn [app].
      specialize (IH u (v ++ [b]) s2 outs s' I3). rewrite app_length in IH. cbn [length] in IH. rewrite Nat.add_1_r in IH.
      rewrite Nat.add_succ_r in IH. apply IH; auto.
    + destruct HF as [?|(next & HR & HO)]; [lia|]. rewrite E2 in HO. cbn [flut_outcome] in HO. destruct HO as [RF I3].
      apply Nat.leb_gt in RF. rewrite (reach_W g Wg W HW _ _ HR) in RF.
      rewrite (flut_messages_ok u v s) by (auto; lia). f_equal.
      specialize (IH (u ++ v ++ [b]) [] s2 outs s' I3). rewrite !app_length in IH. cbn [length] in IH. rewrite Nat.add_1_r in IH.
      rewrite Nat.add_0_r, Nat.add_succ_r in IH. rewrite !Nat.add_succ_r. apply IH; auto.
  - apply bind_ok in H as ([c s2] & E2 & H). apply bind_ok in H as ([o s3] & H & [= _ <-]). rewrite E2.
    destruct (flut_ask_ok T s0 s1 bit E OK NN g Wg max q freq Hq Hfreq Hmax HmaxN HM u v s HI ltac:(lia)) as (next & HR & HO).
    rewrite E2 in HO. destruct HO as (RF & I3 & _). unfold flut_ask_messages. rewrite HQ.
    specialize (IH (u ++ v) [] s2 o s3 I3). rewrite app_length in IH. cbn [length] in IH. rewrite Nat.add_0_r in IH.
    destruct (Nat.eqb_spec (length v) 0) as [Z0|Z0].
    + unfold flut_messages. rewrite Z0 in *. rewrite Nat.add_0_r in *. cbn [Nat.eqb app]. eapply IH; eauto.
    + destruct RF as [->|RF]; [cbn in Z0; lia|]. rewrite (reach_W g Wg W HW _ _ HR) in RF.
      rewrite (flut_messages_ok u v s) by (auto; lia). f_equal. eapply IH; eauto.
Qed.
End FlutChat.

(** the log does not depend on the implementation of TFHE or the ciphertexts *)
Lemma flut_messages_pub trace T T' s s' n : pub_flut T s = pub_flut T' s' -> flut_messages trace T s n = flut_messages trace T' s' n.
Proof. intros H. unfold pub_flut in H. injection H as H1 _ _ H4 _ H6 H7 _ _ _ _. unfold flut_messages. now rewrite H1, H4, H6, H7. Qed.
Lemma flut_chat_pub trace T T' : t_n1 T = t_n1 T' -> forall h h' i s s', shape h = shape h' -> pub_flut T s = pub_flut T' s' ->
  chat T (flut_eval_one T) (flut_result T) (flut_feed_messages trace T) (flut_ask_messages trace T) i h s =
  chat T' (flut_eval_one T') (flut_result T') (flut_feed_messages trace T') (flut_ask_messages trace T') i h' s'.
Proof.
  intros HN. induction h as [|[c|] h IH]; intros [|[c'|] h'] i s s' SH P; try discriminate; [reflexivity| |]; injection SH as SH; cbn [chat].
  - f_equal. f_equal.
    + unfold flut_feed_messages. rewrite (flut_messages_pub trace T T' s s' _ P). unfold pub_flut in P.
      injection P as _ _ H3 _ H5 _ _ _ _ _ _. rewrite H5. now rewrite H3.
    + pose proof (req_flut_one T T' HN s s' c c' P) as R.
      destruct (flut_eval_one T s c), (flut_eval_one T' s' c'); cbn in R; try contradiction; auto.
  - f_equal.
    + unfold flut_ask_messages. rewrite (flut_messages_pub trace T T' s s' _ P). unfold pub_flut in P.
      injection P as _ _ H3 _ _ _ _ _ _ _ _. now rewrite H3.
    + pose proof (req_flut_result T T' HN s s' P) as R.
      destruct (flut_result T s) as [[a b]|], (flut_result T' s') as [[a' b']|]; cbn in R; try contradiction; auto.
Qed.
