(** C76: what a run logs. *)
From Coq Require Import String.
From Coq Require Import List Arith Bool NArith ZArith Ascii Lia.
Import ListNotations.
From Verif Require Import Base BaseFacts GraphModel Spec GraphFacts GraphOps Minimize Quotient TextModel TextSpec DotModel BitsModel TorusModel TfheSpec TfheFacts
  RunnerModel RunnerSpec RunnerFacts ReachFacts FlutFacts PropsRunner ParModel SchedFacts StreamModel InputSpec StreamFacts PropsInput
  ClientModel ClientFacts CmdModel CmdSpec CmdFacts PropsCmd ObliviousSpec ObliviousFacts PropsOblivious ServerSpec ServerFacts PropsServer
  BenchFacts2 PropsText LogModel LogSpec LogFacts.
Local Open Scope list_scope.

(** ** The commands with their logs are the commands *)
Definition silent (c : res (@talking fs)) : res command :=
  match c with Ok (k, input, body) => Ok (mkCommand k input body) | Fail e => Fail e end.
(** the same interactions, one by one *)
Inductive alike {R} : client R -> client R -> Prop :=
| al_ret r : alike (PRet r) (PRet r)
| al_size k k' : (forall n, alike (k n) (k' n)) -> alike (PSize k) (PSize k')
| al_next k k' : (forall c, alike (k c) (k' c)) -> alike (PNext k) (PNext k')
| al_any X (o : outcomes X) k k' : (forall x, alike (k x) (k' x)) -> alike (PAny o k) (PAny o k')
| al_files t r p p' : alike p p' -> alike (PFiles t r p) (PFiles t r p').
Lemma alike_refl {R} (p : client R) : alike p p.
Proof. induction p; constructor; auto. Qed.
Definition says_nothing (f : fs) (ms : list message) (k : fs -> client fs) : client fs := k f.

Section Log.
Context (trace : text) (T : tfhe) (Y : crypto T) (v : verbosity).
Notation words := (c_words T Y).
Notation N1 := (t_n1 T).

Lemma offline_loop_alike (finish : backstream -> fs -> client fs) f n : forall r,
  alike (offline_loop_log T Y says_nothing n r f finish) (offline_loop T Y n r (fun r => finish r f)).
Proof.
  induction n as [|n IH]; intros r; cbn [offline_loop_log offline_loop]; [apply alike_refl|].
  constructor. intros c. unfold says_nothing. constructor. auto.
Qed.
Theorem C76_same f :
  (forall spec input output interval bkey sanitize, exists c c',
     silent (do_run_offline_log trace T Y store_file says_nothing f f spec input output interval bkey sanitize) = Ok c /\
     do_run_offline T Y f spec input output interval bkey sanitize = Ok c' /\
     cmd_kind c = cmd_kind c' /\ cmd_input c = cmd_input c' /\ alike (cmd_body c) (cmd_body c')) /\
  (forall spec input output dir freq interval sr bkey sanitize,
     silent (do_run_reverse_log trace T Y store_file says_nothing f f spec input output dir freq interval sr bkey sanitize) =
     do_run_reverse T Y f spec input output dir freq interval sr bkey sanitize) /\
  (forall spec input output dir freq queue_size interval bkey depth debug sanitize,
     silent (do_run_flut_log trace T Y store_file says_nothing f f spec input output dir freq queue_size interval bkey depth debug sanitize) =
     do_run_flut T Y f spec input output dir freq queue_size interval bkey depth debug sanitize) /\
  (forall spec input output queue_size bkey sanitize,
     silent (do_run_block_log trace T Y store_file says_nothing f f spec input output queue_size bkey sanitize) =
     do_run_block T Y f spec input output queue_size bkey sanitize).
Proof.
  split; [|split; [intros spec input [o|] [d|] *; reflexivity|split; reflexivity]].
  intros *. eexists _, _. split; [reflexivity|]. split; [reflexivity|]. do 2 (split; [reflexivity|]). cbn [cmd_body]. unfold says_nothing.
  constructor. intros [ekey ?]. constructor. intros m. constructor. intros n. constructor. intros r. constructor. intros n'.
  constructor. intros dl. constructor. intros k. apply (offline_loop_alike (fun r f => pdet (offline_result T r) (fun c =>
     store_file f output (archive_tlwe (t_n1 T) c) (fun w => PRet (Ok w))))).
Qed.

Hypothesis HW : 0 < words.
Hypothesis HB : (Z.of_nat (words * 8) < 2 ^ 63)%Z.

Lemma logs_ok f kd input p q log f2 cts :
  f input = Some (concat (map save cts)) -> Forall (is_ctxt words) cts ->
  (Z.of_nat (length cts * (words * 8)) < 2 ^ 64)%Z ->
  spoken p q (delivery kd cts) ([], f) (visible v log) f2 ->
  logs Y v f (Ok (mkCommand kd input q)) (Ok (kd, input, p)) log f2.
Proof.
  intros FI HC HL (A & B & C). split; [|split].
  - apply (run_ends_any T Y HW HB _ _ _ cts); auto.
  - cbn [log_ends]. rewrite FI. intros junk HJ.
    destruct (stream_client kd words cts HW HB HC HL p _ junk HJ A) as (s & E & EW). rewrite E. exact EW.
  - intros w [->|(kd' & input' & p' & bytes & junk & s & x & [= <- <- <-] & F2 & HJ & EO & M)].
    + eexists. reflexivity.
    + rewrite FI in F2. injection F2 as <-.
      destruct (stream_always kd words cts HW HB HC HL _ p _ junk s x w HJ C EO M) as (a & b & E1 & E2).
      exists b. rewrite E1. exact E2.
Qed.

Lemma widths_sum m r n interval l W : offline_new T m n interval true false = Ok r -> wf_graph m -> 
  (forall j, width m j (W j)) -> mapM (states_at_depth (b_graph r)) (seq 0 n) = Ok l ->
  list_sum (map (@length State) l) = list_sum (map W (seq 0 n)) /\ size (b_graph r) = size m /\ b_interval r = interval /\ b_nproc r = 0.
Proof.
  intros EN WM HWd EL. unfold offline_new, backstream_new in EN. cbn [assert_] in EN.
  destruct (states_at_depth_correct m n WM) as (g' & ER & W' & D & _ & _ & _ & SD). rewrite ER in EN. cbn [bind] in EN.
  apply bind_ok in EN as (w & _ & [= <-]). cbn [b_graph b_interval b_nproc] in *.
  split; [|split; [unfold size; rewrite D; reflexivity|auto]].
  assert (G : forall ks l, (forall k, In k ks -> k < n) -> mapM (states_at_depth g') ks = Ok l ->
    map (@length State) l = map W ks).
  { induction ks as [|k ks IH]; intros l0 HK H; cbn [mapM] in H.
    - injection H as <-. reflexivity.
    - apply bind_ok in H as (a & E1 & H). apply bind_ok in H as (b & E2 & [= <-]). cbn [map]. f_equal.
      + destruct (SD k) as (l1 & E & IS & HI); [apply HK; now left|]. rewrite E in E1. injection E1 as <-.
        apply (width_unique m k); [|apply HWd]. exists l1. split; [now apply is_set_NoDup|]. auto.
      + apply IH; auto. intros; apply HK; now right. }
  f_equal. apply G; [|exact EL]. intros k Hk. apply in_seq in Hk. lia.
Qed.
Lemma smallest_minimized g m : wf_graph g -> minimized g = Ok m -> smallest (accepts g) m.
Proof.
  intros W E. destruct (minimized_correct g W) as (m' & E' & WM & A & R & D). rewrite E in E'. injection E' as <-.
  split; [exact WM|]. split; [exact A|]. intros h Wh Ah. apply minimal; auto. intros w. rewrite A, Ah. reflexivity.
Qed.

Lemma flat_chat interval n : forall i, visible v (flat_map (fun i => bootstrapped interval (S i)) (seq i n)) =
  (fix chat n i := match n with O => [] | S n => visible v (bootstrapped interval (S i)) ++ chat n (S i) end) n i.
Proof.
  induction n as [|n IH]; intros i; cbn [seq flat_map]; [apply visible_nil|]. rewrite visible_app, IH. reflexivity.
Qed.
Lemma progress_shape {C C'} W depth q (h : list (option C)) : forall (h' : list (option C')) n p, shape h = shape h' ->
  flut_progress W depth q n p h = flut_progress W depth q n p h'.
Proof.
  induction h as [|[c|] h IH]; intros [|[c'|] h'] n p SH; try discriminate; [reflexivity| |]; injection SH as SH; cbn [flut_progress].
  - f_equal. destruct (S p <? q); [|f_equal]; auto.
  - destruct (p =? 0); [|f_equal]; auto.
Qed.

(** ** offline *)
Theorem C76_offline f bkey spec cipher output interval g n bytes kb ik sb :
  f bkey = Some kb -> c_read_bkey T Y kb = Some (true, ik) -> f spec = Some sb -> from_file f spec = Ok g -> 0 < size g ->
  f cipher = Some bytes -> ciphertexts words n bytes ->
  0 < N1 -> 0 < interval -> (Z.of_nat n < 2 ^ 31)%Z -> (Z.of_nat (n * (words * 8)) < 2 ^ 64)%Z ->
  exists skips m W f2, skipped (lines_of sb) skips /\ smallest (accepts g) m /\ (forall j, width m j (W j)) /\
    logs Y v f (do_run_offline T Y f spec cipher output interval bkey false)
      (do_run_offline_log trace T Y log_store (log_says v) f ([], f) spec cipher output interval bkey false)
      (offline_log skips n (size m) interval (list_sum (map W (seq 0 n)))) f2.
Proof.
  intros HK RK FS EG SG FC (B1 & B2) HN HI H31 H64.
  destruct (ctxts_of_bytes words n bytes B1 B2) as (cts & C1 & C2 & C3). subst bytes n.
  assert (W : wf_graph g) by (eapply from_file_wf; eauto).
  destruct (minimized_correct g W) as (m & EM & WM & _).
  destruct (offline_total T m interval (map (c_load T Y) cts) HN WM HI) as (c & EC); [now rewrite map_length|].
  destruct (file_messages_spec trace f spec sb g FS EG) as (skips & SK & EF).
  exists skips, m, (fun j => length (reach_list m j)), (write f output (archive_tlwe N1 c)).
  split; [exact SK|]. split; [now apply smallest_minimized|]. split; [now apply width_exists|].
  apply (logs_ok _ _ _ _ _ _ _ cts); auto. cbn [delivery].
  unfold offline_run in EC. rewrite map_length in EC.
  apply bind_ok in EC as (r & EN & EC). apply bind_ok in EC as (r' & EFo & ER).
  destruct (logged_depths_ok T m (length cts) interval r EN WM HI H31) as (dl & ED).
  destruct (widths_sum m r (length cts) interval dl _ EN WM (width_exists m WM) ED) as (ES & EZ & EI & EP).
  unfold offline_log. rewrite !visible_app. cbn [app]. rewrite EF.
  apply (spoken_mute _ _); [eapply archive_good; eapply read_bkey_is; eauto|]. apply (spoken_det _ (true, ik)); [eapply read_bkey_is; eauto|].
  apply spoken_says. apply (spoken_det _ m); [rewrite EG; exact EM|].
  apply spoken_size. rewrite rev_length. apply spoken_mute; [rewrite EN; reflexivity|]. apply (spoken_det _ r); [exact EN|]. apply spoken_size. rewrite rev_length.
  match goal with |- context [visible v (begin_params :: ?l)] =>
    change (begin_params :: l) with ([begin_params; shows "Mode" (lit "Offline FA Runner"); shows "Input size" (show_nat (length cts));
      shows "State size" (show_nat (size m)); shows "Bootstrapping frequency" (show_nat interval)] ++
     [shows "Total #CMUX" (show_nat (list_sum (map (fun j => length (reach_list m j)) (seq 0 (length cts)))));
      shows "Sanitization" (lit "false"); end_params]) end.
  rewrite visible_app, <- app_assoc. rewrite <- EZ, <- ES.
  apply spoken_says. apply (spoken_det _ dl); [exact ED|]. apply spoken_says. apply spoken_size. rewrite rev_length.
  rewrite flat_chat, <- (app_nil_r (_ (length cts) 0)), <- (rev_length cts), <- EP.
  match goal with |- spoken (offline_loop_log _ _ _ _ _ ?w _) _ _ _ _ _ =>
    pose proof (offline_spoken T Y v (rev cts) r r' w) as OS; rewrite EI in OS end. 
  eapply OS; [rewrite map_rev; exact EFo|]. intros l.
  apply (spoken_det _ c); [exact ER|]. apply (spoken_store _ _ _ _ _ (l, f)). apply (spoken_ret _ (_, _)).
Qed.

(** The number of CMUXes it announces is the number that the runner records. *)
Lemma offline_counts g W n cts : (Z.of_nat n < 2 ^ 31)%Z ->
  (forall k, k < n -> exists l, states_at_depth g k = Ok l /\ length l = W k) ->
  forall s s', b_graph s = g -> b_input_size s = Some n -> b_nproc s + length cts = n ->
  foldM (offline_eval_one T) cts s = Ok s' ->
  cmux_count (b_timer s') = cmux_count (b_timer s) + list_sum (map W (seq 0 (length cts))).
Proof.
  intros HL HS. induction cts as [|c cts IH]; intros s s' EG EI EP H; cbn [foldM length] in *.
  - injection H as <-. cbn. lia.
  - apply bind_ok in H as (t & E1 & H).
    assert (Q : b_graph t = g /\ b_input_size t = Some n /\ b_nproc t = S (b_nproc s) /\
                cmux_count (b_timer t) = cmux_count (b_timer s) + W (length cts)).
    { unfold offline_eval_one, backstream_eval in E1. cbv zeta in E1. rewrite EI, EG in E1.
      rewrite int_of_diff_small in E1 by lia. destruct (Z.ltb_spec 0 (Z.of_nat (n - b_nproc s))); [|lia]. cbn [assert_] in E1.
      replace (Z.to_nat (Z.of_nat (n - b_nproc s) - 1)) with (length cts) in E1 by lia.
      destruct (HS (length cts) ltac:(lia)) as (l & ES & EW). rewrite ES in E1. cbn [bind] in E1.
      apply bind_ok in E1 as (w & _ & E1). destruct (b_interval s =? 0); [discriminate|].
      assert (CA : forall a b, cmux_count (a ++ b) = cmux_count a + cmux_count b)
        by (intros; unfold cmux_count; rewrite map_app, list_sum_app; reflexivity).
      destruct (_ mod _ =? 0).
      - apply bind_ok in E1 as (w2 & _ & [= <-]). cbn [b_graph b_input_size b_nproc b_timer]. do 3 (split; [auto|]).
        rewrite !CA. cbn. lia.
      - injection E1 as <-. cbn [b_graph b_input_size b_nproc b_timer]. do 3 (split; [auto|]). rewrite !CA. cbn. lia. }
    destruct Q as (Q1 & Q2 & Q3 & Q4). rewrite (IH t s' Q1 Q2 ltac:(lia) H), Q4.
    rewrite seq_S, map_app, list_sum_app. cbn. lia.
Qed.
Theorem C76_total_cmux m n interval W r (cts : list (trgsw T)) r' : wf_graph m -> (forall j, width m j (W j)) ->
  (Z.of_nat n < 2 ^ 31)%Z -> length cts = n ->
  offline_new T m n interval true false = Ok r -> foldM (offline_eval_one T) cts r = Ok r' ->
  cmux_count (b_timer r') = list_sum (map W (seq 0 n)).
Proof.
  intros WM HWd HL LC EN EF. unfold offline_new, backstream_new in EN. cbn [assert_] in EN.
  destruct (states_at_depth_correct m n WM) as (g' & ER & _ & _ & _ & _ & _ & SD). rewrite ER in EN. cbn [bind] in EN.
  apply bind_ok in EN as (w & _ & [= <-]).
  rewrite (offline_counts g' W n cts HL) with (s' := r') (2 := eq_refl) (3 := eq_refl) (5 := EF); [rewrite LC; reflexivity| |cbn; lia].
  intros k Hk. destruct (SD k Hk) as (l & E & IS & HI). exists l. split; [exact E|].
  apply (width_unique m k); [|apply HWd]. exists l. split; [now apply is_set_NoDup|]. auto.
Qed.

(** ** reverse *)
Lemma reverse_new_facts g interval (sr : bool) r : wf_graph g -> 0 < interval -> reverse_new T g interval sr = Ok r ->
  b_interval r = interval /\ b_nproc r = 0 /\
  if sr then size (b_graph r) = size g else exists m, smallest (fun w => accepts g (rev w)) m /\ size (b_graph r) = size m.
Proof.
  intros W HI EN. unfold reverse_new, online2_new in EN. apply bind_ok in EN as (m & EM & EN).
  unfold backstream_new in EN. cbn [assert_ bind] in EN. apply bind_ok in EN as (w & _ & [= <-]). cbn [b_interval b_nproc b_graph].
  split; [reflexivity|]. split; [reflexivity|]. destruct sr.
  - injection EM as <-. reflexivity.
  - apply bind_ok in EM as (rg & ER & EM). exists m. split; [|reflexivity].
    destruct (reversed_correct g W) as (rg' & ER' & WR & AR & _). rewrite ER in ER'. injection ER' as <-.
    destruct (smallest_minimized rg m WR EM) as (WM & AM & SM).
    assert (Q : forall w, accepts rg w = accepts g (rev w)).
    { intros u. destruct (AR (rev u)) as (b & A1 & A2). rewrite rev_involutive in A2. congruence. }
    split; [exact WM|]. split; [intros u; rewrite AM; apply Q|]. intros h Wh Ah. apply SM; auto. intros u. now rewrite Q.
Qed.

Theorem C76_reverse f bkey spec cipher o interval freq spec_reversed g n bytes kb ik sb :
  f bkey = Some kb -> c_read_bkey T Y kb = Some (true, ik) -> f spec = Some sb -> from_file f spec = Ok g -> 0 < size g ->
  f cipher = Some bytes -> ciphertexts words n bytes -> freq_ok o freq cipher ->
  0 < N1 -> 0 < interval -> (Z.of_nat (n * (words * 8)) < 2 ^ 64)%Z ->
  exists skips states f2, skipped (lines_of sb) skips /\ reverse_states g spec_reversed states /\
    logs Y v f (do_run_reverse T Y f spec cipher (output_of o) (dir_of o) freq interval spec_reversed bkey false)
      (do_run_reverse_log trace T Y log_store (log_says v) f ([], f) spec cipher (output_of o) (dir_of o) freq interval spec_reversed bkey false)
      (reverse_log skips n states o interval) f2.
Proof.
  intros HK RK FS EG SG FC (B1 & B2) HO HN HI H64.
  destruct (ctxts_of_bytes words n bytes B1 B2) as (cts & C1 & C2 & C3). subst bytes n.
  assert (W : wf_graph g) by (eapply from_file_wf; eauto).
  destruct (reverse_total T g interval spec_reversed (freq_of (dir_of o) freq) (map (c_load T Y) cts) HN W HI) as (r & outs & s' & EN & EO).
  destruct (file_messages_spec trace f spec sb g FS EG) as (skips & SK & EF).
  destruct (reverse_new_facts g interval spec_reversed r W HI EN) as (EI & EP & ES).
  set (ps := shows_output o).
  set (hd := [begin_params; shows "Mode" (lit "Online FA Runner2 (reversed)"); shows "Input size" (hidden (length cts)); shows "State size" (show_nat (size (b_graph r)))] ++
    ps ++ [shows "Bootstrapping frequency" (show_nat interval); shows "Sanitization" (lit "false"); end_params]).
  set (w := (([] ++ visible v (file_messages trace f spec)) ++ visible v hd, f) : world).
  destruct (loop_spoken T Y v (backstream_eval_any T) (reverse_ask_any T) (online2_eval_one T) (reverse_ask T) back_messages (fun _ => [])
     (backstream_any_exact T) (fun s => exact_det _) cipher (dir_of o) freq cts 0 r w
     (last_output_log T log_store (log_says v) (reverse_ask_any T) (fun _ => []) (dir_of o) (output_of o) (length cts))
     (last_output T (reverse_ask_any T) (output_of o) (dir_of o) (length cts)) outs s') as (f2 & SP).
  { destruct o; cbn; [discriminate|]. intros d [= <-]. cbn in HO. lia. }
  { destruct o; cbn; [discriminate|]. intros d j [= <-]. apply HO. }
  { exact EO. }
  { intros t l f0 HX. apply (last_spoken T v (reverse_ask_any T) (reverse_ask T) (fun _ => []) (fun s => exact_det _)); auto. destruct o; discriminate. }
  exists skips, (size (b_graph r)), f2. split; [exact SK|]. split; [destruct spec_reversed; exact ES|].
  assert (EC := reverse_chat T _ _ 0 r outs s' EP EO). rewrite EC, map_length, EI in SP.
  assert (EL : visible v (reverse_log skips (length cts) (size (b_graph r)) o interval) =
     visible v (file_messages trace f spec) ++ visible v hd ++ visible v (flat_map (fun i => processing i :: bootstrapped interval (S i)) (seq 0 (length cts)))).
  { unfold reverse_log, hd, ps. rewrite EF, <- !visible_app, <- !app_assoc. reflexivity. }
  assert (EH : [(Info, lit "Parameter:"); param "Mode" (lit "Online FA Runner2 (reversed)");
              param "Input size" (show_nat (length cts) ++ lit " (hidden)"); param "State size" (show_nat (size (b_graph r)))] ++
             output_params (output_of o) (dir_of o) freq ++
             [param "Bootstrapping frequency" (show_nat interval);
              param "Sanitization" (fmt_bool false); (Info, [])] = hd).
  { unfold hd, ps. destruct o as [p|d k]; [reflexivity|]. cbn in HO. destruct HO as (-> & _). reflexivity. }
  assert (G : spoken 
    (log_says v ([], f) (archive_messages trace bkey (read_bkey T Y f bkey)) (fun w =>
     pdet (read_bkey T Y f bkey) (fun '(ekey, _) =>
     log_says v w (file_messages trace f spec) (fun w =>
     pdet (from_file f spec) (fun g =>
     log_says v w (sanitize_messages trace (online2_new T g interval spec_reversed ekey false)) (fun w =>
     pdet (online2_new T g interval spec_reversed ekey false) (fun r =>
     PSize (fun n =>
     log_says v w ([(Info, lit "Parameter:"); param "Mode" (lit "Online FA Runner2 (reversed)");
              param "Input size" (show_nat n ++ lit " (hidden)"); param "State size" (show_nat (size (b_graph r)))] ++
             output_params (output_of o) (dir_of o) freq ++
             [param "Bootstrapping frequency" (show_nat interval);
              param "Sanitization" (fmt_bool false); (Info, [])]) (fun w =>
     PSize (fun hidden =>
     monitor_loop_log T Y log_store (log_says v) (backstream_eval_any T) (reverse_ask_any T) back_messages (fun _ => [])
       cipher (dir_of o) freq
       (last_output_log T log_store (log_says v) (reverse_ask_any T) (fun _ => []) (dir_of o) (output_of o) hidden) hidden 0 r w))))))))))
    (pdet (read_bkey T Y f bkey) (fun '(ekey, _) =>
     pdet (from_file f spec) (fun g =>
     pdet (online2_new T g interval spec_reversed ekey false) (fun r =>
     PSize (fun _ => PSize (fun hidden =>
     monitor_loop T Y (backstream_eval_any T) (reverse_ask_any T) cipher (dir_of o) freq
       (last_output T (reverse_ask_any T) (output_of o) (dir_of o) hidden) hidden 0 r f))))))
     cts ([], f) (visible v (reverse_log skips (length cts) (size (b_graph r)) o interval)) f2).
  { rewrite EL. apply (spoken_mute _ _); [eapply archive_good; eapply read_bkey_is; eauto|]. apply (spoken_det _ (true, ik)); [eapply read_bkey_is; eauto|]. apply spoken_says.
    apply (spoken_det _ g); [exact EG|]. apply spoken_mute; [unfold reverse_new in EN; rewrite EN; reflexivity|]. apply (spoken_det _ r); [exact EN|]. apply spoken_size. rewrite EH.
    apply spoken_says. apply spoken_size. exact SP. }
  destruct o as [p|d k]; apply (logs_ok _ _ _ _ _ _ _ cts); auto.
Qed.

(** ** flut *)
Theorem C76_flut f bkey spec cipher o interval queue_size max_depth freq g n bytes kb sb :
  f bkey = Some kb -> c_read_bkey T Y kb = Some (true, true) -> f spec = Some sb -> from_file f spec = Ok g -> 0 < size g ->
  f cipher = Some bytes -> ciphertexts words n bytes -> freq_ok o freq cipher ->
  0 < queue_size < 31 -> 0 < interval -> max_depth < 31 -> table_fits N1 max_depth queue_size g ->
  (Z.of_nat (n * (words * 8)) < 2 ^ 64)%Z ->
  let calls := asked (match o with ToFile _ => None | ToDir _ k => Some k end) 0 (repeat tt n) in
  ~ (exists m k, In m (flushes queue_size 0 0 calls) /\ width g m k /\ 2 ^ max_depth <= k) ->
  exists skips W f2, skipped (lines_of sb) skips /\ (forall j, width g j (W j)) /\
    logs Y v f (do_run_flut T Y f spec cipher (output_of o) (dir_of o) freq queue_size interval bkey (Some max_depth) None false)
      (do_run_flut_log trace T Y log_store (log_says v) f ([], f) spec cipher (output_of o) (dir_of o) freq queue_size interval bkey (Some max_depth) None false)
      (flut_log skips n (size g) queue_size o interval W max_depth calls) f2.
Proof.
  intros HK RK FS EG SG FC (B1 & B2) HO HQ HI HD HN H64 calls NT.
  destruct (ctxts_of_bytes words n bytes B1 B2) as (cts & C1 & C2 & C3). subst bytes n.
  assert (W : wf_graph g) by (eapply from_file_wf; eauto).
  assert (EQF : match o with ToFile _ => None | ToDir _ k => Some k end = freq_of (dir_of o) freq).
  { destruct o; [reflexivity|]. cbn in HO. destruct HO as (-> & _). reflexivity. }
  unfold calls in *. rewrite EQF in *.
  destruct (flut_total T g max_depth queue_size interval (freq_of (dir_of o) freq) (map (c_load T Y) cts) W HQ HI HD HN) as (r & EN & _ & RO).
  rewrite map_length in RO. destruct (RO NT) as (outs & s' & EO).
  destruct (file_messages_spec trace f spec sb g FS EG) as (skips & SK & EF).
  pose proof (width_exists g W) as HWd. set (Wd := fun j => length (reach_list g j)) in *. change (forall j, width g j (Wd j)) in HWd.
  assert (ER : f_qsize T r = queue_size).
  { clear - EN. unfold flut_new in EN. apply bind_ok in EN as (a & _ & EN). apply bind_ok in EN as (b & _ & [= <-]). reflexivity. }
  (* the messages of the runner *)
  assert (EC : chat T (flut_eval_one T) (flut_result T) (flut_feed_messages trace T) (flut_ask_messages trace T) 0 (asked (freq_of (dir_of o) freq) 0 (map (c_load T Y) cts)) r =
     flut_progress Wd max_depth queue_size 0 0 (asked (freq_of (dir_of o) freq) 0 (repeat tt (length cts)))).
  { pose (T0 := quiet N1). pose (h0 := asked (freq_of (dir_of o) freq) 0 (repeat false (length cts))).
    assert (SH : shape (asked (freq_of (dir_of o) freq) 0 (map (c_load T Y) cts)) = shape h0).
    { apply shape_asked. now rewrite map_length, repeat_length. }
    assert (MA : flut_margin (size g * 2 ^ (queue_size / 2)) queue_size interval (toy_noise 0)).
    { unfold flut_margin. rewrite flut_noise_0. cbn. rewrite !Z.mul_0_r. reflexivity. }
    pose proof (quiet_ok N1 (proj1 HN)) as QO.
    destruct (flut_new_inv T0 _ _ _ _ QO quiet_nonneg g W max_depth queue_size interval) as (r0 & EN0 & INV); try lia; auto.
    assert (P : pub_flut T r = pub_flut T0 r0).
    { pose proof (req_flut_new T T0 g max_depth queue_size interval false) as R. rewrite EN, EN0 in R. exact R. }
    pose proof (C37_flut T T0 g max_depth queue_size interval _ h0 eq_refl SH) as OB. rewrite EN, EN0 in OB. cbn [bind] in OB.
    rewrite EO in OB. destruct (play (flut_eval_one T0) (flut_result T0) h0 r0) as [[o0 s0]|] eqn:EO0; [|discriminate].
    rewrite (flut_chat_pub trace T T0 eq_refl _ h0 0 r r0 SH P).
    pose proof (flut_chat trace T0 _ _ _ _ QO quiet_nonneg g W max_depth queue_size interval ltac:(lia) ltac:(lia) HI HD HN MA Wd HWd
      h0 h0 (zeros_encrypt h0) [] [] r0 o0 s0 INV ltac:(cbn; lia) EO0) as FCh. cbn [length Nat.add] in FCh.
    etransitivity; [exact FCh|]. apply progress_shape. apply shape_asked. now rewrite !repeat_length. }
  set (warning := match o with
        | ToDir _ k => if k mod queue_size =? 0 then []
                       else [(Warn, lit "Output frequency (" ++ show_nat k ++ lit ") is not the same as queue size (" ++ show_nat queue_size ++ lit ")")]
        | ToFile _ => []
        end).
  set (hd := [begin_params; shows "Mode" (lit "Online FA Runner3 (qtrlwe2)"); shows "Input size" (hidden (length cts)); shows "State size" (show_nat (size g));
      shows "Queue size" (show_nat queue_size)] ++
    shows_output o ++ [shows "Bootstrapping frequency" (show_nat interval); shows "Sanitization" (lit "false"); end_params]).
  set (w := ((([] ++ visible v (file_messages trace f spec)) ++ visible v hd) ++ visible v warning, f) : world).
  destruct (loop_spoken T Y v (flut_eval_one_any T) (flut_result_any T) (flut_eval_one T) (flut_result T) (flut_feed_messages trace T) (flut_ask_messages trace T)
     (flut_one_any_exact T) (flut_result_any_exact T) cipher (dir_of o) freq cts 0 r w
     (last_output_log T log_store (log_says v) (flut_result_any T) (flut_ask_messages trace T) (dir_of o) (output_of o) (length cts))
     (last_output T (flut_result_any T) (output_of o) (dir_of o) (length cts)) outs s') as (f2 & SP).
  { destruct o; cbn; [discriminate|]. intros d [= <-]. cbn in HO. lia. }
  { destruct o; cbn; [discriminate|]. intros d j [= <-]. apply HO. }
  { exact EO. }
  { intros t l f0 HX. apply (last_spoken T v (flut_result_any T) (flut_result T) (flut_ask_messages trace T) (flut_result_any_exact T)); auto. destruct o; discriminate. }
  exists skips, Wd, f2. split; [exact SK|]. split; [exact HWd|]. rewrite EC in SP.
  match goal with |- logs _ _ _ _ _ ?L _ => assert (EL : visible v L =
     visible v (file_messages trace f spec) ++ visible v hd ++ visible v warning ++
     visible v (flut_progress Wd max_depth queue_size 0 0 (asked (freq_of (dir_of o) freq) 0 (repeat tt (length cts))))) end.
  { unfold flut_log, hd, warning. rewrite EF, <- !visible_app, <- !app_assoc. reflexivity. }
  assert (EH : [(Info, lit "Parameter:"); param "Mode" (lit "Online FA Runner3 (qtrlwe2)");
              param "Input size" (show_nat (length cts) ++ lit " (hidden)"); param "State size" (show_nat (size g));
              param "Queue size" (show_nat (f_qsize T r))] ++
             output_params (output_of o) (dir_of o) freq ++
             [param "Bootstrapping frequency" (show_nat interval);
              param "Sanitization" (fmt_bool false); (Info, [])] = hd).
  { unfold hd. rewrite ER. destruct o as [p|d k]; [reflexivity|]. cbn in HO. destruct HO as (-> & _). reflexivity. }
  apply (logs_ok _ _ _ _ _ _ _ cts); auto. cbn [delivery]. rewrite EL.
  apply spoken_says. apply (spoken_det _ g); [exact EG|]. apply (spoken_mute _ _); [eapply archive_good; eapply read_bkey_is; eauto|]. apply (spoken_det _ (true, true)); [eapply read_bkey_is; eauto|].
  apply (spoken_det _ tt); [reflexivity|]. apply spoken_mute; [reflexivity|]. apply (spoken_det _ tt); [reflexivity|]. apply spoken_mute; [rewrite EN; reflexivity|]. apply (spoken_det _ r); [exact EN|].
  apply spoken_size. rewrite EH. apply spoken_says.
  apply (spoken_det _ tt). { destruct (dir_of o); [|reflexivity]. destruct (Nat.eqb_spec queue_size 0); [lia|reflexivity]. }
  match goal with |- spoken (log_says _ _ ?m _) _ _ _ _ _ => assert (EW : m = warning) end.
  { unfold warning. destruct o as [p|d k]; [reflexivity|]. cbn in HO. destruct HO as (-> & _). reflexivity. }
  rewrite EW. apply spoken_says. apply spoken_size. exact SP.
Qed.

(** ** block *)
Theorem C76_block f bkey spec cipher output queue_size g n bytes kb ik sb :
  f bkey = Some kb -> c_read_bkey T Y kb = Some (true, ik) -> f spec = Some sb -> from_file f spec = Ok g -> 0 < size g ->
  f cipher = Some bytes -> ciphertexts words n bytes -> 0 < n ->
  Nat.log2 (size g) + 1 < N1 -> Nat.log2 (size g) + 1 < 31 -> (Z.of_nat (n * (words * 8)) < 2 ^ 64)%Z ->
  exists skips f2, skipped (lines_of sb) skips /\
    logs Y v f (do_run_block T Y f spec cipher output queue_size bkey false)
      (do_run_block_log trace T Y log_store (log_says v) f ([], f) spec cipher output queue_size bkey false)
      (block_log skips n (size g) queue_size) f2.
Proof.
  intros HK RK FS EG SG FC (B1 & B2) N0 HL1 HL2 H64.
  destruct (ctxts_of_bytes words n bytes B1 B2) as (cts & C1 & C2 & C3). subst bytes n.
  assert (W : wf_graph g) by (eapply from_file_wf; eauto).
  destruct (block_total T Y HW HB g queue_size (map (c_load T Y) cts) W) as (r & outs & s' & EN & EO); auto.
  { destruct cts; [cbn in N0; lia|discriminate]. }
  destruct (file_messages_spec trace f spec sb g FS EG) as (skips & SK & EF).
  assert (ER : k_qsize T r = queue_size) by (injection EN as <-; reflexivity).
  set (hd := [begin_params; shows "Mode" (lit "Online FA Runner4 (block-backstream)"); shows "Input size" (hidden (length cts)); shows "State size" (show_nat (size g));
     shows "Queue size" (show_nat queue_size); shows "Sanitization" (lit "false"); end_params]).
  set (w := (([] ++ visible v (file_messages trace f spec)) ++ visible v hd, f) : world).
  destruct (loop_spoken T Y v (block_eval_one_any T) (block_result_any T) (block_eval_one T) (block_result T) (fun _ => []) (fun _ => [])
     (block_one_any_exact T) (block_result_any_exact T) cipher None 0 cts 0 r w
     (last_output_log T log_store (log_says v) (block_result_any T) (fun _ => []) None (Some output) (length cts))
     (last_output T (block_result_any T) (Some output) None (length cts)) outs s') as (f2 & SP); try discriminate.
  { exact EO. }
  { intros t l f0 HX. apply (last_spoken T v (block_result_any T) (block_result T) (fun _ => []) (block_result_any_exact T)); auto. discriminate. }
  exists skips, f2. split; [exact SK|].
  assert (EC := block_chat T _ 0 r outs s' EO). cbn [freq_of] in SP. rewrite EC, map_length in SP.
  assert (EL : visible v (block_log skips (length cts) (size g) queue_size) =
     visible v (file_messages trace f spec) ++ visible v hd ++ visible v (map processing (seq 0 (length cts)))).
  { unfold block_log, hd. rewrite EF, <- !visible_app. reflexivity. }
  apply (logs_ok _ _ _ _ _ _ _ cts); auto. cbn [delivery]. rewrite EL.
  apply spoken_says. apply (spoken_det _ g); [exact EG|]. apply (spoken_mute _ _); [eapply archive_good; eapply read_bkey_is; eauto|]. apply (spoken_det _ (true, ik)); [eapply read_bkey_is; eauto|].
  apply (spoken_det _ tt); [reflexivity|]. apply spoken_mute; [rewrite EN; reflexivity|]. apply (spoken_det _ r); [exact EN|]. apply spoken_size. rewrite ER.
  apply spoken_says. exact SP.
Qed.
End Log.

(** * Concrete cases: a specification with a comment in front, three made-up ciphertexts *)
Definition ex_logf : fs := write ex_srv ["s"%char] (map N_of_ascii (lit "# a comment" ++ c_nl :: ex_spec2)).
Lemma ex_logf_facts : ex_logf ["b"%char] = Some [8%N] /\ ex_logf ["c"%char] = Some (map N.of_nat (seq 200 24)) /\
  ex_logf ["s"%char] = Some (map N_of_ascii (lit "# a comment" ++ c_nl :: ex_spec2)) /\ from_file ex_logf ["s"%char] = Ok ex_g.
Proof. repeat split; vm_compute; reflexivity. Qed.
Lemma skip_line_inj a b : skip_line a = skip_line b -> a = b.
Proof. unfold skip_line. intros H. apply (f_equal snd) in H. cbn [snd] in H. now apply app_inv_head, app_inv_tail in H. Qed.
Lemma ex_logf_skips skips : skipped (lines_of (map N_of_ascii (lit "# a comment" ++ c_nl :: ex_spec2))) skips -> skips = [lit "# a comment"].
Proof.
  destruct (ex_logf_facts) as (_ & _ & FS & EG).
  destruct (file_messages_spec [] _ _ _ _ FS EG) as (out & S & M). intros H. rewrite <- (skipped_fun _ _ H _ S).
  assert (E : file_messages [] ex_logf ["s"%char] = [skip_line (lit "# a comment")]) by (vm_compute; reflexivity).
  rewrite E in M. destruct out as [|l [|]]; try discriminate M. cbn [map] in M.
  assert (Q : skip_line (lit "# a comment") = skip_line l) by congruence. now rewrite (skip_line_inj _ _ Q).
Qed.
(** With --verbose, a run of flut logs this. *)
Example C76_flut_nonvacuous : exists W f2, (forall j, width ex_g j (W j)) /\
  logs ex_Y VERBOSE ex_logf (do_run_flut ex_T ex_Y ex_logf ["s"%char] ["c"%char] None (Some ["d"%char]) 3 2 2 ["b"%char] (Some 2) None false)
    (do_run_flut_log [] ex_T ex_Y log_store (log_says VERBOSE) ex_logf ([], ex_logf) ["s"%char] ["c"%char] None (Some ["d"%char]) 3 2 2 ["b"%char] (Some 2) None false)
    ([(Info, lit "Skip line ""# a comment""");
      (Info, lit "Parameter:"); shows "Mode" (lit "Online FA Runner3 (qtrlwe2)"); shows "Input size" (lit "3 (hidden)");
      shows "State size" (lit "3"); shows "Queue size" (lit "2"); shows "Output directory" (lit "d"); shows "Output frequency" (lit "3");
      shows "Bootstrapping frequency" (lit "2"); shows "Sanitization" (lit "false"); (Info, []);
      (Warn, lit "Output frequency (3) is not the same as queue size (2)");
      (Debug, lit "Processing input 0"); (Debug, lit "Processing input 1")] ++
     evaluates W 2 0 2 ++ [(Debug, lit "Processing input 2")] ++ evaluates W 2 2 3) f2.
Proof.
  destruct ex_srv_file as (H1 & H2 & H3 & _ & H5 & _ & H7). destruct ex_logf_facts as (F1 & F2 & F3 & F4).
  destruct ex_from_file as (_ & WG & SG).
  destruct (C76_flut [] ex_T ex_Y VERBOSE H1 H2 ex_logf ["b"%char] ["s"%char] ["c"%char] (ToDir ["d"%char] 3) 2 2 2 3 ex_g 3 (map N.of_nat (seq 200 24))
    [8%N] _ F1 H5 F3 F4) as (skips & W & f2 & SK & HWd & L); auto; try (cbn; lia).
  - split; [reflexivity|]. split; [lia|]. apply ex_srv_names.
  - apply FlutFacts.depth_fits. cbn. lia.
  - intros (m & k & _ & HWk & HK). destruct (reach_exists ex_g m) as [l HR].
    rewrite (width_unique _ _ _ _ HWk (reach_width _ WG _ _ HR)) in HK.
    pose proof (reach_len _ WG _ _ HR) as HL. rewrite SG in HL. cbn in HK. lia.
  - exists W, f2. split; [exact HWd|]. apply ex_logf_skips in SK as ->. exact L.
Qed.
Example C76_reverse_nonvacuous : exists f2,
  logs ex_Y VERBOSE ex_logf (do_run_reverse ex_T ex_Y ex_logf ["s"%char] ["c"%char] (Some ["o"%char]) None 0 2 true ["b"%char] false)
    (do_run_reverse_log [] ex_T ex_Y log_store (log_says VERBOSE) ex_logf ([], ex_logf) ["s"%char] ["c"%char] (Some ["o"%char]) None 0 2 true ["b"%char] false)
    [(Info, lit "Skip line ""# a comment""");
      (Info, lit "Parameter:"); shows "Mode" (lit "Online FA Runner2 (reversed)"); shows "Input size" (lit "3 (hidden)");
      shows "State size" (lit "3"); shows "Output file name" (lit "o");
      shows "Bootstrapping frequency" (lit "2"); shows "Sanitization" (lit "false"); (Info, []);
      (Debug, lit "Processing input 0"); (Debug, lit "Processing input 1"); (Debug, lit "Bootstrapping occurred"); (Debug, lit "Processing input 2")] f2.
Proof.
  destruct ex_srv_file as (H1 & H2 & H3 & _ & H5 & _ & H7). destruct ex_logf_facts as (F1 & F2 & F3 & F4).
  destruct ex_from_file as (_ & WG & SG).
  destruct (C76_reverse [] ex_T ex_Y VERBOSE H1 H2 ex_logf ["b"%char] ["s"%char] ["c"%char] (ToFile ["o"%char]) 2 0 true ex_g 3 (map N.of_nat (seq 200 24))
    [8%N] true _ F1 H5 F3 F4) as (skips & k & f2 & SK & HS & L); auto; try (cbn; lia).
  - exists f2. apply ex_logf_skips in SK as ->. cbn in HS. subst k. rewrite SG in L. exact L.
Qed.
Example C76_offline_nonvacuous : exists m W f2, smallest (accepts ex_g) m /\ (forall j, width m j (W j)) /\
  logs ex_Y NORMAL ex_logf (do_run_offline ex_T ex_Y ex_logf ["s"%char] ["c"%char] ["o"%char] 2 ["b"%char] false)
    (do_run_offline_log [] ex_T ex_Y log_store (log_says NORMAL) ex_logf ([], ex_logf) ["s"%char] ["c"%char] ["o"%char] 2 ["b"%char] false)
    (offline_log [lit "# a comment"] 3 (size m) 2 (W 0 + W 1 + W 2)) f2.
Proof.
  destruct ex_srv_file as (H1 & H2 & H3 & _ & H5 & _ & H7). destruct ex_logf_facts as (F1 & F2 & F3 & F4).
  destruct ex_from_file as (_ & WG & SG).
  destruct (C76_offline [] ex_T ex_Y NORMAL H1 H2 ex_logf ["b"%char] ["s"%char] ["c"%char] ["o"%char] 2 ex_g 3 (map N.of_nat (seq 200 24))
    [8%N] true _ F1 H5 F3 F4) as (skips & m & W & f2 & SK & HS & HWd & L); auto; try (cbn; lia).
  - exists m, W, f2. split; [exact HS|]. split; [exact HWd|]. apply ex_logf_skips in SK as ->.
    replace (W 0 + W 1 + W 2) with (list_sum (map W (seq 0 3))) by (cbn; lia). exact L.
Qed.
Example C76_block_nonvacuous : exists f2,
  logs ex_Y QUIET ex_logf (do_run_block ex_T ex_Y ex_logf ["s"%char] ["c"%char] ["o"%char] 2 ["b"%char] false)
    (do_run_block_log [] ex_T ex_Y log_store (log_says QUIET) ex_logf ([], ex_logf) ["s"%char] ["c"%char] ["o"%char] 2 ["b"%char] false)
    (block_log [lit "# a comment"] 3 3 2) f2.
Proof.
  destruct ex_srv_file as (H1 & H2 & H3 & _ & H5 & _ & H7). destruct ex_logf_facts as (F1 & F2 & F3 & F4).
  destruct ex_from_file as (_ & WG & SG).
  destruct (C76_block [] ex_T ex_Y QUIET H1 H2 ex_logf ["b"%char] ["s"%char] ["c"%char] ["o"%char] 2 ex_g 3 (map N.of_nat (seq 200 24))
    [8%N] true _ F1 H5 F3 F4) as (skips & f2 & SK & L); auto; try (rewrite SG; cbn; lia); try (cbn; lia).
  exists f2. apply ex_logf_skips in SK as ->. rewrite SG in L. exact L.
Qed.
(** The smallest automaton of this specification announces 1 + 2 + 3 CMUXes for three inputs, and its runner records as many. *)
Example C76_total_cmux_witness :
  (do m <- minimized ex_g; do r <- offline_new ex_T m 3 2 true false;
   do r' <- foldM (offline_eval_one ex_T) [true; false; true] r; Ok (cmux_count (b_timer r'))) =
  (do m <- minimized ex_g; Ok (list_sum (map (fun j => length (reach_list m j)) (seq 0 3)))).
Proof. vm_compute. reflexivity. Qed.

Print Assumptions C76_same.
Print Assumptions C76_offline.
Print Assumptions C76_total_cmux.
Print Assumptions C76_reverse.
Print Assumptions C76_flut.
Print Assumptions C76_block.
