(** C80: a run on ciphertexts that cannot be done says why. *)
From Coq Require Import String.
From Coq Require Import List Arith Bool NArith ZArith Ascii Lia.
Import ListNotations.
From Verif Require Import Base BaseFacts GraphModel Spec GraphFacts GraphOps Minimize Quotient TextModel TextSpec DotModel BitsModel TorusModel TfheSpec TfheFacts
  RunnerModel RunnerSpec RunnerFacts ReachFacts FlutFacts PropsRunner ParModel SchedFacts StreamModel InputSpec StreamFacts PropsInput
  ClientModel ClientFacts CmdModel CmdSpec CmdFacts PropsCmd ObliviousSpec ObliviousFacts PropsOblivious ServerSpec ServerFacts PropsServer
  BenchFacts2 PropsText TextFacts MsgModel MsgSpec MsgFacts LogModel LogSpec LogFacts PropsLog RefuseSpec RefuseFacts.
Local Open Scope list_scope.

Section Refuse.
Context (trace : text) (T : tfhe) (Y : crypto T) (v : verbosity).
Notation words := (c_words T Y).
Notation N1 := (t_n1 T).
Hypothesis HW : 0 < words.
Hypothesis HB : (Z.of_nat (words * 8) < 2 ^ 63)%Z.

Lemma exits_ok f kd input p q log Q cts :
  f input = Some (concat (map save cts)) -> Forall (is_ctxt words) cts ->
  (Z.of_nat (length cts * (words * 8)) < 2 ^ 64)%Z ->
  stops FExit Q p q (delivery kd cts) ([], f) (visible v log) ->
  exits Y v f (Ok (mkCommand kd input q)) (Ok (kd, input, p)) log /\
  forall w, log_at Y (Ok (kd, input, p)) f w -> snd w = f \/ Q (snd w).
Proof.
  intros FI HC HL (A & B & C & f2 & D).
  assert (K : forall w, log_at Y (Ok (kd, input, p)) f w -> (exists rest, visible v log = fst w ++ rest) /\ (snd w = f \/ Q (snd w))).
  { intros w [->|(kd' & input' & p' & bytes & junk & s & x & [= <- <- <-] & F2 & HJ & EO & M)].
    - split; [eexists; reflexivity|now left].
    - rewrite FI in F2. injection F2 as <-.
      destruct (stream_always kd words cts HW HB HC HL _ p _ junk s x w HJ C EO M) as ((a & b & E1 & E2) & HQ).
      split; [|now right]. exists b. rewrite E1. exact E2. }
  split; [|intros w H; apply (K w H)]. split; [|split; [|split]].
  - apply (run_ends_any T Y HW HB _ _ _ cts); auto.
  - cbn [log_ends]. rewrite FI. intros junk HJ.
    destruct (stream_client kd words cts HW HB HC HL p _ junk HJ A) as (s & E & EW). rewrite E. exact EW.
  - intros w H. apply (K w H).
  - intros r w (kd' & input' & p' & bytes & junk & s & t & [= <- <- <-] & F2 & HJ & EO & M).
    rewrite FI in F2. injection F2 as <-.
    pose proof (stream_leaves kd words cts HW HB HC HL _ p _ junk s t r w HJ D EO M) as ->. reflexivity.
Qed.
Lemma refused_ok f kd input p q log cts :
  f input = Some (concat (map save cts)) -> Forall (is_ctxt words) cts ->
  (Z.of_nat (length cts * (words * 8)) < 2 ^ 64)%Z ->
  stops FExit (fun f' => f' = f) p q (delivery kd cts) ([], f) (visible v log) ->
  refused Y v f (Ok (mkCommand kd input q)) (Ok (kd, input, p)) log.
Proof.
  intros FI HC HL ST. destruct (exits_ok _ _ _ _ _ _ _ _ FI HC HL ST) as [X K]. split; [exact X|].
  intros w H. destruct (K w H); auto.
Qed.

(** ** The reasons *)
Lemma bad_bkey f p b : f p = Some b -> c_read_bkey T Y b = None ->
  read_bkey T Y f p = Fail FExit /\ archive_messages trace p (read_bkey T Y f p) = error trace (lit "Invalid archive: " ++ p).
Proof.
  intros H1 H2. assert (E : read_bkey T Y f p = Fail FExit) by (unfold read_bkey, open_file; rewrite H1; cbn [bind]; now rewrite H2).
  split; [exact E|]. now rewrite E.
Qed.
Lemma bad_skey f p b : f p = Some b -> c_read_skey T Y b = false ->
  read_skey T Y f p = Fail FExit /\ archive_messages trace p (read_skey T Y f p) = error trace (lit "Invalid archive: " ++ p).
Proof.
  intros H1 H2. assert (E : read_skey T Y f p = Fail FExit) by (unfold read_skey, open_file; rewrite H1; cbn [bind]; now rewrite H2).
  split; [exact E|]. now rewrite E.
Qed.
Lemma bad_spec f p sb skips m : f p = Some sb -> rejected sb skips m ->
  from_file f p = Fail FExit /\ file_messages trace f p = map skip_line skips ++ error trace m.
Proof.
  unfold from_file, open_file, file_messages, from_file_said. intros -> (pre & l & post & rows & E & HR & SK & B).
  pose proof (lines_of_getlines (map ascii_of_N sb)) as HL. unfold LogSpec.lines_of in E. rewrite E in HL.
  destruct (skips_ex pre) as (ns & HS).
  pose proof (file_bad trace _ pre l post rows _ ns HL HR HS B) as HF. cbn [bind].
  rewrite <- (from_istream_same trace), HF. split; [reflexivity|].
  cbn [complains fst]. destruct (skips_skipped _ _ HS) as (out & S1 & M). rewrite (skipped_fun _ _ S1 _ SK).
  rewrite map_app, M. reflexivity.
Qed.

(** a command that fails in its first steps *)
Ltac begin cts := apply (refused_ok _ _ _ _ _ _ cts); auto; cbn [delivery].
Ltac says := apply stops_says.
Ltac mute := apply stops_mute; [try reflexivity; try (eapply archive_good; eapply read_bkey_is; eauto)|].
Ltac get a := apply (stops_det _ _ _ a); [try reflexivity; try (eapply read_bkey_is; eauto)|].
Lemma stops_die (Q : fs -> Prop) {X} ms (m : res X) k k' rem w : Q (snd w) -> m = Fail FExit ->
  stops FExit Q (log_says v w ms (fun w => pdet m (k w))) (pdet m k') rem w (visible v ms).
Proof. intros HQ E. rewrite <- (app_nil_r (visible v ms)). apply stops_says. now apply stops_det_fail. Qed.
Ltac die := apply stops_die; [reflexivity|].

Theorem C80_offline f bkey spec cipher output interval sanitize n bytes kb :
  f cipher = Some bytes -> ciphertexts words n bytes -> (Z.of_nat (n * (words * 8)) < 2 ^ 64)%Z -> f bkey = Some kb ->
  let refuses := refused Y v f (do_run_offline T Y f spec cipher output interval bkey sanitize)
                   (do_run_offline_log trace T Y log_store (log_says v) f ([], f) spec cipher output interval bkey sanitize) in
  (c_read_bkey T Y kb = None -> refuses (error trace (lit "Invalid archive: " ++ bkey))) /\
  (forall k sb skips m, c_read_bkey T Y kb = Some k -> f spec = Some sb -> rejected sb skips m ->
     refuses (map skip_line skips ++ error trace m)) /\
  (forall ik sb g, c_read_bkey T Y kb = Some (true, ik) -> f spec = Some sb -> from_file f spec = Ok g -> 0 < size g -> sanitize = true ->
     exists skips, skipped (LogSpec.lines_of sb) skips /\
       refuses (map skip_line skips ++ error trace (lit "Sanitization of results is not implemented"))).
Proof.
  intros FC (B1 & B2) H64 HK refuses. destruct (ctxts_of_bytes words n bytes B1 B2) as (cts & C1 & C2 & C3). subst bytes n.
  split; [|split].
  - intros RK. destruct (bad_bkey f bkey kb HK RK) as [E M]. begin cts. rewrite M. die. exact E.
  - intros k sb skips m RK FS RJ. destruct (bad_spec f spec sb skips m FS RJ) as [E M]. begin cts. mute. get k. destruct k as [ekey ik].
    rewrite M. die. now rewrite E.
  - intros ik sb g RK FS EG SG ->. destruct (file_messages_spec trace f spec sb g FS EG) as (skips & SK & EF).
    exists skips. split; [exact SK|]. begin cts. mute. get (true, ik). rewrite EF, visible_app. says.
    destruct (minimized_correct g (from_file_wf f spec g EG SG)) as (mg & EM & _). get mg; [now rewrite EG|]. apply stops_size. die. reflexivity.
Qed.

Theorem C80_reverse f bkey spec cipher o interval freq spec_reversed sanitize n bytes kb :
  f cipher = Some bytes -> ciphertexts words n bytes -> (Z.of_nat (n * (words * 8)) < 2 ^ 64)%Z -> f bkey = Some kb ->
  let refuses := refused Y v f (do_run_reverse T Y f spec cipher (output_of o) (dir_of o) freq interval spec_reversed bkey sanitize)
                   (do_run_reverse_log trace T Y log_store (log_says v) f ([], f) spec cipher (output_of o) (dir_of o) freq interval spec_reversed bkey sanitize) in
  (c_read_bkey T Y kb = None -> refuses (error trace (lit "Invalid archive: " ++ bkey))) /\
  (forall k sb skips m, c_read_bkey T Y kb = Some k -> f spec = Some sb -> rejected sb skips m ->
     refuses (map skip_line skips ++ error trace m)) /\
  (forall ik sb g, c_read_bkey T Y kb = Some (true, ik) -> f spec = Some sb -> from_file f spec = Ok g -> 0 < size g -> sanitize = true ->
     exists skips, skipped (LogSpec.lines_of sb) skips /\
       refuses (map skip_line skips ++ error trace (lit "Sanitization of results is not implemented"))).
Proof.
  intros FC (B1 & B2) H64 HK refuses. destruct (ctxts_of_bytes words n bytes B1 B2) as (cts & C1 & C2 & C3). subst bytes n.
  split; [|split].
  - intros RK. destruct (bad_bkey f bkey kb HK RK) as [E M]. subst refuses.
    destruct o as [p|d k]; begin cts; rewrite M; die; exact E.
  - intros k sb skips m RK FS RJ. destruct (bad_spec f spec sb skips m FS RJ) as [E M]. subst refuses.
    destruct o as [p|d k']; begin cts; mute; get k; destruct k as [ekey ik]; rewrite M; die; exact E.
  - intros ik sb g RK FS EG SG ->. destruct (file_messages_spec trace f spec sb g FS EG) as (skips & SK & EF).
    exists skips. split; [exact SK|].
    assert (E : online2_new T g interval spec_reversed true true = Fail FExit).
    { assert (W : wf_graph g) by (eapply from_file_wf; eauto). unfold online2_new. destruct spec_reversed; [reflexivity|].
      destruct (reversed_correct g W) as (rg & ER & WR & _). destruct (minimized_correct rg WR) as (mg & EM & _).
      rewrite ER. cbn [bind]. rewrite EM. reflexivity. }
    subst refuses.
    destruct o as [p|d k']; begin cts; mute; get (true, ik); rewrite EF, visible_app; says; (get g; [exact EG|]); rewrite E; die; reflexivity.
Qed.

Theorem C80_flut f bkey spec cipher output dir freq queue_size interval depth debug sanitize n bytes sb :
  f cipher = Some bytes -> ciphertexts words n bytes -> (Z.of_nat (n * (words * 8)) < 2 ^ 64)%Z -> f spec = Some sb ->
  let refuses := refused Y v f (do_run_flut T Y f spec cipher output dir freq queue_size interval bkey depth debug sanitize)
                   (do_run_flut_log trace T Y log_store (log_says v) f ([], f) spec cipher output dir freq queue_size interval bkey depth debug sanitize) in
  (forall skips m, rejected sb skips m -> refuses (map skip_line skips ++ error trace m)) /\
  (forall g, from_file f spec = Ok g -> exists skips, skipped (LogSpec.lines_of sb) skips /\
   let complains m := refuses (map skip_line skips ++ error trace m) in
   (forall kb, f bkey = Some kb -> c_read_bkey T Y kb = None -> complains (lit "Invalid archive: " ++ bkey)) /\
   (forall kb, f bkey = Some kb -> c_read_bkey T Y kb = Some (true, true) ->
    (forall d db, debug = Some d -> f d = Some db -> c_read_skey T Y db = false -> complains (lit "Invalid archive: " ++ d)) /\
    ((forall d, debug = Some d -> exists db, f d = Some db /\ c_read_skey T Y db = true) -> sanitize = true ->
     complains (lit "Sanitization of results is not implemented")))).
Proof.
  intros FC (B1 & B2) H64 FS refuses. destruct (ctxts_of_bytes words n bytes B1 B2) as (cts & C1 & C2 & C3). subst bytes n.
  split.
  - intros skips m RJ. destruct (bad_spec f spec sb skips m FS RJ) as [E M]. begin cts. rewrite M. die. exact E.
  - intros g EG. destruct (file_messages_spec trace f spec sb g FS EG) as (skips & SK & EF). exists skips. split; [exact SK|]. split; [|split].
    + intros kb HK RK. destruct (bad_bkey f bkey kb HK RK) as [E M]. begin cts. rewrite EF, visible_app. says. get g; [exact EG|].
      rewrite M. die. exact E.
    + intros d db -> HD RD. destruct (bad_skey f d db HD RD) as [E M]. begin cts. rewrite EF, visible_app. says. get g; [exact EG|].
      mute. get (true, true). get tt. rewrite M. die. exact E.
    + intros HD ->. begin cts. rewrite EF, visible_app. says. get g; [exact EG|]. mute. get (true, true). get tt.
      assert (ED : match debug with Some d => read_skey T Y f d | None => Ok tt end = Ok tt).
      { destruct debug as [d|]; [|reflexivity]. destruct (HD d eq_refl) as (db & H1 & H2). unfold read_skey, open_file. rewrite H1. cbn [bind].
        now rewrite H2. }
      apply stops_mute; [destruct debug; [eapply archive_good; exact ED|reflexivity]|].
      get tt; [exact ED|]. die. reflexivity.
Qed.

Theorem C80_block f bkey spec cipher output queue_size sanitize n bytes sb :
  f cipher = Some bytes -> ciphertexts words n bytes -> (Z.of_nat (n * (words * 8)) < 2 ^ 64)%Z -> f spec = Some sb ->
  let refuses := refused Y v f (do_run_block T Y f spec cipher output queue_size bkey sanitize)
                   (do_run_block_log trace T Y log_store (log_says v) f ([], f) spec cipher output queue_size bkey sanitize) in
  (forall skips m, rejected sb skips m -> refuses (map skip_line skips ++ error trace m)) /\
  (forall g, from_file f spec = Ok g -> exists skips, skipped (LogSpec.lines_of sb) skips /\
   let complains m := refuses (map skip_line skips ++ error trace m) in
   forall kb, f bkey = Some kb ->
    (c_read_bkey T Y kb = None -> complains (lit "Invalid archive: " ++ bkey)) /\
    (forall ik, c_read_bkey T Y kb = Some (true, ik) -> sanitize = true -> complains (lit "Sanitization of results is not implemented"))).
Proof.
  intros FC (B1 & B2) H64 FS refuses. destruct (ctxts_of_bytes words n bytes B1 B2) as (cts & C1 & C2 & C3). subst bytes n.
  split.
  - intros skips m RJ. destruct (bad_spec f spec sb skips m FS RJ) as [E M]. begin cts. rewrite M. die. exact E.
  - intros g EG. destruct (file_messages_spec trace f spec sb g FS EG) as (skips & SK & EF). exists skips. split; [exact SK|].
    intros complains kb HK. split.
    + intros RK. destruct (bad_bkey f bkey kb HK RK) as [E M]. begin cts. rewrite EF, visible_app. says. get g; [exact EG|].
      rewrite M. die. exact E.
    + intros ik RK ->. begin cts. rewrite EF, visible_app. says. get g; [exact EG|]. mute. get (true, ik). get tt. die. reflexivity.
Qed.

(** ** flut gives up *)
Theorem C80_crowded f bkey spec cipher o interval queue_size max_depth freq g n bytes kb sb :
  f bkey = Some kb -> c_read_bkey T Y kb = Some (true, true) -> f spec = Some sb -> from_file f spec = Ok g -> 0 < size g ->
  f cipher = Some bytes -> ciphertexts words n bytes -> freq_ok o freq cipher ->
  0 < queue_size < 31 -> 0 < interval -> max_depth < 31 -> table_fits N1 max_depth queue_size g ->
  (Z.of_nat (n * (words * 8)) < 2 ^ 64)%Z ->
  let calls := asked (match o with ToFile _ => None | ToDir _ k => Some k end) 0 (repeat tt n) in
  (exists m k, In m (flushes queue_size 0 0 calls) /\ width g m k /\ 2 ^ max_depth <= k) ->
  exists skips W, skipped (LogSpec.lines_of sb) skips /\ (forall j, width g j (W j)) /\
    exits Y v f (do_run_flut T Y f spec cipher (output_of o) (dir_of o) freq queue_size interval bkey (Some max_depth) None false)
      (do_run_flut_log trace T Y log_store (log_says v) f ([], f) spec cipher (output_of o) (dir_of o) freq queue_size interval bkey (Some max_depth) None false)
      (flut_head skips n (size g) queue_size o interval W ++ flut_gives_up trace W max_depth queue_size 0 0 calls).
Proof.
  intros HK RK FS EG SG FC (B1 & B2) HO HQ HI HD HN H64 calls CR.
  destruct (ctxts_of_bytes words n bytes B1 B2) as (cts & C1 & C2 & C3). subst bytes n.
  assert (W : wf_graph g) by (eapply from_file_wf; eauto).
  assert (EQF : match o with ToFile _ => None | ToDir _ k => Some k end = freq_of (dir_of o) freq).
  { destruct o; [reflexivity|]. cbn in HO. destruct HO as (-> & _). reflexivity. }
  unfold calls in *. rewrite EQF in *.
  destruct (flut_total T g max_depth queue_size interval (freq_of (dir_of o) freq) (map (c_load T Y) cts) W HQ HI HD HN) as (r & EN & RO & _).
  rewrite map_length in RO. specialize (RO CR).
  destruct (file_messages_spec trace f spec sb g FS EG) as (skips & SK & EF).
  pose proof (width_exists g W) as HWd. set (Wd := fun j => length (reach_list g j)) in *. change (forall j, width g j (Wd j)) in HWd.
  assert (ER : f_qsize T r = queue_size).
  { clear - EN. unfold flut_new in EN. apply bind_ok in EN as (a & _ & EN). apply bind_ok in EN as (b & _ & [= <-]). reflexivity. }
  assert (EC : chat T (flut_eval_one T) (flut_result T) (flut_feed_messages trace T) (flut_ask_messages trace T) 0 (asked (freq_of (dir_of o) freq) 0 (map (c_load T Y) cts)) r =
     flut_gives_up trace Wd max_depth queue_size 0 0 (asked (freq_of (dir_of o) freq) 0 (repeat tt (length cts)))).
  { pose (T0 := quiet N1). pose (h0 := asked (freq_of (dir_of o) freq) 0 (repeat false (length cts))).
    assert (SH : shape (asked (freq_of (dir_of o) freq) 0 (map (c_load T Y) cts)) = shape h0).
    { apply shape_asked. now rewrite map_length, repeat_length. }
    assert (MA : flut_margin (size g * 2 ^ (queue_size / 2)) queue_size interval (toy_noise 0)).
    { unfold flut_margin. rewrite flut_noise_0. cbn. rewrite !Z.mul_0_r. reflexivity. }
    pose proof (quiet_ok N1 (proj1 HN)) as QO.
    destruct (flut_new_inv T0 _ _ _ _ QO quiet_nonneg g W max_depth queue_size interval) as (r0 & EN0 & INV); try lia; auto.
    assert (P : pub_flut T r = pub_flut T0 r0).
    { pose proof (req_flut_new T T0 g max_depth queue_size interval false) as R. rewrite EN, EN0 in R. exact R. }
    pose proof (C37_flut T T0 g max_depth queue_size interval _ h0 eq_refl SH) as OB. rewrite EN, EN0 in OB. cbn [bind] in OB.
    rewrite RO in OB. destruct (play (flut_eval_one T0) (flut_result T0) h0 r0) as [[o0 s0]|e0] eqn:EO0; [discriminate|].
    assert (e0 = FExit) as -> by (cbn in OB; congruence).
    rewrite (flut_chat_pub trace T T0 eq_refl _ h0 0 r r0 SH P).
    pose proof (flut_chat_exit trace T0 _ _ _ _ QO quiet_nonneg g W max_depth queue_size interval ltac:(lia) ltac:(lia) HI HD HN MA Wd HWd
      h0 h0 (zeros_encrypt h0) [] [] r0 INV ltac:(cbn; lia) EO0) as FCh. cbn [length Nat.add] in FCh.
    etransitivity; [exact FCh|]. apply gives_up_shape. apply shape_asked. now rewrite !repeat_length. }
  set (warning := match o with
        | ToDir _ k => if k mod queue_size =? 0 then []
                       else [(Warn, lit "Output frequency (" ++ show_nat k ++ lit ") is not the same as queue size (" ++ show_nat queue_size ++ lit ")")]
        | ToFile _ => []
        end).
  set (hd := [begin_params; shows "Mode" (lit "Online FA Runner3 (qtrlwe2)"); shows "Input size" (hidden (length cts)); shows "State size" (show_nat (size g));
      shows "Queue size" (show_nat queue_size)] ++
    shows_output o ++ [shows "Bootstrapping frequency" (show_nat interval); shows "Sanitization" (lit "false"); end_params]).
  set (w := ((([] ++ visible v (file_messages trace f spec)) ++ visible v hd) ++ visible v warning, f) : world).
  pose proof (loop_stops T Y v FExit (fun _ => True) (flut_eval_one_any T) (flut_result_any T) (flut_eval_one T) (flut_result T)
     (flut_feed_messages trace T) (flut_ask_messages trace T)
     (flut_one_any_exact T) (flut_result_any_exact T) (one_exit T) (result_exit T) (fun _ => I) cipher (dir_of o) freq cts 0 r w (output_of o) (length cts)) as SP.
  exists skips, Wd. split; [exact SK|]. split; [exact HWd|]. rewrite EC in SP.
  match goal with |- exits _ _ _ _ _ ?L => assert (EL : visible v L =
     visible v (file_messages trace f spec) ++ visible v hd ++ visible v warning ++
     visible v (flut_gives_up trace Wd max_depth queue_size 0 0 (asked (freq_of (dir_of o) freq) 0 (repeat tt (length cts))))) end.
  { unfold flut_head, flut_log, hd, warning. cbn [flut_progress]. rewrite EF, <- !visible_app, app_nil_r, <- !app_assoc. reflexivity. }
  assert (EH : [(Info, lit "Parameter:"); param "Mode" (lit "Online FA Runner3 (qtrlwe2)");
              param "Input size" (show_nat (length cts) ++ lit " (hidden)"); param "State size" (show_nat (size g));
              param "Queue size" (show_nat (f_qsize T r))] ++
             output_params (output_of o) (dir_of o) freq ++
             [param "Bootstrapping frequency" (show_nat interval);
              param "Sanitization" (fmt_bool false); (Info, [])] = hd).
  { unfold hd. rewrite ER. destruct o as [p|d k]; [reflexivity|]. cbn in HO. destruct HO as (-> & _). reflexivity. }
  eapply (exits_ok _ _ _ _ _ _ (fun _ => True) cts); auto. cbn [delivery]. rewrite EL.
  says. get g; [exact EG|]. mute. get (true, true). get tt. mute. get tt.
  apply stops_mute; [rewrite EN; reflexivity|]. get r; [exact EN|].
  apply stops_size. rewrite EH. says.
  get tt. { destruct (dir_of o); [|reflexivity]. destruct (Nat.eqb_spec queue_size 0); [lia|reflexivity]. }
  match goal with |- stops _ _ (log_says _ _ ?m _) _ _ _ _ => assert (EW : m = warning) end.
  { unfold warning. destruct o as [p|d k]; [reflexivity|]. cbn in HO. destruct HO as (-> & _). reflexivity. }
  rewrite EW. says. apply stops_size. apply SP.
  - destruct o; cbn; [discriminate|]. intros d [= <-]. cbn in HO. lia.
  - destruct o; cbn; [discriminate|]. intros d j [= <-]. apply HO.
  - exact RO.
Qed.
End Refuse.

(** * Concrete cases *)
(** A file that is no bootstrapping key: even with --quiet the name of the file is reported. *)
Definition ex_badkey : fs := write ex_logf ["b"%char] [9%N].
Example C80_offline_nonvacuous trace sanitize :
  refused ex_Y QUIET ex_badkey (do_run_offline ex_T ex_Y ex_badkey ["s"%char] ["c"%char] ["o"%char] 2 ["b"%char] sanitize)
    (do_run_offline_log trace ex_T ex_Y log_store (log_says QUIET) ex_badkey ([], ex_badkey) ["s"%char] ["c"%char] ["o"%char] 2 ["b"%char] sanitize)
    [(Err, lit "Invalid archive: b"); (Err, lit "Preparing backtrace..."); (Err, trace)].
Proof.
  destruct ex_srv_file as (H1 & H2 & _ & _ & _ & _ & H7).
  assert (F1 : ex_badkey ["c"%char] = Some (map N.of_nat (seq 200 24))) by (vm_compute; reflexivity).
  assert (F2 : ex_badkey ["b"%char] = Some [9%N]) by (vm_compute; reflexivity).
  apply (proj1 (C80_offline trace ex_T ex_Y QUIET H1 H2 ex_badkey ["b"%char] ["s"%char] ["c"%char] ["o"%char] 2 sanitize 3 _ [9%N] F1 H7 ltac:(cbn; lia) F2)).
  reflexivity.
Qed.
(** A specification whose second row has a wrong number. *)
Definition ex_badspec : fs := write ex_logf ["s"%char] (map N_of_ascii (lit "# a comment" ++ c_nl :: lit ">0 1 0" ++ c_nl :: lit "5* 0 1")).
Lemma ex_rejected : rejected (map N_of_ascii (lit "# a comment" ++ c_nl :: lit ">0 1 0" ++ c_nl :: lit "5* 0 1")) [lit "# a comment"]
  (lit "Invalid state number: 5 != 1").
Proof.
  exists [lit "# a comment"; lit ">0 1 0"], (lit "5* 0 1"), [], [(true, false, [1], [0])].
  split; [vm_compute; reflexivity|].
  split; [apply rows_of_skip; [reflexivity|]; eapply (rows_of_step 0 _ _ _ (mkRow true (lit "0") false (lit "1") (lit "0"))); try reflexivity; constructor|].
  split.
  - apply sk_skip; [apply match_row_none; reflexivity|].
    apply sk_row; [|constructor]. exists true, (lit "0"), false, (lit "1"), (lit "0"). apply match_row_iff. reflexivity.
  - assert (R : row_format (lit "5* 0 1") false (lit "5") true (lit "0") (lit "1")) by (apply match_row_iff; reflexivity).
    pose proof R as (? & ? & _ & _ & D & _ & _ & _ & _ & F0 & F1).
    eapply (bad_number 1 _ false (lit "5") true (lit "0") (lit "1") [0] [1] 5); auto.
    + apply load_states_ok; auto.
    + apply load_states_ok; auto.
    + apply load_item_ok; auto.
Qed.
Example C80_reverse_nonvacuous trace sanitize :
  refused ex_Y NORMAL ex_badspec (do_run_reverse ex_T ex_Y ex_badspec ["s"%char] ["c"%char] (Some ["o"%char]) None 0 2 true ["b"%char] sanitize)
    (do_run_reverse_log trace ex_T ex_Y log_store (log_says NORMAL) ex_badspec ([], ex_badspec) ["s"%char] ["c"%char] (Some ["o"%char]) None 0 2 true ["b"%char] sanitize)
    [(Info, lit "Skip line ""# a comment"""); (Err, lit "Invalid state number: 5 != 1"); (Err, lit "Preparing backtrace..."); (Err, trace)].
Proof.
  destruct ex_srv_file as (H1 & H2 & _ & _ & H5 & _ & H7).
  assert (F1 : ex_badspec ["c"%char] = Some (map N.of_nat (seq 200 24))) by (vm_compute; reflexivity).
  assert (F2 : ex_badspec ["b"%char] = Some [8%N]) by (vm_compute; reflexivity).
  destruct (C80_reverse trace ex_T ex_Y NORMAL H1 H2 ex_badspec ["b"%char] ["s"%char] ["c"%char] (ToFile ["o"%char]) 2 0 true sanitize 3 _ [8%N] F1 H7 ltac:(cbn; lia) F2)
    as (_ & X & _).
  apply (X _ _ _ _ H5 eq_refl ex_rejected).
Qed.
(** Sanitization is asked for. *)
Example C80_block_nonvacuous trace :
  refused ex_Y VERBOSE ex_logf (do_run_block ex_T ex_Y ex_logf ["s"%char] ["c"%char] ["o"%char] 2 ["b"%char] true)
    (do_run_block_log trace ex_T ex_Y log_store (log_says VERBOSE) ex_logf ([], ex_logf) ["s"%char] ["c"%char] ["o"%char] 2 ["b"%char] true)
    [(Info, lit "Skip line ""# a comment"""); (Err, lit "Sanitization of results is not implemented"); (Err, lit "Preparing backtrace..."); (Err, trace)].
Proof.
  destruct ex_srv_file as (H1 & H2 & _ & _ & H5 & _ & H7). destruct ex_logf_facts as (F1 & F2 & F3 & F4).
  destruct (C80_block trace ex_T ex_Y VERBOSE H1 H2 ex_logf ["b"%char] ["s"%char] ["c"%char] ["o"%char] 2 true 3 _ _ F2 H7 ltac:(cbn; lia) F3) as (_ & X).
  destruct (X _ F4) as (skips & SK & R). apply ex_logf_skips in SK as ->. exact (proj2 (R _ F1) true H5 eq_refl).
Qed.
(** The bootstrapping key in place of the secret key for debugging. *)
Example C80_flut_nonvacuous trace :
  refused ex_Y VERBOSE ex_logf (do_run_flut ex_T ex_Y ex_logf ["s"%char] ["c"%char] None (Some ["d"%char]) 3 2 2 ["b"%char] (Some 2) (Some ["b"%char]) false)
    (do_run_flut_log trace ex_T ex_Y log_store (log_says VERBOSE) ex_logf ([], ex_logf) ["s"%char] ["c"%char] None (Some ["d"%char]) 3 2 2 ["b"%char] (Some 2) (Some ["b"%char]) false)
    [(Info, lit "Skip line ""# a comment"""); (Err, lit "Invalid archive: b"); (Err, lit "Preparing backtrace..."); (Err, trace)].
Proof.
  destruct ex_srv_file as (H1 & H2 & _ & _ & H5 & _ & H7). destruct ex_logf_facts as (F1 & F2 & F3 & F4).
  destruct (C80_flut trace ex_T ex_Y VERBOSE H1 H2 ex_logf ["b"%char] ["s"%char] ["c"%char] None (Some ["d"%char]) 3 2 2 (Some 2) (Some ["b"%char]) false 3 _ _ F2 H7 ltac:(cbn; lia) F3) as (_ & X).
  destruct (X _ F4) as (skips & SK & _ & R). apply ex_logf_skips in SK as ->.
  exact (proj1 (R _ F1 H5) ["b"%char] [8%N] eq_refl F1 eq_refl).
Qed.
(** Three states are possible after two inputs, and the table has room for one. *)
Example C80_crowded_nonvacuous trace :
  exits ex_Y VERBOSE ex_logf (do_run_flut ex_T ex_Y ex_logf ["s"%char] ["c"%char] (Some ["o"%char]) None 0 2 2 ["b"%char] (Some 1) None false)
    (do_run_flut_log trace ex_T ex_Y log_store (log_says VERBOSE) ex_logf ([], ex_logf) ["s"%char] ["c"%char] (Some ["o"%char]) None 0 2 2 ["b"%char] (Some 1) None false)
    [(Info, lit "Skip line ""# a comment""");
     (Info, lit "Parameter:"); shows "Mode" (lit "Online FA Runner3 (qtrlwe2)"); shows "Input size" (lit "3 (hidden)");
     shows "State size" (lit "3"); shows "Queue size" (lit "2"); shows "Output file name" (lit "o");
     shows "Bootstrapping frequency" (lit "2"); shows "Sanitization" (lit "false"); (Info, []);
     (Debug, lit "Processing input 0"); (Debug, lit "Processing input 1"); (Debug, lit "live states: 1"); (Debug, lit "next live states: 3");
     (Err, lit "The number of next live states (3) must be smaller than 2^max_second_lut_depth (2)");
     (Err, lit "Preparing backtrace..."); (Err, trace)].
Proof.
  destruct ex_srv_file as (H1 & H2 & _ & _ & H5 & _ & H7). destruct ex_logf_facts as (F1 & F2 & F3 & F4).
  destruct ex_from_file as (_ & WG & SG).
  assert (W0 : width ex_g 0 1) by (exact (width_exists ex_g WG 0)).
  assert (W2 : width ex_g 2 3) by (exact (width_exists ex_g WG 2)).
  destruct (C80_crowded trace ex_T ex_Y VERBOSE H1 H2 ex_logf ["b"%char] ["s"%char] ["c"%char] (ToFile ["o"%char]) 2 2 1 0 ex_g 3 (map N.of_nat (seq 200 24))
    [8%N] _ F1 H5 F3 F4) as (skips & W & SK & HWd & L); auto; try (cbn; lia).
  - apply FlutFacts.depth_fits. cbn. lia.
  - exists 2, 3. split; [left; reflexivity|]. split; [exact W2|cbn; lia].
  - apply ex_logf_skips in SK as ->.
    unfold flut_head, flut_log in L. cbn [flut_progress flut_gives_up asked repeat Nat.add Nat.ltb Nat.leb] in L. cbv zeta in L.
    rewrite (width_unique _ _ _ _ (HWd 0) W0), (width_unique _ _ _ _ (HWd 2) W2) in L. rewrite SG in L. exact L.
Qed.

Print Assumptions C80_offline.
Print Assumptions C80_reverse.
Print Assumptions C80_flut.
Print Assumptions C80_block.
Print Assumptions C80_crowded.
