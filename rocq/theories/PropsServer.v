(** C67: what a run does with a ciphertext file depends on the number of ciphertexts in it, not on
    their contents, nor on what the TFHEpp functions compute. *)
From Coq Require Import List Arith Bool NArith ZArith Ascii Lia.
Import ListNotations.
From Verif Require Import Base BaseFacts GraphModel Spec GraphFacts GraphOps Minimize Quotient TextModel TorusModel TfheSpec TfheFacts
  RunnerModel RunnerSpec RunnerFacts ReachFacts PropsRunner ParModel SchedFacts StreamModel InputSpec StreamFacts PropsInput
  ClientModel ClientFacts CmdModel CmdSpec CmdFacts PropsCmd ObliviousSpec ObliviousFacts PropsOblivious ServerSpec ServerFacts.

(** * The toy scheme without noise *)
Definition quiet (N : nat) : tfhe := toy 1 N [0%Z] (repeat 0%Z N) 0.
Lemma quiet_ok N : 0 < N -> tfhe_ok (quiet N) [0%Z] (repeat 0%Z N) (fun c b => c = b) (toy_noise 0).
Proof. apply toy_ok. Qed.
Lemma quiet_nonneg : noise_nonneg (toy_noise 0).
Proof. unfold noise_nonneg. cbn. lia. Qed.

Section Server.
Context (T : tfhe) (Y : crypto T).
Notation words := (c_words T Y).
Notation N1 := (t_n1 T).
Hypothesis HW : 0 < words.
Hypothesis HB : (Z.of_nat (words * 8) < 2 ^ 63)%Z.

Lemma run_ends_any c f r cts :
  f (cmd_input c) = Some (concat (map save cts)) -> Forall (is_ctxt words) cts ->
  (Z.of_nat (length cts * (words * 8)) < 2 ^ 64)%Z ->
  sure (cmd_body c) (delivery (cmd_kind c) cts) r -> run_ends T Y (Ok c) f r.
Proof.
  intros H1 HC H2 H3. cbn [run_ends]. rewrite H1. intros junk HJ.
  destruct (stream_client (cmd_kind c) words cts HW HB HC H2 (cmd_body c) r junk HJ H3) as (s & E & EW).
  rewrite E. exact EW.
Qed.

(** * Runs of the sequential model on arbitrary ciphertexts *)
Lemma shape_asked {C C'} freq (l : list C) : forall (l' : list C') i, length l = length l' ->
  shape (asked freq i l) = shape (asked freq i l').
Proof.
  induction l as [|a l IH]; intros [|a' l'] i L; try discriminate; [reflexivity|]. injection L as L.
  cbn [asked]. unfold shape in *. cbn [map]. f_equal. destruct freq as [k|]; [|auto].
  destruct (S i mod k =? 0); cbn [map]; [f_equal|]; auto.
Qed.
Lemma zeros_encrypt (h : list (option bool)) : encrypts (fun c b : bool => c = b) h h.
Proof. induction h as [|[c|] h IH]; constructor; auto; constructor; auto. Qed.
Lemma observe_ok {R R' St St' P} (pub : St -> P) (pub' : St' -> P) (x : res (list R * St)) (y : res (list R' * St')) o s :
  observe pub x = observe pub' y -> x = Ok (o, s) -> exists o' s', y = Ok (o', s').
Proof. intros E ->. destruct y as [[o' s']|f]; [eauto|discriminate]. Qed.

Lemma reverse_total g interval sr freq (cts : list (trgsw T)) : 0 < N1 -> wf_graph g -> 0 < interval ->
  exists r outs s', reverse_new T g interval sr = Ok r /\
    play (online2_eval_one T) (reverse_ask T) (asked freq 0 cts) r = Ok (outs, s').
Proof.
  intros HN W HI. set (h := asked freq 0 (repeat false (length cts))).
  assert (M : back_margin (toy_noise 0) interval) by (unfold back_margin; cbn; rewrite Z.mul_0_r; reflexivity).
  assert (X : exists outs s', (do r <- reverse_new (quiet N1) g interval sr;
                play (online2_eval_one (quiet N1)) (reverse_ask (quiet N1)) h r) = Ok (outs, s')).
  { destruct sr.
    - destruct (C31_spec_reversed _ _ _ _ _ (quiet_ok N1 HN) quiet_nonneg g interval h h W HI M (zeros_encrypt h))
        as (o & s' & E & _). eauto.
    - destruct (C31_reverse _ _ _ _ _ (quiet_ok N1 HN) quiet_nonneg g interval h h W HI M (zeros_encrypt h))
        as (o & s' & E & _). eauto. }
  destruct X as (o & s' & EX).
  destruct (observe_ok _ _ _ _ _ _ (C37_reverse (quiet N1) T g interval sr h (asked freq 0 cts) eq_refl
              (shape_asked _ _ _ _ (repeat_length _ _))) EX) as (o' & s2 & E).
  apply bind_ok in E as (r & E1 & E2). eauto.
Qed.
Lemma offline_total g interval (cts : list (trgsw T)) : 0 < N1 -> wf_graph g -> 0 < interval ->
  (Z.of_nat (length cts) < 2 ^ 31)%Z -> exists c, offline_run T g interval cts = Ok c.
Proof.
  intros HN W HI HL.
  assert (M : back_margin (toy_noise 0) interval) by (unfold back_margin; cbn; rewrite Z.mul_0_r; reflexivity).
  destruct (C30_offline _ _ _ _ _ (quiet_ok N1 HN) quiet_nonneg g interval (repeat false (length cts)) (repeat false (length cts)) W HI M)
    as (c & E & _).
  { rewrite repeat_length. exact HL. }
  { clear. induction (length cts); constructor; auto. }
  assert (R : req anything (offline_run (quiet N1) g interval (repeat false (length cts))) (offline_run T g interval cts)).
  { unfold offline_run. rewrite repeat_length.
    eapply req_bind; [apply req_backstream_new|]. intros s s' H.
    eapply req_bind.
    - apply (req_fold2 (fun s s' => pub_back s = pub_back s')); [now rewrite !rev_length, repeat_length| |exact H].
      intros. now apply req_backstream_eval.
    - intros u u' HU. now apply req_backstream_result. }
  rewrite E in R. destruct (offline_run T g interval cts) as [c'|]; [eauto|destruct R].
Qed.
Lemma block_total g queue_size (cts : list (trgsw T)) : wf_graph g -> cts <> [] ->
  Nat.log2 (size g) + 1 < N1 -> Nat.log2 (size g) + 1 < 31 ->
  exists r outs s', block_new T g queue_size false = Ok r /\
    play (block_eval_one T) (block_result T) (asked None 0 cts) r = Ok (outs, s').
Proof.
  intros W HC H1 H2. set (h := asked None 0 (repeat false (length cts))).
  assert (M : block_margin g queue_size (toy_noise 0)) by (unfold block_margin, block_noise; cbn [toy_noise e_cmux e_cb]; rewrite Z.mul_0_r; reflexivity).
  destruct (C32_block _ _ _ _ _ (quiet_ok N1 ltac:(lia)) quiet_nonneg g queue_size h h W M H1 H2 (zeros_encrypt h))
    as (o & s' & EX & _).
  { unfold h. destruct cts; [congruence|]. discriminate. }
  destruct (observe_ok _ _ _ _ _ _ (C37_block (quiet N1) T g queue_size h (asked None 0 cts) eq_refl
              (shape_asked _ _ _ _ (repeat_length _ _))) EX) as (o' & s2 & E).
  apply bind_ok in E as (r & E1 & E2). eauto.
Qed.
Lemma flushes_same {A B} freq q (l : list A) (l' : list B) : length l = length l' ->
  flushes q 0 0 (asked freq 0 l) = flushes q 0 0 (asked freq 0 l').
Proof. intros L. now apply CmdFacts.flushes_shape. Qed.
Lemma flut_total g max_depth queue_size interval freq (cts : list (trgsw T)) : wf_graph g ->
  0 < queue_size < 31 -> 0 < interval -> max_depth < 31 -> table_fits N1 max_depth queue_size g ->
  exists r, flut_new T g max_depth queue_size interval false = Ok r /\
   (let run := play (flut_eval_one T) (flut_result T) (asked freq 0 cts) r in
    ((exists n k, In n (flushes queue_size 0 0 (asked freq 0 (repeat tt (length cts)))) /\ width g n k /\ 2 ^ max_depth <= k) ->
     run = Fail FExit) /\
    (~ (exists n k, In n (flushes queue_size 0 0 (asked freq 0 (repeat tt (length cts)))) /\ width g n k /\ 2 ^ max_depth <= k) ->
     exists outs s', run = Ok (outs, s'))).
Proof.
  intros W HQ HF HD HN.
  destruct (C34_refuses_any T g max_depth queue_size interval (asked freq 0 cts) W HQ HF HD HN) as [R1 R2].
  rewrite (flushes_same freq queue_size cts (repeat tt (length cts))) in R1 by (now rewrite repeat_length).
  assert (X : exists r, flut_new T g max_depth queue_size interval false = Ok r).
  { destruct (C34_refuses_any T g max_depth queue_size interval [] W HQ HF HD HN) as [Q1 Q2].
    assert (Q : (do r <- flut_new T g max_depth queue_size interval false; play (flut_eval_one T) (flut_result T) [] r) <> Fail FExit).
    { intros E. apply Q1 in E as (n & k & [] & _). }
    apply Q2 in Q as (x & E). apply bind_ok in E as (r & E & _). eauto. }
  destruct X as (r & E). exists r. split; [exact E|]. rewrite E in *. cbn [bind] in *. cbv zeta. split; [tauto|].
  intros NR. destruct (proj2 R2) as ([o s'] & EO); [tauto|]. eauto.
Qed.

(** * Loops *)
Lemma read_bkey_is f p b k : f p = Some b -> c_read_bkey T Y b = Some k -> read_bkey T Y f p = Ok k.
Proof. unfold read_bkey, open_file. intros -> H. cbn [bind]. rewrite H. reflexivity. Qed.
Lemma monitor_loop_exit {St} (feed : St -> trgsw T -> outcomes St) (ask : St -> outcomes (list Z * St)) feedD askD
    input dir freq (finish : St -> fs -> client fs) :
  (forall s c, exact (feed s c) (feedD s c)) -> (forall s, exact (ask s) (askD s)) ->
  (forall s c, exits (feed s c) (feedD s c)) -> (forall s, exits (ask s) (askD s)) ->
  (forall d, dir = Some d -> 0 < freq) ->
  (forall d j, dir = Some d -> report_file d j <> input) ->
  (forall t f, askD t = Fail FExit -> sure (finish t f) [] (Fail FExit)) ->
  forall rem i s f,
  play feedD askD (asked (match dir with Some _ => Some freq | None => None end) i (map (c_load T Y) rem)) s = Fail FExit ->
  sure (monitor_loop T Y feed ask input dir freq finish (length rem) i s f) rem (Fail FExit).
Proof.
  intros X1 X2 X3 X4 HD HN HF. induction rem as [|c rem IH]; intros i s f H.
  - cbn [map asked play] in H. cbn [monitor_loop length sure Nat.eqb]. apply HF.
    destruct (askD s) as [[c t]|e]; cbn in H; congruence.
  - cbn [map asked play] in H. cbn [length monitor_loop sure Nat.eqb].
    destruct (feedD s (c_load T Y c)) as [t|e] eqn:EF; cbn [bind] in H.
    2:{ injection H as ->. apply sure_any_fail. apply X3. exact EF. }
    apply (sure_any _ _ t); [apply X1; exact EF|].
    destruct dir as [d|]; [|apply IH; exact H].
    pose proof (HD d eq_refl) as HD0. destruct (Nat.eqb_spec freq 0) as [|_]; [lia|].
    rewrite (mod_step freq i HD0). destruct (S i mod freq =? 0) eqn:EM; [|apply IH; exact H].
    cbn [play] in H. destruct (askD t) as [[c1 t1]|e] eqn:EA; cbn [bind] in H.
    2:{ injection H as ->. apply sure_any_fail. apply X4. exact EA. }
    apply (sure_any _ _ (c1, t1)); [apply X2; exact EA|].
    replace (i + 1) with (S i) by lia. rewrite report_path. rewrite path_eqb_neq by (apply HN; reflexivity).
    unfold store_file. cbn [sure]. apply IH.
    destruct (play feedD askD (asked (Some freq) (S i) (map (c_load T Y) rem)) t1) as [[o s2]|e]; cbn in H; congruence.
Qed.

(** * Which files were written *)
Lemma wrote_one f p c : wrote_results T f (write f p (archive_tlwe N1 c)) (fun q => q = p).
Proof.
  intros q. split.
  - intros ->. exists (archive_tlwe N1 c). rewrite write_same. destruct (archive_size N1 c). repeat split; auto.
  - intros H. now apply write_other.
Qed.
Lemma wrote_many f dir freq n (outs : list (list Z)) : length outs = length (reports (Some freq) 0 n) ->
  wrote_results T f (writes T (combine (map (report_file dir) (reports (Some freq) 0 n)) outs) f) (report_names dir freq n).
Proof.
  intros L p. assert (LM : length (map (report_file dir) (reports (Some freq) 0 n)) = length outs) by (rewrite map_length; lia).
  assert (IN : In p (map (report_file dir) (reports (Some freq) 0 n)) <-> report_names dir freq n p).
  { rewrite in_map_iff. unfold report_names. split.
    - intros (j & <- & H). exists j. split; [now apply in_reports|reflexivity].
    - intros (j & H & ->). exists j. split; [reflexivity|now apply in_reports]. }
  destruct (writes_lookup T (combine (map (report_file dir) (reports (Some freq) 0 n)) outs) f p) as [(NI & E)|(c & IC & E)].
  - rewrite combine_fst in NI by auto. rewrite IN in NI. split; [contradiction|auto].
  - assert (Q : report_names dir freq n p) by (apply IN; apply in_combine_l in IC; exact IC).
    split; [|contradiction]. intros _. exists (archive_tlwe N1 c). destruct (archive_size N1 c). repeat split; auto.
Qed.

(** * C67 *)
Theorem C67_offline f bkey spec cipher output interval g n bytes kb ik :
  f bkey = Some kb -> c_read_bkey T Y kb = Some (true, ik) -> from_file f spec = Ok g -> 0 < size g ->
  f cipher = Some bytes -> ciphertexts words n bytes ->
  0 < N1 -> 0 < interval -> (Z.of_nat n < 2 ^ 31)%Z -> (Z.of_nat (n * (words * 8)) < 2 ^ 64)%Z ->
  exists f2, run_ends T Y (do_run_offline T Y f spec cipher output interval bkey false) f (Ok f2) /\
    wrote_results T f f2 (fun p => p = output).
Proof.
  intros HK RK EG SG FC (B1 & B2) HN HI H31 H64.
  destruct (ctxts_of_bytes words n bytes B1 B2) as (cts & C1 & C2 & C3). subst bytes n.
  assert (W : wf_graph g) by (eapply from_file_wf; eauto).
  destruct (minimized_correct g W) as (m & EM & WM & _).
  destruct (offline_total m interval (map (c_load T Y) cts) HN WM HI) as (c & EC); [now rewrite map_length|].
  exists (write f output (archive_tlwe N1 c)). split; [|apply wrote_one].
  apply (run_ends_any _ _ _ cts); auto. cbn [cmd_body cmd_kind delivery].
  apply (sure_det _ _ (true, ik)); [eapply read_bkey_is; eauto|].
  apply (sure_det _ _ m); [rewrite EG; exact EM|].
  unfold offline_run in EC. rewrite map_length in EC.
  apply bind_ok in EC as (r & EN & EC). apply bind_ok in EC as (r' & EF & ER).
  cbn [sure]. rewrite rev_length. apply (sure_det _ _ r); [exact EN|]. cbn [sure]. rewrite rev_length.
  destruct (logged_depths_ok T m (length cts) interval r EN WM HI H31) as (dl & ED).
  apply (sure_det _ _ dl); [exact ED|]. cbn [sure]. 
  eapply (offline_loop_sure T Y); [rewrite map_rev; exact EF|]. apply (sure_det _ _ c); [exact ER|]. reflexivity.
Qed.

Theorem C67_reverse f bkey spec cipher output interval freq spec_reversed g n bytes kb ik :
  f bkey = Some kb -> c_read_bkey T Y kb = Some (true, ik) -> from_file f spec = Ok g -> 0 < size g ->
  f cipher = Some bytes -> ciphertexts words n bytes ->
  0 < N1 -> 0 < interval -> (Z.of_nat (n * (words * 8)) < 2 ^ 64)%Z ->
  exists f2,
    run_ends T Y (do_run_reverse T Y f spec cipher (Some output) None freq interval spec_reversed bkey false) f (Ok f2) /\
    wrote_results T f f2 (fun p => p = output).
Proof.
  intros HK RK EG SG FC (B1 & B2) HN HI H64.
  destruct (ctxts_of_bytes words n bytes B1 B2) as (cts & C1 & C2 & C3). subst bytes n.
  assert (W : wf_graph g) by (eapply from_file_wf; eauto).
  destruct (reverse_total g interval spec_reversed None (map (c_load T Y) cts) HN W HI) as (r & outs & s' & EN & EO).
  destruct (to_file T Y [] (backstream_eval_any T) (reverse_ask_any T) (online2_eval_one T) (reverse_ask T)
              (backstream_any_exact T) (fun s => exact_det _) cipher None freq cts (length cts) r f output outs s')
    as (c & -> & SU); auto.
  exists (write f output (archive_tlwe N1 c)). split; [|apply wrote_one].
  cbn [do_run_reverse assert_].
  apply (run_ends_any _ _ _ cts); auto. cbn [cmd_body cmd_kind delivery].
  apply (sure_det _ _ (true, ik)); [eapply read_bkey_is; eauto|].
  apply (sure_det _ _ g); [exact EG|]. apply (sure_det _ _ r); [exact EN|]. cbn [sure]. exact SU.
Qed.

Theorem C67_reverse_dir f bkey spec cipher dir interval freq spec_reversed g n bytes kb ik :
  f bkey = Some kb -> c_read_bkey T Y kb = Some (true, ik) -> from_file f spec = Ok g -> 0 < size g ->
  f cipher = Some bytes -> ciphertexts words n bytes -> (forall j, report_file dir j <> cipher) ->
  0 < N1 -> 0 < interval -> 0 < freq -> (Z.of_nat (n * (words * 8)) < 2 ^ 64)%Z ->
  exists f2,
    run_ends T Y (do_run_reverse T Y f spec cipher None (Some dir) freq interval spec_reversed bkey false) f (Ok f2) /\
    wrote_results T f f2 (report_names dir freq n).
Proof.
  intros HK RK EG SG FC (B1 & B2) ND HN HI HF H64.
  destruct (ctxts_of_bytes words n bytes B1 B2) as (cts & C1 & C2 & C3). subst bytes n.
  assert (W : wf_graph g) by (eapply from_file_wf; eauto).
  destruct (reverse_total g interval spec_reversed (Some freq) (map (c_load T Y) cts) HN W HI) as (r & outs & s' & EN & EO).
  destruct (to_dir T Y [] (backstream_eval_any T) (reverse_ask_any T) (online2_eval_one T) (reverse_ask T)
              (backstream_any_exact T) (fun s => exact_det _) cipher (Some dir) freq cts (length cts) r f dir outs s')
    as (LO & SU); auto.
  eexists. split; [|apply (wrote_many f dir freq (length cts) outs LO)].
  cbn [do_run_reverse assert_].
  apply (run_ends_any _ _ _ cts); auto. cbn [cmd_body cmd_kind delivery].
  apply (sure_det _ _ (true, ik)); [eapply read_bkey_is; eauto|].
  apply (sure_det _ _ g); [exact EG|]. apply (sure_det _ _ r); [exact EN|]. cbn [sure]. exact SU.
Qed.

Theorem C67_flut f bkey spec cipher output interval queue_size max_depth freq g n bytes kb :
  f bkey = Some kb -> c_read_bkey T Y kb = Some (true, true) -> from_file f spec = Ok g -> 0 < size g ->
  f cipher = Some bytes -> ciphertexts words n bytes ->
  0 < queue_size < 31 -> 0 < interval -> max_depth < 31 -> table_fits N1 max_depth queue_size g -> (Z.of_nat (n * (words * 8)) < 2 ^ 64)%Z ->
  let run := do_run_flut T Y f spec cipher (Some output) None freq queue_size interval bkey (Some max_depth) None false in
  let too_many := exists m k, In m (flushes queue_size 0 0 (asked None 0 (repeat tt n))) /\ width g m k /\ 2 ^ max_depth <= k in
  (too_many -> run_ends T Y run f (Fail FExit)) /\
  (~ too_many -> exists f2, run_ends T Y run f (Ok f2) /\ wrote_results T f f2 (fun p => p = output)).
Proof.
  intros HK RK EG SG FC (B1 & B2) HQ HI HD HN H64 run too_many.
  destruct (ctxts_of_bytes words n bytes B1 B2) as (cts & C1 & C2 & C3). subst bytes n.
  assert (W : wf_graph g) by (eapply from_file_wf; eauto).
  destruct (flut_total g max_depth queue_size interval None (map (c_load T Y) cts) W HQ HI HD HN) as (r & EN & RF & RO).
  rewrite map_length in RF, RO.
  assert (PRE : forall q, sure (monitor_loop T Y (flut_eval_one_any T) (flut_result_any T) cipher None freq
       (last_output T (flut_result_any T) (Some output) None (length cts)) (length cts) 0 r f) cts q -> run_ends T Y run f q).
  { intros q SU. unfold run, do_run_flut. apply (run_ends_any _ _ _ cts); auto. cbn [cmd_body cmd_kind delivery].
    apply (sure_det _ _ g); [exact EG|]. apply (sure_det _ _ (true, true)); [eapply read_bkey_is; eauto|].
    apply (sure_det _ _ tt); [reflexivity|]. apply (sure_det _ _ tt); [reflexivity|].
    apply (sure_det _ _ r); [exact EN|]. cbn [sure]. apply (sure_det _ _ tt); [reflexivity|]. exact SU. }
  split.
  - intros TM. apply PRE. specialize (RF TM).
    apply (monitor_loop_exit _ _ (flut_eval_one T) (flut_result T)); try discriminate.
    + intros; apply flut_one_any_exact.
    + intros; apply flut_result_any_exact.
    + apply flut_one_exits.
    + apply flut_result_exits.
    + intros t f' E. unfold last_output. apply sure_any_fail. apply flut_result_exits. exact E.
    + exact RF.
  - intros NM. destruct (RO NM) as (outs & s' & EO).
    destruct (to_file T Y [] (flut_eval_one_any T) (flut_result_any T) (flut_eval_one T) (flut_result T)
                (flut_one_any_exact T) (flut_result_any_exact T) cipher None freq cts (length cts) r f output outs s')
      as (c & -> & SU); auto.
    exists (write f output (archive_tlwe N1 c)). split; [|apply wrote_one]. apply PRE. exact SU.
Qed.

Theorem C67_flut_dir f bkey spec cipher dir interval queue_size max_depth freq g n bytes kb :
  f bkey = Some kb -> c_read_bkey T Y kb = Some (true, true) -> from_file f spec = Ok g -> 0 < size g ->
  f cipher = Some bytes -> ciphertexts words n bytes -> (forall j, report_file dir j <> cipher) ->
  0 < freq -> 0 < queue_size < 31 -> 0 < interval -> max_depth < 31 -> table_fits N1 max_depth queue_size g ->
  (Z.of_nat (n * (words * 8)) < 2 ^ 64)%Z ->
  let run := do_run_flut T Y f spec cipher None (Some dir) freq queue_size interval bkey (Some max_depth) None false in
  let too_many := exists m k, In m (flushes queue_size 0 0 (asked (Some freq) 0 (repeat tt n))) /\ width g m k /\ 2 ^ max_depth <= k in
  (too_many -> run_ends T Y run f (Fail FExit)) /\
  (~ too_many -> exists f2, run_ends T Y run f (Ok f2) /\ wrote_results T f f2 (report_names dir freq n)).
Proof.
  intros HK RK EG SG FC (B1 & B2) ND HF HQ HI HD HN H64 run too_many.
  destruct (ctxts_of_bytes words n bytes B1 B2) as (cts & C1 & C2 & C3). subst bytes n.
  assert (W : wf_graph g) by (eapply from_file_wf; eauto).
  destruct (flut_total g max_depth queue_size interval (Some freq) (map (c_load T Y) cts) W HQ HI HD HN) as (r & EN & RF & RO).
  rewrite map_length in RF, RO.
  assert (PRE : forall q, sure (monitor_loop T Y (flut_eval_one_any T) (flut_result_any T) cipher (Some dir) freq
       (last_output T (flut_result_any T) None (Some dir) (length cts)) (length cts) 0 r f) cts q -> run_ends T Y run f q).
  { intros q SU. unfold run, do_run_flut. apply (run_ends_any _ _ _ cts); auto. cbn [cmd_body cmd_kind delivery].
    apply (sure_det _ _ g); [exact EG|]. apply (sure_det _ _ (true, true)); [eapply read_bkey_is; eauto|].
    apply (sure_det _ _ tt); [reflexivity|]. apply (sure_det _ _ tt); [reflexivity|].
    apply (sure_det _ _ r); [exact EN|]. cbn [sure].
    apply (sure_det _ _ tt). { destruct (Nat.eqb_spec queue_size 0); [lia|reflexivity]. } exact SU. }
  split.
  - intros TM. apply PRE. specialize (RF TM).
    apply (monitor_loop_exit _ _ (flut_eval_one T) (flut_result T)).
    + intros; apply flut_one_any_exact.
    + intros; apply flut_result_any_exact.
    + apply flut_one_exits.
    + apply flut_result_exits.
    + auto.
    + intros d j [= <-]. apply ND.
    + intros t f' E. unfold last_output. apply sure_any_fail. apply flut_result_exits. exact E.
    + exact RF.
  - intros NM. destruct (RO NM) as (outs & s' & EO).
    destruct (to_dir T Y [] (flut_eval_one_any T) (flut_result_any T) (flut_eval_one T) (flut_result T)
                (flut_one_any_exact T) (flut_result_any_exact T) cipher (Some dir) freq cts (length cts) r f dir outs s')
      as (LO & SU); auto.
    eexists. split; [|apply (wrote_many f dir freq (length cts) outs LO)]. apply PRE. exact SU.
Qed.

Theorem C67_block f bkey spec cipher output queue_size g n bytes kb ik :
  f bkey = Some kb -> c_read_bkey T Y kb = Some (true, ik) -> from_file f spec = Ok g -> 0 < size g ->
  f cipher = Some bytes -> ciphertexts words n bytes ->
  Nat.log2 (size g) + 1 < N1 -> Nat.log2 (size g) + 1 < 31 -> (Z.of_nat (n * (words * 8)) < 2 ^ 64)%Z ->
  let run := do_run_block T Y f spec cipher output queue_size bkey false in
  (n = 0 -> run_ends T Y run f (Fail FAssert)) /\
  (0 < n -> exists f2, run_ends T Y run f (Ok f2) /\ wrote_results T f f2 (fun p => p = output)).
Proof.
  intros HK RK EG SG FC (B1 & B2) HL1 HL2 H64 run.
  destruct (ctxts_of_bytes words n bytes B1 B2) as (cts & C1 & C2 & C3). subst bytes n.
  assert (W : wf_graph g) by (eapply from_file_wf; eauto).
  assert (PRE : forall r q, block_new T g queue_size false = Ok r ->
     sure (monitor_loop T Y (block_eval_one_any T) (block_result_any T) cipher None 0
       (last_output T (block_result_any T) (Some output) None (length cts)) (length cts) 0 r f) cts q -> run_ends T Y run f q).
  { intros r q EN SU. unfold run, do_run_block. apply (run_ends_any _ _ _ cts); auto. cbn [cmd_body cmd_kind delivery].
    apply (sure_det _ _ g); [exact EG|]. apply (sure_det _ _ (true, ik)); [eapply read_bkey_is; eauto|].
    apply (sure_det _ _ tt); [reflexivity|].
    apply (sure_det _ _ r); [exact EN|]. cbn [sure]. exact SU. }
  split.
  - intros E. destruct cts; [|discriminate]. eapply PRE; [reflexivity|].
    cbn [sure length monitor_loop Nat.eqb last_output].
    apply sure_any_fail. intros x. unfold block_result_any, block_eval_queued_any, obind, det. cbn. split.
    + intros (y & -> & Hx). exact Hx.
    + intros ->. eexists. split; reflexivity.
  - intros H0. destruct (block_total g queue_size (map (c_load T Y) cts) W) as (r & outs & s' & EN & EO); auto.
    { destruct cts; [cbn in H0; lia|discriminate]. }
    destruct (to_file T Y [] (block_eval_one_any T) (block_result_any T) (block_eval_one T) (block_result T)
                (block_one_any_exact T) (block_result_any_exact T) cipher None 0 cts (length cts) r f output outs s')
      as (c & -> & SU); auto.
    exists (write f output (archive_tlwe N1 c)). split; [|apply wrote_one]. eapply PRE; eauto.
Qed.

(** A file that is not a whole number of ciphertexts is refused before anything else happens. *)
Theorem C67_broken_file f bytes cipher c : f cipher = Some bytes ->
  length bytes mod (words * 8) <> 0 -> (Z.of_nat (length bytes) < 2 ^ 64)%Z ->
  (exists spec output interval bkey sanitize, c = do_run_offline T Y f spec cipher output interval bkey sanitize) \/
  (exists spec output dir freq interval sr bkey sanitize,
     c = do_run_reverse T Y f spec cipher output dir freq interval sr bkey sanitize /\ (output = None <-> dir <> None)) \/
  (exists spec output dir freq queue_size interval bkey max_depth debug sanitize,
     c = do_run_flut T Y f spec cipher output dir freq queue_size interval bkey max_depth debug sanitize) \/
  (exists spec output queue_size bkey sanitize, c = do_run_block T Y f spec cipher output queue_size bkey sanitize) ->
  run_ends T Y c f (Fail FAssert).
Proof.
  intros FC HM HL H.
  assert (K : forall c, cmd_input c = cipher -> run_ends T Y (Ok c) f (Fail FAssert)).
  { intros c0 E. cbn [run_ends]. rewrite E, FC. intros junk _.
    rewrite (C25_partial_block (cmd_kind c0) words bytes junk [] HW HL HM). reflexivity. }
  destruct H as [(? & ? & ? & ? & ? & ->)|[(spec & o & d & ? & ? & ? & ? & ? & -> & HO)|[(? & ? & ? & ? & ? & ? & ? & ? & ? & ? & ->)|(? & ? & ? & ? & ? & ->)]]];
    try (apply K; reflexivity).
  unfold do_run_reverse. destruct o, d; cbn [assert_]; try (apply K; reflexivity).
  - exfalso. assert (X := proj2 HO ltac:(discriminate)). discriminate.
  - exfalso. apply (proj1 HO eq_refl). reflexivity.
Qed.

(** dec prints a bit for every result file, with any contents. *)
Lemma read_words_any k swap : forall b, 4 * k <= length b -> exists l, read_words k swap b = Ok l.
Proof.
  induction k as [|k IH]; intros b H; cbn [read_words]; [eauto|].
  destruct (Nat.ltb_spec (length b) 4); [lia|].
  destruct (IH (skipn 4 b)) as (l & ->); [rewrite skipn_length; lia|]. cbn. eauto.
Qed.
Theorem C67_dec f skey output sb b :
  f skey = Some sb -> c_read_skey T Y sb = true -> f output = Some b -> is_result T b ->
  exists v, do_dec T Y f skey output = Ok (answer v).
Proof.
  intros HS RS HO (_ & L). unfold do_dec, read_skey, open_file. rewrite HS. cbn [bind]. rewrite RS. cbn [bind].
  rewrite HO. cbn [bind]. destruct b as [|flag rest]; [discriminate|]. cbn [read_tlwe].
  destruct (read_words_any (S N1) (negb (flag =? 1)%N) rest) as (l & ->); [cbn [length] in L; lia|].
  cbn [bind]. eexists. reflexivity.
Qed.

(** enc: the number of ciphertexts depends on the size of the input file only. *)
Theorem C67_enc f skey input cipher ap coin sb bytes :
  f skey = Some sb -> c_read_skey T Y sb = true -> f input = Some bytes -> input <> cipher -> 0 < ap ->
  (forall coin b, is_ctxt words (c_save T Y (c_enc T Y coin b))) ->
  (length bytes mod ((ap + 7) / 8) = 0 ->
   exists f1 b, do_enc T Y f skey input cipher ap coin = Ok f1 /\ f1 cipher = Some b /\
     ciphertexts words (nbits ap bytes) b /\ forall p, p <> cipher -> f1 p = f p) /\
  (length bytes mod ((ap + 7) / 8) <> 0 -> do_enc T Y f skey input cipher ap coin = Fail FAssert).
Proof.
  intros HS RS HI NC HA HC. split; intros HM.
  - destruct (input_bits ap bytes HA HM) as (bits & LB & EB).
    exists (write (write f cipher []) cipher (ct_file T Y coin bits)), (ct_file T Y coin bits).
    split; [eapply do_enc_ok; eauto|]. split; [apply write_same|]. split.
    + rewrite <- LB. clear LB EB. unfold ct_file. split.
      * revert coin. induction bits as [|b bits IH]; intros coin; cbn [encs map concat]; [constructor|].
        apply Forall_app. split; [|apply IH]. unfold save. induction (c_save T Y (c_enc T Y coin b)); cbn [map concat]; [constructor|].
        apply Forall_app. split; [apply le_bytes_byte|assumption].
      * revert coin. induction bits as [|b bits IH]; intros coin; cbn [encs map concat length]; [reflexivity|].
        rewrite app_length, IH. destruct (HC coin b) as [L _].
        assert (K : forall l, length (save l) = length l * 8).
        { unfold save. induction l as [|w l IHl]; [reflexivity|]. cbn [map concat]. rewrite app_length, le_bytes_length, IHl. cbn [length]. lia. }
        rewrite K, L. lia.
    + intros p Hp. rewrite !write_other; auto.
  - unfold do_enc, read_skey, open_file. rewrite HS. cbn [bind]. rewrite RS. cbn [bind]. rewrite write_other by auto.
    rewrite HI. cbn [bind]. destruct (C21_truncated_input ap bytes HA) as (bits & H1 & _). rewrite H1.
    apply Nat.eqb_neq in HM. rewrite HM, enc_fold. reflexivity.
Qed.
End Server.

(** * The hypotheses are met: a file of three made-up ciphertexts under another scheme. *)
Definition ex_srv : fs := write ex_f ["c"%char] (map N.of_nat (seq 200 24)).
Example ex_srv_file : 0 < c_words ex_T ex_Y /\ (Z.of_nat (c_words ex_T ex_Y * 8) < 2 ^ 63)%Z /\ 0 < t_n1 ex_T /\
  ex_srv ["b"%char] = Some [8%N] /\ c_read_bkey ex_T ex_Y [8%N] = Some (true, true) /\
  ex_srv ["c"%char] = Some (map N.of_nat (seq 200 24)) /\ ciphertexts 1 3 (map N.of_nat (seq 200 24)).
Proof. repeat split; try (vm_compute; reflexivity); try (cbn; lia). repeat constructor. Qed.
Lemma ex_srv_spec : exists g, from_file ex_srv ["s"%char] = Ok g /\ size g = 3.
Proof.
  destruct ex_from_file as (EG & _ & SG).
  assert (E : from_file ex_srv ["s"%char] = from_file ex_f ["s"%char]) by reflexivity. rewrite E. eauto.
Qed.
Lemma ex_srv_names j : report_file ["d"%char] j <> ["c"%char].
Proof. unfold report_file. cbn. destruct (show_nat j); discriminate. Qed.
Example C67_nonvacuous :
  (exists f2, run_ends ex_T ex_Y (do_run_offline ex_T ex_Y ex_srv ["s"%char] ["c"%char] ["o"%char] 2 ["b"%char] false) ex_srv (Ok f2) /\
     wrote_results ex_T ex_srv f2 (fun p => p = ["o"%char])) /\
  (exists f2, run_ends ex_T ex_Y (do_run_reverse ex_T ex_Y ex_srv ["s"%char] ["c"%char] None (Some ["d"%char]) 2 2 false ["b"%char] false) ex_srv (Ok f2) /\
     wrote_results ex_T ex_srv f2 (report_names ["d"%char] 2 3)).
Proof.
  destruct ex_srv_file as (H1 & H2 & H3 & H4 & H5 & H6 & H7). destruct ex_srv_spec as (g & EG & SG). split.
  - apply (C67_offline ex_T ex_Y H1 H2 ex_srv ["b"%char] ["s"%char] ["c"%char] ["o"%char] 2 g 3 (map N.of_nat (seq 200 24)) [8%N] true);
      auto; try (cbn; lia).
  - apply (C67_reverse_dir ex_T ex_Y H1 H2 ex_srv ["b"%char] ["s"%char] ["c"%char] ["d"%char] 2 2 false g 3 (map N.of_nat (seq 200 24)) [8%N] true);
      auto; try (cbn; lia). apply ex_srv_names.
Qed.
Lemma ex_flut_widths md : md < 31 -> 2 ^ md <= 8 ->
  (do r <- flut_new ex_T ex_g md 2 2 false; play (flut_eval_one ex_T) (flut_result ex_T) (asked None 0 [false; true; false]) r) = Fail FExit <->
  exists m k, In m (flushes 2 0 0 (asked None 0 (repeat tt 3))) /\ width ex_g m k /\ 2 ^ md <= k.
Proof.
  intros H1 H2. destruct ex_from_file as (_ & W & _).
  destruct (C34_refuses_any ex_T ex_g md 2 2 (asked None 0 [false; true; false]) W ltac:(lia) ltac:(lia) H1 (FlutFacts.depth_fits _ _ _ _ H2)) as [R _].
  exact R.
Qed.
Example C67_flut_nonvacuous :
  run_ends ex_T ex_Y (do_run_flut ex_T ex_Y ex_srv ["s"%char] ["c"%char] (Some ["o"%char]) None 5 2 2 ["b"%char] (Some 1) None false)
    ex_srv (Fail FExit) /\
  (exists f2, run_ends ex_T ex_Y (do_run_flut ex_T ex_Y ex_srv ["s"%char] ["c"%char] (Some ["o"%char]) None 5 2 2 ["b"%char] (Some 2) None false)
                ex_srv (Ok f2) /\ wrote_results ex_T ex_srv f2 (fun p => p = ["o"%char])).
Proof.
  destruct ex_srv_file as (H1 & H2 & H3 & H4 & H5 & H6 & H7). destruct ex_from_file as (EG & _ & SG).
  assert (E : from_file ex_srv ["s"%char] = Ok ex_g) by (rewrite <- EG; reflexivity). split.
  - apply (C67_flut ex_T ex_Y H1 H2 ex_srv ["b"%char] ["s"%char] ["c"%char] ["o"%char] 2 2 1 5 ex_g 3 (map N.of_nat (seq 200 24)) [8%N]);
      auto; try (apply FlutFacts.depth_fits); try (cbn; lia).
    apply ex_flut_widths; try (cbn; lia). apply fault_of_some. vm_compute. reflexivity.
  - apply (C67_flut ex_T ex_Y H1 H2 ex_srv ["b"%char] ["s"%char] ["c"%char] ["o"%char] 2 2 2 5 ex_g 3 (map N.of_nat (seq 200 24)) [8%N]);
      auto; try (apply FlutFacts.depth_fits); try (cbn; lia).
    intros X. apply ex_flut_widths in X; try (cbn; lia). apply (f_equal fault_of) in X. vm_compute in X. discriminate.
Qed.
Example C67_block_nonvacuous : exists f2,
  run_ends ex_T ex_Y (do_run_block ex_T ex_Y ex_srv ["s"%char] ["c"%char] ["o"%char] 2 ["b"%char] false) ex_srv (Ok f2) /\
  wrote_results ex_T ex_srv f2 (fun p => p = ["o"%char]).
Proof.
  destruct ex_srv_file as (H1 & H2 & H3 & H4 & H5 & H6 & H7). destruct ex_from_file as (EG & _ & SG).
  assert (E : from_file ex_srv ["s"%char] = Ok ex_g) by (rewrite <- EG; reflexivity).
  apply (C67_block ex_T ex_Y H1 H2 ex_srv ["b"%char] ["s"%char] ["c"%char] ["o"%char] 2 ex_g 3 (map N.of_nat (seq 200 24)) [8%N] true);
    auto; try (rewrite SG); cbn; lia.
Qed.
Print Assumptions C67_offline.
Print Assumptions C67_reverse.
Print Assumptions C67_reverse_dir.
Print Assumptions C67_flut.
Print Assumptions C67_flut_dir.
Print Assumptions C67_block.
Print Assumptions C67_broken_file.
Print Assumptions C67_dec.
Print Assumptions C67_enc.
