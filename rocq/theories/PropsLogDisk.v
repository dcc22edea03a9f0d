(** C83: a run on ciphertexts whose results may not fit on the disk exits with an error only after reporting it, and the report of a failed
    write names the file that is incomplete. *)
From Coq Require Import String.
From Coq Require Import List Arith Bool NArith ZArith Ascii Lia Permutation.
Import ListNotations.
From Verif Require Import Base BaseFacts GraphModel Spec TextModel DotModel BitsModel TorusModel RunnerModel ParModel StreamModel ClientModel ClientFacts CmdModel CmdSpec CmdFacts
  CrashModel DiskModel DiskRunModel DiskRunFacts PropsRunner PropsCmd PropsCrash PropsDisk PropsDiskRun MsgModel LogModel LogSpec LogFacts RefuseSpec BlameSpec BlameFacts
  LogDiskModel LogDiskSpec LogDiskFacts CrashFacts MainModel MainSpec MainFacts PropsMain SayClaims PropsLtl PropsSay PropsMain SayModel StderrModel StderrSpec PropsStderr.
Local Open Scope list_scope.

Section Disk.
Context (v : verbosity) (trace : text) (why : fs -> text -> text) (T : tfhe) (Y : crypto T).
Context (cap : nat) (room : fs -> text -> nat) (pol : nat -> nat) (opens : fs -> text -> bool) (pieces : list N -> list (list N)).
Hypothesis HPC : forall b, concat (pieces b) = b.
Notation store := (log_store_disk v trace why cap room pol opens pieces).
Notation store_mute := (store_disk cap room pol opens pieces).
Notation offline f := (do_run_offline_log trace T Y store (log_says v) f ([], f)).
Notation reverse f := (do_run_reverse_log trace T Y store (log_says v) f ([], f)).
Notation flut f := (do_run_flut_log trace T Y store (log_says v) f ([], f)).
Notation block f := (do_run_block_log trace T Y store (log_says v) f ([], f)).

Lemma answers_ok f talk (blame : world -> Prop) : body_of v blame talk ([], f) -> answers Y v f talk blame.
Proof.
  intros H. split; [intros ->; apply H; reflexivity|]. split; [intros; apply open_ne|].
  intros r w (kd & input & body & bytes & junk & s & t & -> & F & HJ & EO & M). cbn [body_of] in H.
  destruct (honest_run v blame kd (c_words T Y) s body ([], f) t r w H (Forall_nil _) M) as (A & B & C).
  split; [exact A|]. split; [exact B|]. intros -> sv m HI. unfold seen_at in C. rewrite Forall_forall in C.
  specialize (C _ HI). destruct sv; [discriminate C..|reflexivity].
Qed.
Notation wrote outputs := (fun (p : text) (b : list N) => outputs p /\ exists c, b = archive_tlwe (t_n1 T) c).

(** Whatever the files are: the error is one of those of C81, or it is about an output that is incomplete. *)
Theorem C83_exit f :
  (forall spec input output interval bkey sanitize,
     answers Y v f (offline f spec input output interval bkey sanitize)
       (fun w => one_error trace w \/ write_error trace (t_n1 T) room opens (eq output) w)) /\
  (forall spec input output dir freq interval spec_reversed bkey sanitize,
     answers Y v f (reverse f spec input output dir freq interval spec_reversed bkey sanitize)
       (fun w => one_error trace w \/ write_error trace (t_n1 T) room opens (output_files output dir) w)) /\
  (forall spec input output dir freq queue_size interval bkey depth debug sanitize,
     answers Y v f (flut f spec input output dir freq queue_size interval bkey depth debug sanitize)
       (fun w => one_error trace w \/ write_error trace (t_n1 T) room opens (output_files output dir) w)) /\
  (forall spec input output queue_size bkey sanitize,
     answers Y v f (block f spec input output queue_size bkey sanitize)
       (fun w => one_error trace w \/ write_error trace (t_n1 T) room opens (eq output) w)).
Proof.
  assert (A : forall out, any_blame trace (fun w => one_error trace w \/ write_error trace (t_n1 T) room opens out w)) by (intros out l f' H; left; exact H).
  pose proof (fun out => store_disk_reports v trace why cap room pol opens pieces T HPC
                (fun w => one_error trace w \/ write_error trace (t_n1 T) room opens out w) out (fun w H => or_intror H)) as S.
  split; [|split; [|split]]; intros *; apply answers_ok.
  - eapply honest_offline with (P := wrote (eq output)); eauto using no_error_nil.
  - eapply honest_reverse with (P := wrote (output_files output dir)); unfold output_files; eauto 8 using no_error_nil.
  - eapply honest_flut with (P := wrote (output_files output dir)); unfold output_files; eauto 8 using no_error_nil.
  - eapply honest_block with (P := wrote (eq output)); eauto using no_error_nil.
Qed.

(** With a key and a specification that can be read, and without --sanitize, the only errors of offline, reverse and block are those of
    writing. *)
Theorem C83_write f spec bkey :
  read_bkey T Y f bkey <> Fail FExit -> from_file f spec <> Fail FExit ->
  (forall input output interval,
     answers Y v f (offline f spec input output interval bkey false) (write_error trace (t_n1 T) room opens (eq output))) /\
  (forall input output dir freq interval spec_reversed,
     answers Y v f (reverse f spec input output dir freq interval spec_reversed bkey false) (write_error trace (t_n1 T) room opens (output_files output dir))) /\
  (forall input output queue_size,
     answers Y v f (block f spec input output queue_size bkey false) (write_error trace (t_n1 T) room opens (eq output))).
Proof.
  intros HK HG.
  pose proof (fun out => store_disk_reports v trace why cap room pol opens pieces T HPC
                (write_error trace (t_n1 T) room opens out) out (fun w H => H)) as S.
  split; [|split]; intros *; apply answers_ok.
  - eapply honest_offline with (P := wrote (eq output)); eauto using no_error_nil; try contradiction; discriminate.
  - eapply honest_reverse with (P := wrote (output_files output dir)); unfold output_files; eauto 8 using no_error_nil; try contradiction; discriminate.
  - eapply honest_block with (P := wrote (eq output)); eauto using no_error_nil; try contradiction; discriminate.
Qed.

(** The log changes nothing else: an execution is one of the command without its log, with the same outcome and the same files, so
    that C75 says what is in them. *)
Definition without_log (r : res world) : res fs := match r with Ok w => Ok (snd w) | Fail e => Fail e end.
Theorem C83_same f r w :
  (forall spec input output interval bkey sanitize,
     log_over Y (offline f spec input output interval bkey sanitize) f r w ->
     run_over T Y (do_run_offline_on T Y store_mute f spec input output interval bkey sanitize) f (without_log r) (snd w)) /\
  (forall spec input output dir freq interval spec_reversed bkey sanitize,
     log_over Y (reverse f spec input output dir freq interval spec_reversed bkey sanitize) f r w ->
     run_over T Y (do_run_reverse_on T Y store_mute f spec input output dir freq interval spec_reversed bkey sanitize) f (without_log r) (snd w)) /\
  (forall spec input output dir freq queue_size interval bkey depth debug sanitize,
     log_over Y (flut f spec input output dir freq queue_size interval bkey depth debug sanitize) f r w ->
     run_over T Y (do_run_flut_on T Y store_mute f spec input output dir freq queue_size interval bkey depth debug sanitize) f (without_log r) (snd w)) /\
  (forall spec input output queue_size bkey sanitize,
     log_over Y (block f spec input output queue_size bkey sanitize) f r w ->
     run_over T Y (do_run_block_on T Y store_mute f spec input output queue_size bkey sanitize) f (without_log r) (snd w)).
Proof.
  split; [|split; [|split]]; intros *; apply alike_over.
  - apply alike_offline.
  - apply alike_reverse.
  - apply alike_flut.
  - apply alike_block.
Qed.

(** ** From the command line *)
Section Line.
Context (spot : LtlModel.spot_lib) (E : SayModel.setting) (f : fs) (stdin : text) (coin : nat).
Notation stored := (fun v => log_store_disk v trace why cap room pol opens pieces).
Lemma header_calm v' argv : no_error (visible v' (header E argv)).
Proof. intros m HI. rewrite visible_filter in HI. apply filter_In in HI as (HI & _). unfold header in HI. apply in_map_iff in HI as (x & [= ] & _). Qed.
Lemma line_ok argv v' talk blame : asks argv v' -> main_run trace T Y stored E f argv = (visible v' (header E argv), Some talk) ->
  answers Y v' f talk (fun w => one_error trace w \/ write_error trace (t_n1 T) room opens blame w) ->
  line_answers Y trace stored E f argv (fun w => one_error trace w \/ write_error trace (t_n1 T) room opens blame w).
Proof.
  intros HA HM (A1 & A2 & A3). exists talk, (visible v' (header E argv)), v'. split; [exact HM|]. split; [exact HA|]. split; [exact A1|].
  pose proof (header_calm v' argv) as NH. intros r w O. destruct (A3 r w O) as (B1 & B2 & B3). split; [|split].
  - intros X. destruct (B1 X) as [(l & m & HL & NE)|(l & why' & p & f1 & c & HL & NE & HR)].
    + left. exists (visible v' (header E argv) ++ l), m. cbn [fst]. rewrite HL. split; [apply app_assoc|now apply no_error_app].
    + right. exists (visible v' (header E argv) ++ l), why', p, f1, c. cbn [fst snd]. rewrite HL. split; [apply app_assoc|]. split; [now apply no_error_app|exact HR].
  - intros w' X. apply no_error_app; [exact NH|eapply B2; eauto].
  - intros X s m HI. apply in_app_or in HI as [HI|HI]; [|eapply B3; eauto]. subst v'.
    rewrite visible_filter in HI. apply filter_In in HI as (_ & HI). destruct s; [discriminate HI..|reflexivity].
Qed.
End Line.
End Disk.

Section Main.
Context (trace : text) (why : fs -> text -> text) (T : tfhe) (Y : crypto T).
Context (cap : nat) (room : fs -> text -> nat) (pol : nat -> nat) (opens : fs -> text -> bool) (pieces : list N -> list (list N)).
Hypothesis HPC : forall b, concat (pieces b) = b.
Context (spot : LtlModel.spot_lib) (E : SayModel.setting) (f : fs) (stdin : text) (coin : nat).
Notation stored := (fun v => log_store_disk v trace why cap room pol opens pieces).
(** For every command line of the manual with --out that runs on ciphertexts (see C82). *)
Theorem C83_line argv bkey output spec cipher : run_line f argv bkey output spec cipher ->
  f bkey <> None -> f spec <> None -> f cipher <> None ->
  line_answers Y trace stored E f argv (fun w => one_error trace w \/ write_error trace (t_n1 T) room opens (eq output) w).
Proof.
  intros R HK HS HC.
  assert (OF : forall v talk, answers Y v f talk (fun w => one_error trace w \/ write_error trace (t_n1 T) room opens (output_files (Some output) None) w) ->
     answers Y v f talk (fun w => one_error trace w \/ write_error trace (t_n1 T) room opens (eq output) w)).
  { intros v talk (A1 & A2 & A3). split; [exact A1|]. split; [exact A2|]. intros r w O. destruct (A3 r w O) as (B1 & B2). split; [|exact B2].
    intros X. destruct (B1 X) as [L|(l & why' & p & f1 & c & H1 & H2 & [[= H3]|(d & n & [=] & _)] & HR)]; [left; exact L|].
    right. exists l, why', p, f1, c. auto. }
  destruct R as [d t k P D C|name d t k t' k' r HI P P' D C|name d t k t' k' HI P P' D C|name d t k t1 k1 t2 k2 t3 k3 HI P P1 P2 P3 D C].
  - assert (W : wired trace T Y spot f stdin coin stored argv _ _) by (eapply wired_offline; [exact C|repeat split; eauto|exact P]).
    destruct (wired_v trace T Y spot E f stdin coin _ _ _ _ W) as (_ & v & HA & HM). eapply line_ok; [exact HA|exact HM|].
    apply (C83_exit v trace why T Y cap room pol opens pieces HPC f).
  - assert (W : wired trace T Y spot f stdin coin stored argv _ _) by (eapply wired_reverse; [exact HI|exact C|repeat split; eauto|exact P|exact P']).
    destruct (wired_v trace T Y spot E f stdin coin _ _ _ _ W) as (_ & v & HA & HM). eapply line_ok; [exact HA|exact HM|].
    apply OF, (C83_exit v trace why T Y cap room pol opens pieces HPC f).
  - assert (W : wired trace T Y spot f stdin coin stored argv _ _) by (eapply wired_block; [exact HI|exact C|repeat split; eauto|exact P|exact P']).
    destruct (wired_v trace T Y spot E f stdin coin _ _ _ _ W) as (_ & v & HA & HM). eapply line_ok; [exact HA|exact HM|].
    apply (C83_exit v trace why T Y cap room pol opens pieces HPC f).
  - assert (W : wired trace T Y spot f stdin coin stored argv _ _) by (eapply wired_flut; [exact HI|exact C|repeat split; eauto|exact P|exact P1|exact P2|exact P3]).
    destruct (wired_v trace T Y spot E f stdin coin _ _ _ _ W) as (_ & v & HA & HM). eapply line_ok; [exact HA|exact HM|].
    apply OF, (C83_exit v trace why T Y cap room pol opens pieces HPC f).
Qed.
(** For every command line that runs on ciphertexts: the file is one that the command line is read to name. *)
Theorem C83_main argv c A : main T Y spot f stdin coin argv = Ok (Runs c) -> parse f argv = Ok A ->
  line_answers Y trace stored E f argv
    (fun w => one_error trace w \/ write_error trace (t_n1 T) room opens (output_files (a_text A Foutput) (a_text A Foutput_dir)) w).
Proof.
  intros M P. unfold main in M. rewrite P in M. cbn [bind] in M.
  assert (K : exists talk : verbosity -> _, (forall v, dispatch_run trace T Y stored v f A = ([], Some (talk v))) /\
    forall v, answers Y v f (talk v) (fun w => one_error trace w \/ write_error trace (t_n1 T) room opens (output_files (a_text A Foutput) (a_text A Foutput_dir)) w)).
  { assert (OF : forall v talk o, a_text A Foutput = Some o -> answers Y v f talk (fun w => one_error trace w \/ write_error trace (t_n1 T) room opens (eq o) w) ->
      answers Y v f talk (fun w => one_error trace w \/ write_error trace (t_n1 T) room opens (output_files (a_text A Foutput) (a_text A Foutput_dir)) w)).
    { intros v talk o EO (A1 & A2 & A3). split; [exact A1|]. split; [exact A2|]. intros r w O. destruct (A3 r w O) as (B1 & B2). split; [|exact B2].
      intros X. destruct (B1 X) as [L|(l & why' & p & f1 & c' & H1 & H2 & <- & HR)]; [left; exact L|].
      right. exists l, why', o, f1, c'. split; [exact H1|]. split; [exact H2|]. split; [left; exact EO|exact HR]. }
    assert (VO : forall o, value (a_text A Foutput) = Ok o -> a_text A Foutput = Some o) by (intros o; destruct (a_text A Foutput); cbn; congruence).
    unfold dispatch in M. unfold dispatch_run.
    destruct (a_type A); try discriminate M; try (destruct (negb (one_output A)); [discriminate M|]);
      repeat (let X := fresh "X" in apply bind_ok in M as (? & X & M)); try discriminate M;
      repeat match goal with H : value _ = Ok _ |- _ => rewrite H; cbn [bind]; revert H end; intros;
      (eexists; split; [reflexivity|]; intros v);
      first [apply (C83_exit v trace why T Y cap room pol opens pieces HPC f) | eapply OF; [eauto|apply (C83_exit v trace why T Y cap room pol opens pieces HPC f)]]. }
  destruct K as (talk & D & AC). destruct (main_run_is trace T Y spot E f stdin coin _ argv A talk P D) as (v & HA & HM).
  eapply line_ok; [exact HA|exact HM|apply AC].
Qed.
End Main.

(** An execution: no input, room for three bytes, no buffer, --quiet.  The error names the output, which has three bytes. *)
Definition ex_none : fs := write ex_f ["c"%char] [].
Definition ex_why (f : fs) (p : text) : text := lit "Failed to write".
Example C83_nonvacuous trace :
  let talk := do_run_reverse_log trace ex_T ex_Y (log_store_disk QUIET trace ex_why 0 (fun _ _ => 3) (fun _ => 0) (fun _ _ => true) ex_pieces) (log_says QUIET)
    ex_none ([], ex_none) ["s"%char] ["c"%char] (Some ["o"%char]) None 1 2 false ["b"%char] false in
  exists w, log_over ex_Y talk ex_none (Fail FExit) w /\
    fst w = (Err, lit "Failed to write") :: error trace (lit "Unable to write into archive: o") /\
    exists b, snd w ["o"%char] = Some b /\ length b = 3.
Proof.
  cbv zeta.
  assert (E1 : read_bkey ex_T ex_Y ex_none ["b"%char] = Ok (true, true)) by (vm_compute; reflexivity).
  assert (E2 : from_file ex_none ["s"%char] = Ok ex_g) by (vm_compute; reflexivity).
  assert (E3 : exists r, online2_new ex_T ex_g 2 false true false = Ok r /\ exists c, online2_result ex_T r = Ok c)
    by (eexists; split; [vm_compute; reflexivity|eexists; vm_compute; reflexivity]).
  destruct E3 as (r & E3 & c & E4).
  set (talk := do_run_reverse_log _ _ _ _ _ _ _ _ _ _ _ _ _ _ _ _).
  assert (RE : match talk with
    | Ok (kd, _, body) => kd = Forward /\ reaches (fun r w => r = Fail FExit /\
        fst w = (Err, lit "Failed to write") :: error trace (lit "Unable to write into archive: o") /\
        exists b, snd w ["o"%char] = Some b /\ length b = 3) ([], ex_none) body []
    | _ => False end).
  { unfold talk, do_run_reverse_log. cbn [assert_]. split; [reflexivity|].
    apply reaches_says. eapply reaches_det; [exact E1|]. apply reaches_says. eapply reaches_det; [exact E2|]. apply reaches_says. eapply reaches_det; [exact E3|].
    cbn [reaches]. apply reaches_says. cbn [reaches length monitor_loop_log Nat.eqb]. unfold last_output_log. apply reaches_says.
    exists (c, r). split; [unfold reverse_ask_any, det; rewrite E4; reflexivity|].
    rewrite E1, E3. cbn [archive_messages sanitize_messages fst snd]. rewrite !visible_filter.
    assert (FM : file_messages trace ex_none ["s"%char] = []) by (vm_compute; reflexivity). rewrite FM. cbn [filter enabled app fst snd output_params param].
    unfold log_store_disk. cbv zeta. cbn [fst snd].
    destruct (write_to_archive 0 3 (fun _ => 0) true ex_none ["o"%char] (ex_pieces (archive_tlwe (t_n1 ex_T) c))) as [q f'] eqn:EW.
    apply C72_archive in EW. cbv iota in EW. rewrite ex_pieces_ok, archive_length in EW. destruct EW as (_ & A & [->| ->] & B & _).
    { specialize (B eq_refl). assert (3 < 1 + 4 * (t_n1 ex_T + 1)) by (apply Nat.ltb_lt; vm_compute; reflexivity). lia. }
    cbn [reaches]. apply reaches_says. cbn [reaches fst snd]. split; [reflexivity|]. split; [rewrite visible_filter; reflexivity|].
    eexists. split; [exact A|]. rewrite firstn_length, archive_length. vm_compute. reflexivity. }
  destruct talk as [[[kd input] body]|e] eqn:ET; [|destruct RE]. destruct RE as (-> & RE).
  assert (EI : input = ["c"%char]) by (unfold talk, do_run_reverse_log in ET; cbn [assert_] in ET; injection ET; intros; congruence). subst input.
  pose proof ex_crypto as YO.
  destruct (stream_reaches Forward (c_words ex_T ex_Y) [] (y_words _ _ _ _ YO) (y_block _ _ _ _ YO) (Forall_nil _) eq_refl _ body ([], ex_none)
              (repeat 0%N (c_words ex_T ex_Y)) (repeat_length _ _) RE) as (s & t & r' & w & EO & M & -> & HW & HB).
  exists w. split; [|auto]. exists Forward, ["c"%char], body, [], (repeat 0%N (c_words ex_T ex_Y)), s, t. repeat (split; [assumption || reflexivity|]). exact M.
Qed.
(** Reports after every second input, room for all but 4.out, no buffer: whatever the schedule, an execution that is over has failed, and
    its error names d/4.out. *)
Example C83_dir_nonvacuous v trace : forall r w,
  log_over ex_Y (do_run_reverse_log trace ex_T ex_Y (log_store_disk v trace ex_why 0 ex_room (fun _ => 0) (fun _ _ => true) ex_pieces) (log_says v)
    ex_whole ([], ex_whole) ["s"%char] ["c"%char] None (Some ["d"%char]) 2 2 false ["b"%char] false) ex_whole r w ->
  r = Fail FExit /\
  (exists before why, fst w = before ++ (Err, why) :: error trace (lit "Unable to write into archive: d/4.out") /\ no_error before).
Proof.
  intros r w LO. destruct ex_contract as (H1 & H2). destruct ex_margins as (M1 & _). destruct ex_from_file as (_ & _ & SG).
  edestruct (C75_reverse_dir ex_T _ _ _ _ ex_Y H1 H2 ex_crypto 0 ex_room (fun _ => 0) (fun _ _ => true) ex_pieces ex_pieces_ok
               ex_whole ["k"%char] ["b"%char] ["s"%char] ["c"%char] ["d"%char] 2 2 ex_g 0 [true; false; false; true; true; false])
      as (_ & _ & OV);
      [exact ex_whole_keys|apply write_same|exact ex_report_names|exact ex_whole_spec|rewrite SG; lia|lia|lia|exact M1|vm_compute; reflexivity|].
  pose proof (proj1 (proj2 (C83_same v trace ex_why ex_T ex_Y 0 ex_room (fun _ => 0) (fun _ _ => true) ex_pieces ex_whole r w)) _ _ _ _ _ _ _ _ _ LO) as RO.
  destruct (OV _ _ RO) as ((_ & DE & _) & DO).
  assert (R4 : forall f1 j, ex_room f1 (report_file ["d"%char] j) < result_size ex_T -> j = 4).
  { intros f1 j L. unfold ex_room in L. destruct (path_eqb _ _) eqn:EP in L; [|unfold result_size in L; lia].
    apply path_eqb_iff in EP. apply report_file_inj in EP. exact EP. }
  assert (RX : r = Fail FExit).
  { destruct r as [w'|e]; cbn [without_log] in DE.
    - exfalso. destruct DE as (_ & X). destruct (X 4) as (_ & f1 & _ & L); [left; cbn; lia|].
      unfold ex_room in L. rewrite path_eqb_refl in L. unfold result_size in L. lia.
    - destruct DE as (f1 & j & _ & [([=] & _)|(_ & -> & _)]). reflexivity. }
  split; [exact RX|]. subst r.
  assert (NK : read_bkey ex_T ex_Y ex_whole ["b"%char] <> Fail FExit) by (vm_compute; discriminate).
  assert (NG : from_file ex_whole ["s"%char] <> Fail FExit) by (rewrite ex_whole_spec; discriminate).
  destruct (C83_write v trace ex_why ex_T ex_Y 0 ex_room (fun _ => 0) (fun _ _ => true) ex_pieces ex_pieces_ok ex_whole _ _ NK NG) as (_ & CW & _).
  destruct (CW ["c"%char] None (Some ["d"%char]) 2 2 false) as (_ & _ & CW2). destruct (CW2 _ _ LO) as (BL & _).
  destruct (BL eq_refl) as (before & why & p & f1 & c & HL & NE & [HP|(d & n & [= <-] & ->)] & _ & HC & HR & _); [discriminate HP|].
  rewrite archive_length in HR. assert (n = 4) as -> by (eapply R4; exact HR).
  exists before, why. split; [exact HL|exact NE].
Qed.

(** The command line `--quiet run offline ...` on files that can be read, room for three bytes. *)
Example C83_line_nonvacuous trace :
  line_answers ex_Y trace (fun v => log_store_disk v trace ex_why 0 (fun _ _ => 3) (fun _ => 0) (fun _ _ => true) ex_pieces) ex_E ex_none (ex_offline [lit "--quiet"])
    (fun w => one_error trace w \/ write_error trace (t_n1 ex_T) (fun _ _ => 3) (fun _ _ => true) (eq ["o"%char]) w).
Proof.
  destruct ex_two as (P2 & P3).
  eapply (C83_line trace ex_why ex_T ex_Y 0 _ (fun _ => 0) _ ex_pieces ex_pieces_ok ex_spot ex_E ex_none [] 0 _ ["b"%char] ["o"%char] ["s"%char] ["c"%char]).
  - eapply (line_offline _ _ _ _ _ _ None); [exact P2|exact I|]. ex_line [lit "--quiet"] (ex_common ++ [Opt "--bootstrapping-freq" (lit "2")]).
  - vm_compute. discriminate.
  - vm_compute. discriminate.
  - vm_compute. discriminate.
Qed.

Print Assumptions C83_exit.
Print Assumptions C83_write.
Print Assumptions C83_same.
Print Assumptions C83_line.
Print Assumptions C83_main.
