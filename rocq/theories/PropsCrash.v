(** C58: commands that are killed.

    [enc_left T Y … f'], [run_left T Y c f f'], …: a command started with the files f and killed at
    some moment (or not killed at all) can leave the files f'. *)
From Coq Require Import List Arith Bool NArith ZArith Ascii Lia.
Import ListNotations.
From Verif Require Import Base BaseFacts GraphModel Spec GraphFacts GraphOps Minimize Quotient TextModel TextSpec TextFacts TextClaims
  CliModel CliFacts PropsText BitsModel BitsFacts TorusModel TfheSpec TfheFacts
  RunnerModel RunnerSpec RunnerFacts LookupFacts ReachFacts PropsRunner ParModel ParFacts SchedFacts StreamModel InputSpec StreamFacts PropsInput
  ClientModel ClientFacts CmdModel CmdSpec CmdFacts PropsCmd CrashModel CrashFacts.

(** A property of commands that can be checked after the deterministic steps before the loop. *)
Record peel (W : client fs -> list (list N) -> Prop) : Prop := mkPeel {
  pl_det : forall X (m : res X) k a rem, m = Ok a -> W (k a) rem -> W (pdet m k) rem;
  pl_size : forall k rem, W (k (length rem)) rem -> W (PSize k) rem }.
Lemma peel_sure r : peel (fun p rem => sure p rem r).
Proof. constructor; [intros; eapply sure_det; eauto|auto]. Qed.
Lemma peel_always P d : peel (always P d).
Proof. constructor; [intros; eapply always_det; eauto|intros; apply always_size; auto]. Qed.

Section Killed.
Context (T : tfhe) (s0 s1 : list Z) (bit : trgsw T -> bool -> Prop) (E : noise) (Y : crypto T).
Hypothesis OK : tfhe_ok T s0 s1 bit E.
Hypothesis NN : noise_nonneg E.
Hypothesis YO : crypto_ok T Y s1 bit.
Notation words := (c_words T Y).
Notation decrypt c := (decrypt_TLWELvl1_to_bit (t_n1 T) c s1).

(** * enc *)
(** ** C58: a killed enc leaves every other file alone; its output is as it was before, or a file
    that every run command refuses, or what a complete enc would have written for the first n
    bits. *)
Theorem C58_enc f skey input cipher ap coin bytes f' :
  f input = Some bytes -> input <> cipher -> 0 < ap ->
  (Z.of_nat (length (bits_passed 0 ap bytes) * (words * 8)) < 2 ^ 64)%Z ->
  enc_left T Y f skey input cipher ap coin f' ->
  (forall p, p <> cipher -> f' p = f p) /\
  (f' cipher = f cipher \/
   (exists file, f' cipher = Some file /\ length file mod (words * 8) <> 0 /\
      forall c, cmd_input c = cipher -> run_ends T Y (Ok c) f' (Fail FAssert) /\
                                        forall f'', run_left T Y (Ok c) f' f'' -> forall p, f'' p = f' p) \/
   (exists n, n <= length (bits_passed 0 ap bytes) /\
      f' cipher = Some (enc_output T Y coin (firstn n (bits_passed 0 ap bytes))))).
Proof.
  intros HI NC H0 HB H. pose proof (y_words _ _ _ _ YO) as HW.
  assert (BS : block_size words = words * 8) by (unfold block_size; lia).
  destruct H as [H|(RS & [H|(inp & OI & (k & H))])].
  - split; [intros p _; apply H|left; apply H].
  - split; [intros p P; rewrite H; apply write_other; exact P|]. right. right. exists 0. split; [lia|].
    rewrite H, write_same. reflexivity.
  - unfold open_file in OI. rewrite write_other, HI in OI by auto. injection OI as <-.
    split; [intros p P; rewrite H; apply write_other; exact P|]. right.
    set (bits := bits_passed 0 ap bytes) in *. set (out := enc_output T Y coin bits) in *.
    assert (LO : length out = length bits * (words * 8)) by (unfold out; rewrite (ct_file_length T Y s1 bit YO), BS; reflexivity).
    assert (FC : f' cipher = Some (firstn k out)) by (rewrite H; apply write_same).
    destruct (Nat.eq_dec (length (firstn k out) mod (words * 8)) 0) as [M|M].
    + right. apply Nat.div_exact in M; [|lia]. set (n := length (firstn k out) / (words * 8)) in *.
      assert (LF : length (firstn k out) <= length out) by (rewrite firstn_length; lia).
      assert (NB : n <= length bits) by nia. exists n. split; [exact NB|]. rewrite FC. f_equal.
      unfold out. rewrite <- (enc_output_firstn T Y s1 bit YO) by exact NB. fold out. rewrite BS.
      rewrite (Nat.mul_comm n), <- M. rewrite firstn_length.
      destruct (Nat.le_ge_cases k (length out)); [rewrite Nat.min_l by auto; reflexivity|].
      rewrite Nat.min_r by auto. rewrite firstn_all, firstn_all2 by auto. reflexivity.
    + left. exists (firstn k out). split; [exact FC|]. split; [exact M|]. intros c EC.
      assert (X : forall junk, open_stream (cmd_kind c) words (firstn k out) junk [] = Fail FAssert).
      { intros junk. apply C25_partial_block; [exact HW| |rewrite BS; exact M].
        rewrite <- LO in HB. rewrite firstn_length. lia. }
      split.
      * cbn [run_ends]. rewrite EC, FC. intros junk _. rewrite X. reflexivity.
      * intros f'' [SF|(c0 & b0 & junk & s & x & [= <-] & FB & _ & EO & _)]; [exact SF|].
        exfalso. rewrite EC, FC in FB. injection FB as <-. rewrite X in EO. discriminate.
Qed.

(** Not every killed enc is noticed: for each n, the file for the first n bits may be left. *)
Theorem C58_enc_noticed_refuted f skey input cipher ap coin bytes n :
  (exists b, f skey = Some b /\ c_read_skey T Y b = true) -> f input = Some bytes -> input <> cipher ->
  n <= length (bits_passed 0 ap bytes) ->
  exists f', enc_left T Y f skey input cipher ap coin f' /\
    (forall p, p <> cipher -> f' p = f p) /\
    f' cipher = Some (enc_output T Y coin (firstn n (bits_passed 0 ap bytes))).
Proof.
  intros (sb & HS & RS) HI NI HN.
  exists (write f cipher (firstn (n * block_size words) (enc_output T Y coin (bits_passed 0 ap bytes)))).
  split; [|split].
  - right. split; [unfold read_skey, open_file; rewrite HS; cbn [bind]; rewrite RS; reflexivity|]. right.
    exists bytes. split; [unfold open_file; rewrite write_other, HI by auto; reflexivity|].
    exists (n * block_size words). intros q. reflexivity.
  - intros p P. apply write_other. exact P.
  - rewrite write_same. f_equal. apply (enc_output_firstn T Y s1 bit YO). exact HN.
Qed.

(** The bits of a well-formed input are all passed on; an unfinished last valuation is passed on
    too. *)
Theorem C58_bits_passed ap vals blocks : 0 < ap -> Forall2 (packs ap) vals blocks ->
  bits_passed 0 ap (concat blocks) = concat vals.
Proof. intros H0 F. apply bits_passed_whole. intros. apply C20_input_decoding; auto. Qed.

(** * Runs on a file that holds the encryption of any bits, killed or not *)
Lemma offline_mode f bkey spec cipher output interval g coin bits :
  (exists b, f bkey = Some b /\ c_read_bkey T Y b = Some (true, true)) ->
  from_file f spec = Ok g -> wf_graph g -> 0 < interval -> back_margin E interval -> (Z.of_nat (length bits) < 2 ^ 31)%Z ->
  exists c, accepts g bits = Ok (decrypt c) /\
    forall c0, do_run_offline T Y f spec cipher output interval bkey false = Ok c0 ->
    sure (cmd_body c0) (rev (map (c_save T Y) (encs T Y coin bits))) (Ok (write f output (archive_tlwe (t_n1 T) c))) /\
    always (stage T [(output, c)] f) f (cmd_body c0) (rev (map (c_save T Y) (encs T Y coin bits))).
Proof.
  intros (bb & HK & RK) EG W HI0 HM L31.
  destruct (minimized_correct g W) as (m & EM & WM & AM & _).
  pose proof (encs_bits T Y s1 bit YO coin bits) as HBITS.
  destruct (C30_offline T s0 s1 bit E OK NN m interval bits (encs T Y coin bits) WM HI0 HM L31 HBITS) as (c & EC & AD).
  rewrite AM in AD. exists c. split; [exact AD|]. intros c0 [= <-]. cbn [cmd_body].
  unfold offline_run in EC. rewrite encs_length in EC.
  apply bind_ok in EC as (r & EN & EC). apply bind_ok in EC as (r' & EF & ER).
  assert (LR : length (rev (map (c_save T Y) (encs T Y coin bits))) = length bits)
    by (rewrite rev_length, map_length, encs_length; reflexivity).
  destruct (logged_depths_ok T m (length bits) interval r EN WM HI0 L31) as (dl & ED).
  assert (PL : forall W : client fs -> list (list N) -> Prop, peel W -> forall finish,
    W (offline_loop T Y (length bits) r finish) (rev (map (c_save T Y) (encs T Y coin bits))) ->
    W (pdet (read_bkey T Y f bkey) (fun '(ekey, _) =>
       pdet (do g <- from_file f spec; minimized g) (fun g =>
       PSize (fun n => pdet (offline_new T g n interval ekey false) (fun r =>
       PSize (fun n => pdet (mapM (states_at_depth (b_graph r)) (seq 0 n)) (fun _ =>
       PSize (fun input_size => offline_loop T Y input_size r finish)))))))) (rev (map (c_save T Y) (encs T Y coin bits)))).
  { intros W0 PW finish HL. eapply (pl_det _ PW) with (a := (true, true)).
    { unfold read_bkey, open_file. rewrite HK. cbn [bind]. rewrite RK. reflexivity. }
    cbv beta iota. eapply (pl_det _ PW) with (a := m); [rewrite EG; exact EM|].
    apply (pl_size _ PW). rewrite LR. eapply (pl_det _ PW); [exact EN|]. apply (pl_size _ PW). rewrite LR.
    eapply (pl_det _ PW); [exact ED|]. apply (pl_size _ PW). rewrite LR. exact HL. }
  split; apply (PL (fun p rem => sure p rem _) (peel_sure _)) || apply (PL _ (peel_always _ _)); rewrite <- LR.
  - eapply (offline_loop_sure T Y).
    + rewrite map_rev, (encs_load T Y s1 bit YO). exact EF.
    + apply (sure_det _ _ c); [exact ER|]. reflexivity.
  - eapply (offline_loop_always T Y).
    + rewrite map_rev, (encs_load T Y s1 bit YO). exact EF.
    + apply (always_det _ _ _ _ c); [exact ER|]. apply always_store. cbn [always]. split; [apply stage_now|exact I].
Qed.

(** The loop of the other three, to one file or to a directory. *)
Section Loop.
Context {St : Type} (feed : St -> trgsw T -> outcomes St) (ask : St -> outcomes (list Z * St))
        (feedD : St -> trgsw T -> res St) (askD : St -> res (list Z * St)).
Hypothesis HFe : forall s c, exact (feed s c) (feedD s c).
Hypothesis HAs : forall s, exact (ask s) (askD s).
Context (f : fs) (cipher : text) (coin : nat) (bits : list bool) (g : Graph) (s s' : St) (outs : list (list Z)).
Notation rem := (map (c_save T Y) (encs T Y coin bits)).

Lemma loop_out output freq :
  play feedD askD (asked None 0 (encs T Y coin bits)) s = Ok (outs, s') ->
  map (fun c => Ok (decrypt c)) outs = verdicts g [] (asked None 0 bits) ->
  exists c, accepts g bits = Ok (decrypt c) /\
    let loop := monitor_loop T Y feed ask cipher None freq (last_output T ask (Some output) None (length bits)) (length bits) 0 s f in
    sure loop rem (Ok (write f output (archive_tlwe (t_n1 T) c))) /\ always (stage T [(output, c)] f) f loop rem.
Proof.
  intros HP PO.
  assert (LR : length rem = length bits) by (rewrite map_length, encs_length; reflexivity).
  assert (HP' : play feedD askD (asked None 0 (map (c_load T Y) rem)) s = Ok (outs, s')).
  { rewrite (encs_load T Y s1 bit YO). exact HP. }
  destruct (to_file T Y s1 feed ask feedD askD HFe HAs cipher None freq rem (length bits) s f output outs s' eq_refl LR HP')
    as (c & EO & SU).
  destruct (to_file_always T Y s1 feed ask feedD askD HFe HAs cipher None freq rem (length bits) s f output outs s' eq_refl LR HP')
    as (c' & EO' & AL).
  subst outs. injection EO' as <-. exists c. split; [|split; [exact SU|exact AL]].
  pose proof (verdicts_asked g None bits []) as V. cbn [length app] in V. rewrite V in PO.
  unfold reports in PO. cbn [app map Nat.add] in PO. rewrite firstn_all in PO. congruence.
Qed.

Lemma loop_dir dir freq : 0 < freq -> (forall j, report_file dir j <> cipher) ->
  play feedD askD (asked (Some freq) 0 (encs T Y coin bits)) s = Ok (outs, s') ->
  map (fun c => Ok (decrypt c)) outs = verdicts g [] (asked (Some freq) 0 bits) ->
  let rs := reports (Some freq) 0 (length bits) in
  length outs = length rs /\ map (fun c => Ok (decrypt c)) outs = map (fun k => accepts g (firstn k bits)) rs /\
  always (stage T (combine (map (report_file dir) rs) outs) f) f
    (monitor_loop T Y feed ask cipher (Some dir) freq (last_output T ask None (Some dir) (length bits)) (length bits) 0 s f) rem.
Proof.
  intros HF HD HP PO rs.
  assert (LR : length rem = length bits) by (rewrite map_length, encs_length; reflexivity).
  destruct (to_dir_always T Y s1 feed ask feedD askD HFe HAs cipher (Some dir) freq rem (length bits) s f dir outs s' eq_refl HF LR)
    as (LO & AL); auto.
  { rewrite (encs_load T Y s1 bit YO). exact HP. }
  split; [exact LO|]. split; [|exact AL].
  pose proof (verdicts_asked g (Some freq) bits []) as V. cbn [length app] in V. rewrite V in PO. exact PO.
Qed.
End Loop.

(** What the user sees: one output file. *)
Definition out_left (f : fs) (skey output : text) (g : Graph) (bits : list bool) (f' : fs) : Prop :=
  (forall p, p <> output -> f' p = f p) /\
  (f' output = f output \/
   do_dec T Y f' skey output = Fail FExit \/
   exists b, accepts g bits = Ok b /\ do_dec T Y f' skey output = Ok (answer b)).
Lemma stage_out f skey output g bits c f' :
  (exists b, f skey = Some b /\ c_read_skey T Y b = true) -> output <> skey ->
  accepts g bits = Ok (decrypt c) -> stage T [(output, c)] f f' -> out_left f skey output g bits f'.
Proof.
  intros (sb & HS & RS) NO AC SG. split.
  - intros p P. eapply stage_other; eauto. cbn. intuition.
  - destruct (stage_file T _ _ _ output SG) as [|(c' & k & I & EF)]; [auto|].
    destruct I as [[= <-]|[]]. right.
    destruct (do_dec_part T Y s1 bit YO f' skey output sb c k) as [D|D]; auto.
    + rewrite (stage_other T _ _ _ skey SG); [exact HS|]. cbn. intuition.
    + right. eauto.
Qed.

(** ** C58: the run commands with one output file.  On the encryption of any bits (so, by C58_enc,
    on what a killed enc has left) they answer for these bits; killed, they leave a file that dec
    refuses, or the right answer, or what was there before; and nothing else changes. *)
Theorem C58_offline f skey bkey spec cipher output interval g coin bits :
  keys_at Y f skey bkey -> f cipher = Some (enc_output T Y coin bits) -> output <> skey ->
  from_file f spec = Ok g -> 0 < size g -> 0 < interval -> back_margin E interval ->
  (Z.of_nat (length bits) < 2 ^ 31)%Z -> (Z.of_nat (length bits * (words * 8)) < 2 ^ 64)%Z ->
  let command := do_run_offline T Y f spec cipher output interval bkey false in
  (exists f2 b, run_ends T Y command f (Ok f2) /\ accepts g bits = Ok b /\ do_dec T Y f2 skey output = Ok (answer b)) /\
  (forall f', run_left T Y command f f' -> out_left f skey output g bits f').
Proof.
  intros (KS & KB) FC NO EG SG HI0 HM L31 L64 command.
  assert (W : wf_graph g) by (eapply from_file_wf; eauto).
  destruct (offline_mode f bkey spec cipher output interval g coin bits KB EG W HI0 HM L31) as (c & AC & HC).
  unfold command in *. destruct (do_run_offline T Y f spec cipher output interval bkey false) as [c0|e] eqn:EC; [|discriminate].
  destruct (HC c0 eq_refl) as (SU & AL).
  assert (KI : cmd_input c0 = cipher /\ cmd_kind c0 = Reversed) by (unfold do_run_offline in EC; injection EC as <-; auto).
  destruct KI as (KI & KK). split.
  - exists (write f output (archive_tlwe (t_n1 T) c)), (decrypt c). split; [|split; [exact AC|]].
    + apply (run_ends_ok T Y s1 bit YO) with (coin := coin) (bits := bits); [rewrite KI, <- enc_output_file; exact FC|exact L64|].
      rewrite KK. exact SU.
    + destruct KS as (sb & HS & RS). apply (do_dec_ok T Y s1 bit YO) with (b := sb); auto; [rewrite write_other; auto|apply write_same].
  - intros f' RL. eapply stage_out; eauto.
    eapply (run_left_stage T Y s1 bit YO); [rewrite KI; exact FC|exact L64| |exact RL]. rewrite KK. exact AL.
Qed.

Lemma forward_out f skey bkey cipher output g coin bits c c0 :
  keys_at Y f skey bkey -> f cipher = Some (enc_output T Y coin bits) -> output <> skey ->
  (Z.of_nat (length bits * (words * 8)) < 2 ^ 64)%Z ->
  accepts g bits = Ok (decrypt c) -> cmd_input c0 = cipher -> cmd_kind c0 = Forward ->
  sure (cmd_body c0) (map (c_save T Y) (encs T Y coin bits)) (Ok (write f output (archive_tlwe (t_n1 T) c))) ->
  always (stage T [(output, c)] f) f (cmd_body c0) (map (c_save T Y) (encs T Y coin bits)) ->
  (exists f2 b, run_ends T Y (Ok c0) f (Ok f2) /\ accepts g bits = Ok b /\ do_dec T Y f2 skey output = Ok (answer b)) /\
  (forall f', run_left T Y (Ok c0) f f' -> out_left f skey output g bits f').
Proof.
  intros (KS & KB) FC NO L64 AC KI KK SU AL. split.
  - exists (write f output (archive_tlwe (t_n1 T) c)), (decrypt c). split; [|split; [exact AC|]].
    + apply (run_ends_ok T Y s1 bit YO) with (coin := coin) (bits := bits); [rewrite KI, <- enc_output_file; exact FC|exact L64|].
      rewrite KK. exact SU.
    + destruct KS as (sb & HS & RS). apply (do_dec_ok T Y s1 bit YO) with (b := sb); auto; [rewrite write_other; auto|apply write_same].
  - intros f' RL. eapply stage_out; eauto.
    eapply (run_left_stage T Y s1 bit YO); [rewrite KI; exact FC|exact L64| |exact RL]. rewrite KK. exact AL.
Qed.

Lemma reverse_peel f bkey spec cipher out dir freq interval rv g r coin bits c0 :
  (exists b, f bkey = Some b /\ c_read_bkey T Y b = Some (true, true)) -> from_file f spec = Ok g ->
  online2_new T g interval rv true false = Ok r ->
  do_run_reverse T Y f spec cipher out dir freq interval rv bkey false = Ok c0 ->
  cmd_input c0 = cipher /\ cmd_kind c0 = Forward /\
  forall W, peel W ->
    W (monitor_loop T Y (backstream_eval_any T) (reverse_ask_any T) cipher dir freq
         (last_output T (reverse_ask_any T) out dir (length bits)) (length bits) 0 r f) (map (c_save T Y) (encs T Y coin bits)) ->
    W (cmd_body c0) (map (c_save T Y) (encs T Y coin bits)).
Proof.
  intros (bb & HK & RK) EG EN EC. unfold do_run_reverse in EC. destruct out, dir; try discriminate; cbn [assert_] in EC; injection EC as <-.
  all: split; [reflexivity|]; split; [reflexivity|]; intros W PW HL; cbn [cmd_body];
    eapply (pl_det _ PW) with (a := (true, true));
      [unfold read_bkey, open_file; rewrite HK; cbn [bind]; rewrite RK; reflexivity|];
    cbv beta iota; eapply (pl_det _ PW); [exact EG|]; eapply (pl_det _ PW); [exact EN|];
    apply (pl_size _ PW); apply (pl_size _ PW); rewrite map_length, encs_length; exact HL.
Qed.

Theorem C58_reverse f skey bkey spec cipher output freq interval g coin bits :
  keys_at Y f skey bkey -> f cipher = Some (enc_output T Y coin bits) -> output <> skey ->
  from_file f spec = Ok g -> 0 < size g -> 0 < interval -> back_margin E interval ->
  (Z.of_nat (length bits * (words * 8)) < 2 ^ 64)%Z ->
  let command := do_run_reverse T Y f spec cipher (Some output) None freq interval false bkey false in
  (exists f2 b, run_ends T Y command f (Ok f2) /\ accepts g bits = Ok b /\ do_dec T Y f2 skey output = Ok (answer b)) /\
  (forall f', run_left T Y command f f' -> out_left f skey output g bits f').
Proof.
  intros HK FC NO EG SG HI0 HM L64. cbv zeta.
  assert (W : wf_graph g) by (eapply from_file_wf; eauto).
  destruct (C31_reverse T s0 s1 bit E OK NN g interval _ _ W HI0 HM (asked_encrypts T Y s1 bit YO None coin bits 0))
    as (outs & s' & EO & PO).
  apply bind_ok in EO as (r & EN & EO).
  destruct (loop_out (backstream_eval_any T) (reverse_ask_any T) (online2_eval_one T) (reverse_ask T)
              (backstream_any_exact T) (fun s => exact_det _) f cipher coin bits g r s' outs output freq EO PO) as (c & AC & SU & AL).
  destruct (do_run_reverse T Y f spec cipher (Some output) None freq interval false bkey false) as [c0|e] eqn:EC; [|discriminate].
  destruct (reverse_peel f bkey spec cipher (Some output) None freq interval false g r coin bits c0 (proj2 HK) EG EN EC) as (KI & KK & PL).
  eapply forward_out; eauto.
  - apply (PL _ (peel_sure _)). exact SU.
  - apply (PL _ (peel_always _ _)). exact AL.
Qed.

Lemma flut_peel f bkey spec cipher out dir freq queue_size interval max_depth g r coin bits c0 : 0 < queue_size ->
  (exists b, f bkey = Some b /\ c_read_bkey T Y b = Some (true, true)) -> from_file f spec = Ok g ->
  flut_new T g max_depth queue_size interval false = Ok r ->
  do_run_flut T Y f spec cipher out dir freq queue_size interval bkey (Some max_depth) None false = Ok c0 ->
  cmd_input c0 = cipher /\ cmd_kind c0 = Forward /\
  forall W, peel W ->
    W (monitor_loop T Y (flut_eval_one_any T) (flut_result_any T) cipher dir freq
         (last_output T (flut_result_any T) out dir (length bits)) (length bits) 0 r f) (map (c_save T Y) (encs T Y coin bits)) ->
    W (cmd_body c0) (map (c_save T Y) (encs T Y coin bits)).
Proof.
  intros HQ (bb & HK & RK) EG EN EC. unfold do_run_flut in EC. injection EC as <-.
  split; [reflexivity|]. split; [reflexivity|]. intros W PW HL. cbn [cmd_body].
  eapply (pl_det _ PW); [exact EG|].
  eapply (pl_det _ PW) with (a := (true, true));
      [unfold read_bkey, open_file; rewrite HK; cbn [bind]; rewrite RK; reflexivity|].
  cbv beta iota. eapply (pl_det _ PW) with (a := tt); [reflexivity|]. eapply (pl_det _ PW) with (a := tt); [reflexivity|].
  eapply (pl_det _ PW); [exact EN|]. apply (pl_size _ PW).
  eapply (pl_det _ PW) with (a := tt). { destruct dir; [|reflexivity]. destruct (Nat.eqb_spec queue_size 0); [lia|reflexivity]. }
  apply (pl_size _ PW). rewrite map_length, encs_length. exact HL.
Qed.

Theorem C58_flut f skey bkey spec cipher output freq queue_size interval max_depth g coin bits :
  keys_at Y f skey bkey -> f cipher = Some (enc_output T Y coin bits) -> output <> skey ->
  from_file f spec = Ok g -> 0 < size g ->
  0 < queue_size < 31 -> 0 < interval -> max_depth < 31 -> table_fits (t_n1 T) max_depth queue_size g ->
  flut_margin (size g * 2 ^ (queue_size / 2)) queue_size interval E ->
  (forall n k, In n (flushes queue_size 0 0 (asked None 0 bits)) -> width g n k -> k < 2 ^ max_depth) ->
  (Z.of_nat (length bits * (words * 8)) < 2 ^ 64)%Z ->
  let command := do_run_flut T Y f spec cipher (Some output) None freq queue_size interval bkey (Some max_depth) None false in
  (exists f2 b, run_ends T Y command f (Ok f2) /\ accepts g bits = Ok b /\ do_dec T Y f2 skey output = Ok (answer b)) /\
  (forall f', run_left T Y command f f' -> out_left f skey output g bits f').
Proof.
  intros HK FC NO EG SG HQ HI0 HD HDN HM HWd L64. cbv zeta.
  assert (W : wf_graph g) by (eapply from_file_wf; eauto).
  destruct (C33_flut T s0 s1 bit E OK NN g max_depth queue_size interval _ _ W HQ HI0 HD HDN HM (asked_encrypts T Y s1 bit YO None coin bits 0) HWd)
    as (outs & s' & EO & PO).
  apply bind_ok in EO as (r & EN & EO).
  destruct (loop_out (flut_eval_one_any T) (flut_result_any T) (flut_eval_one T) (flut_result T)
              (flut_one_any_exact T) (flut_result_any_exact T) f cipher coin bits g r s' outs output freq EO PO) as (c & AC & SU & AL).
  destruct (do_run_flut T Y f spec cipher (Some output) None freq queue_size interval bkey (Some max_depth) None false) as [c0|e] eqn:EC; [|discriminate].
  destruct (flut_peel f bkey spec cipher (Some output) None freq queue_size interval max_depth g r coin bits c0 (proj1 HQ) (proj2 HK) EG EN EC) as (KI & KK & PL).
  eapply forward_out; eauto.
  - apply (PL _ (peel_sure _)). exact SU.
  - apply (PL _ (peel_always _ _)). exact AL.
Qed.

Theorem C58_block f skey bkey spec cipher output queue_size g coin bits :
  keys_at Y f skey bkey -> f cipher = Some (enc_output T Y coin bits) -> output <> skey ->
  from_file f spec = Ok g -> 0 < size g -> bits <> [] ->
  block_margin g queue_size E -> Nat.log2 (size g) + 1 < t_n1 T -> Nat.log2 (size g) + 1 < 31 ->
  (Z.of_nat (length bits * (words * 8)) < 2 ^ 64)%Z ->
  let command := do_run_block T Y f spec cipher output queue_size bkey false in
  (exists f2 b, run_ends T Y command f (Ok f2) /\ accepts g bits = Ok b /\ do_dec T Y f2 skey output = Ok (answer b)) /\
  (forall f', run_left T Y command f f' -> out_left f skey output g bits f').
Proof.
  intros HK FC NO EG SG HNE HM HL1 HL2 L64. cbv zeta.
  assert (W : wf_graph g) by (eapply from_file_wf; eauto).
  destruct (C32_block T s0 s1 bit E OK NN g queue_size _ _ W HM HL1 HL2 (asked_encrypts T Y s1 bit YO None coin bits 0))
    as (outs & s' & EO & PO).
  { destruct bits; [congruence|discriminate]. }
  apply bind_ok in EO as (r & EN & EO).
  destruct (loop_out (block_eval_one_any T) (block_result_any T) (block_eval_one T) (block_result T)
              (block_one_any_exact T) (block_result_any_exact T) f cipher coin bits g r s' outs output 0 EO PO) as (c & AC & SU & AL).
  destruct (do_run_block T Y f spec cipher output queue_size bkey false) as [c0|e] eqn:EC; [|discriminate].
  assert (PL : cmd_input c0 = cipher /\ cmd_kind c0 = Forward /\ forall W, peel W ->
    W (monitor_loop T Y (block_eval_one_any T) (block_result_any T) cipher None 0
         (last_output T (block_result_any T) (Some output) None (length bits)) (length bits) 0 r f) (map (c_save T Y) (encs T Y coin bits)) ->
    W (cmd_body c0) (map (c_save T Y) (encs T Y coin bits))).
  { unfold do_run_block in EC. injection EC as <-. split; [reflexivity|]. split; [reflexivity|]. intros W0 PW HL. cbn [cmd_body].
    destruct (proj2 HK) as (bb & HKB & RK).
    eapply (pl_det _ PW); [exact EG|].
    eapply (pl_det _ PW) with (a := (true, true));
      [unfold read_bkey, open_file; rewrite HKB; cbn [bind]; rewrite RK; reflexivity|].
    cbv beta iota. eapply (pl_det _ PW) with (a := tt); [reflexivity|].
    eapply (pl_det _ PW); [exact EN|]. apply (pl_size _ PW). rewrite map_length, encs_length. exact HL. }
  destruct PL as (KI & KK & PL). eapply forward_out; eauto.
  - apply (PL _ (peel_sure _)). exact SU.
  - apply (PL _ (peel_always _ _)). exact AL.
Qed.

(** What the user sees: a directory of reports. *)
Definition dir_left (f : fs) (skey dir : text) (freq : nat) (g : Graph) (bits : list bool) (f' : fs) : Prop :=
  let reported j := (0 < j <= length bits /\ j mod freq = 0) \/ j = length bits in
  let right j := exists b, accepts g (firstn j bits) = Ok b /\ do_dec T Y f' skey (report_file dir j) = Ok (answer b) in
  (forall p, (forall j, reported j -> p <> report_file dir j) -> f' p = f p) /\
  (forall j, reported j ->
     f' (report_file dir j) = f (report_file dir j) \/
     do_dec T Y f' skey (report_file dir j) = Fail FExit \/ right j) /\
  (forall i j, reported i -> i < j -> f' (report_file dir j) <> f (report_file dir j) -> right i).
Lemma reports_sorted freq n l1 l2 a b : reports (Some freq) 0 n = l1 ++ l2 -> In a l1 -> In b l2 -> a <= b.
Proof.
  unfold reports. cbn [Nat.add].
  assert (S1 : forall m k l1 l2 a b, filter (fun j => j mod freq =? 0) (seq k m) = l1 ++ l2 -> In a l1 -> In b l2 -> a <= b).
  { clear. induction m as [|m IH]; intros k l1 l2 a b H Ha Hb; cbn [seq filter] in H.
    - destruct l1; [destruct Ha|discriminate].
    - destruct (k mod freq =? 0); [|eapply IH; eauto].
      destruct l1 as [|x l1]; [destruct Ha|]. cbn [app] in H. injection H as -> H. destruct Ha as [->|Ha]; [|eapply IH; eauto].
      assert (I : In b (l1 ++ l2)) by (apply in_or_app; auto). rewrite <- H in I. apply filter_In in I as [I _].
      apply in_seq in I. lia. }
  intros H Ha Hb.
  assert (U : forall x, In x (filter (fun j => j mod freq =? 0) (seq 1 n)) -> x <= n).
  { intros x I. apply filter_In in I as [I _]. apply in_seq in I. lia. }
  destruct (rev l2) as [|z l3] eqn:EL.
  { apply (f_equal (@rev nat)) in EL. rewrite rev_involutive in EL. subst l2. destruct Hb. }
  apply (f_equal (@rev nat)) in EL. rewrite rev_involutive in EL. cbn [rev] in EL. subst l2.
  rewrite app_assoc in H. apply app_inj_tail in H as [H <-].
  apply in_app_iff in Hb as [Hb|[<-|[]]].
  - eapply S1; eauto.
  - apply U. rewrite H. apply in_or_app. auto.
Qed.
Lemma stage_dir f skey dir freq g bits outs f' :
  (exists b, f skey = Some b /\ c_read_skey T Y b = true) -> (forall j, report_file dir j <> skey) ->
  let rs := reports (Some freq) 0 (length bits) in
  length outs = length rs -> map (fun c => Ok (decrypt c)) outs = map (fun k => accepts g (firstn k bits)) rs ->
  stage T (combine (map (report_file dir) rs) outs) f f' -> dir_left f skey dir freq g bits f'.
Proof.
  intros (sb & HS & RS) HD rs LO PO SG.
  assert (KEYS : map fst (combine (map (report_file dir) rs) outs) = map (report_file dir) rs) by (apply combine_fst; exact LO).
  assert (VER : forall j c, In (report_file dir j, c) (combine (map (report_file dir) rs) outs) -> accepts g (firstn j bits) = Ok (decrypt c)).
  { intros j c IC. apply combine_map in IC as (i & j' & I1 & I2 & I3). apply report_file_inj in I3 as <-.
    assert (Hv : nth_error (map (fun c => Ok (decrypt c)) outs) i = Some (Ok (decrypt c)))
      by (apply (map_nth_error (fun c => Ok (decrypt c))); exact I2).
    rewrite PO in Hv. rewrite (map_nth_error (fun k => accepts g (firstn k bits)) i rs I1) in Hv.
    injection Hv as Hv. exact Hv. }
  assert (SK : f' skey = Some sb).
  { rewrite (stage_other T _ _ _ skey SG); [exact HS|]. rewrite KEYS. intros I. apply in_map_iff in I as (j & I & _). apply (HD j I). }
  split; [|split].
  - intros p P. eapply stage_other; eauto. rewrite KEYS. intros I. apply in_map_iff in I as (j & <- & I).
    apply in_reports in I. apply (P j I). reflexivity.
  - intros j Hj. destruct (stage_file T _ _ _ (report_file dir j) SG) as [|(c & k & I & EF)]; [auto|]. right.
    destruct (do_dec_part T Y s1 bit YO f' skey (report_file dir j) sb c k) as [D|D]; auto. right. exists (decrypt c). auto.
  - intros i j Hi Hij Hd. apply in_reports in Hi. fold rs in Hi.
    destruct (stage_earlier T (report_file dir) rs outs f f' i j) as (c & IC & EC); auto.
    + intros a b. apply report_file_inj.
    + intros l1 l2 a b. apply reports_sorted.
    + exists (decrypt c). split; [auto|]. apply (do_dec_ok T Y s1 bit YO) with (b := sb); auto.
Qed.

(** ** C58: the run commands with --out-dir, killed: every report is as before, or refused by dec,
    or the right answer for its prefix; and once a report has been touched, all earlier ones are
    complete and right. *)
Theorem C58_reverse_dir f skey bkey spec cipher dir freq interval g coin bits f' :
  keys_at Y f skey bkey -> f cipher = Some (enc_output T Y coin bits) ->
  (forall j, report_file dir j <> skey /\ report_file dir j <> cipher) ->
  from_file f spec = Ok g -> 0 < size g -> 0 < freq -> 0 < interval -> back_margin E interval ->
  (Z.of_nat (length bits * (words * 8)) < 2 ^ 64)%Z ->
  run_left T Y (do_run_reverse T Y f spec cipher None (Some dir) freq interval false bkey false) f f' ->
  dir_left f skey dir freq g bits f'.
Proof.
  intros HK FC HD EG SG HF HI0 HM L64 RL.
  assert (W : wf_graph g) by (eapply from_file_wf; eauto).
  destruct (C31_reverse T s0 s1 bit E OK NN g interval _ _ W HI0 HM (asked_encrypts T Y s1 bit YO (Some freq) coin bits 0))
    as (outs & s' & EO & PO).
  apply bind_ok in EO as (r & EN & EO).
  destruct (loop_dir (backstream_eval_any T) (reverse_ask_any T) (online2_eval_one T) (reverse_ask T)
              (backstream_any_exact T) (fun s => exact_det _) f cipher coin bits g r s' outs dir freq HF (fun j => proj2 (HD j)) EO PO) as (LO & VO & AL).
  destruct (do_run_reverse T Y f spec cipher None (Some dir) freq interval false bkey false) as [c0|e] eqn:EC; [|discriminate].
  destruct (reverse_peel f bkey spec cipher None (Some dir) freq interval false g r coin bits c0 (proj2 HK) EG EN EC) as (KI & KK & PL).
  apply (stage_dir f skey dir freq g bits outs f' (proj1 HK) (fun j => proj1 (HD j)) LO VO).
  eapply (run_left_stage T Y s1 bit YO); [rewrite KI; exact FC|exact L64| |exact RL]. rewrite KK.
  apply (PL _ (peel_always _ _)). exact AL.
Qed.

(** Every cut is possible. *)
Theorem C58_reverse_dir_cut f skey bkey spec cipher dir freq interval g coin bits j cut :
  keys_at Y f skey bkey -> f cipher = Some (enc_output T Y coin bits) ->
  (forall j, report_file dir j <> skey /\ report_file dir j <> cipher) ->
  from_file f spec = Ok g -> 0 < size g -> 0 < freq -> 0 < interval -> back_margin E interval ->
  (Z.of_nat (length bits * (words * 8)) < 2 ^ 64)%Z ->
  (0 < j <= length bits /\ j mod freq = 0) \/ j = length bits -> cut < 1 + 4 * (t_n1 T + 1) ->
  exists f' bytes,
    run_left T Y (do_run_reverse T Y f spec cipher None (Some dir) freq interval false bkey false) f f' /\
    f' (report_file dir j) = Some bytes /\ length bytes = cut /\
    do_dec T Y f' skey (report_file dir j) = Fail FExit.
Proof.
  intros HK FC HD EG SG HF HI0 HM L64 HJ HC.
  assert (W : wf_graph g) by (eapply from_file_wf; eauto).
  destruct (C31_reverse T s0 s1 bit E OK NN g interval _ _ W HI0 HM (asked_encrypts T Y s1 bit YO (Some freq) coin bits 0))
    as (outs & s' & EO & PO).
  apply bind_ok in EO as (r & EN & EO).
  destruct (loop_dir (backstream_eval_any T) (reverse_ask_any T) (online2_eval_one T) (reverse_ask T)
              (backstream_any_exact T) (fun s => exact_det _) f cipher coin bits g r s' outs dir freq HF (fun j => proj2 (HD j)) EO PO) as (LO & VO & AL).
  set (rs := reports (Some freq) 0 (length bits)) in *.
  destruct (do_run_reverse T Y f spec cipher None (Some dir) freq interval false bkey false) as [c0|e] eqn:EC; [|discriminate].
  destruct (reverse_peel f bkey spec cipher None (Some dir) freq interval false g r coin bits c0 (proj2 HK) EG EN EC) as (KI & KK & PL).
  assert (SP : exists l1 c l3, combine (map (report_file dir) rs) outs = l1 ++ (report_file dir j, c) :: l3).
  { apply in_reports in HJ. fold rs in HJ. apply (in_map (report_file dir)) in HJ.
    rewrite <- (combine_fst (report_file dir) rs outs LO) in HJ. apply in_map_iff in HJ as ([p c] & EP & IN). cbn [fst] in EP. subst p.
    apply in_split in IN as (l1 & l3 & EQ). eauto. }
  destruct SP as (l1 & c & l3 & EQ).
  set (d0 := write (writes T l1 f) (report_file dir j) (firstn cut (archive_tlwe (t_n1 T) c))).
  assert (ST : stage T (combine (map (report_file dir) rs) outs) f d0).
  { exists l1, ((report_file dir j, c) :: l3). split; [exact EQ|]. right. exists (report_file dir j), c, l3, cut.
    split; [reflexivity|]. intros q. reflexivity. }
  destruct (can_run_left T Y s1 bit YO (fun d => same_files d d0) c0 f coin bits) as (f' & RL & SF); [rewrite KI; exact FC|exact L64| |].
  { rewrite KK. apply (PL (fun p rem => can (fun d => same_files d d0) f p rem)).
    - constructor.
      + intros X m k a rem -> H. apply (can_any _ _ _ _ a); [intros x; reflexivity|exact H].
      + intros k rem H. cbn [can]. right. exact H.
    - eapply (to_dir_can T Y _ _ _ _ (backstream_any_exact T) (fun s => exact_det _)); eauto.
      + rewrite map_length, encs_length. reflexivity.
      + intros i _. apply HD.
      + rewrite (encs_load T Y s1 bit YO). exact EO. }
  exists f', (firstn cut (archive_tlwe (t_n1 T) c)).
  assert (FJ : f' (report_file dir j) = Some (firstn cut (archive_tlwe (t_n1 T) c))).
  { rewrite <- SF. unfold d0. apply write_same. }
  assert (LC : length (firstn cut (archive_tlwe (t_n1 T) c)) = cut) by (rewrite firstn_length, archive_length; lia).
  split; [exact RL|]. split; [exact FJ|]. split; [exact LC|].
  destruct (proj1 HK) as (sb & HS & RS). eapply (do_dec_short T Y); [|exact RS|exact FJ|lia].
  assert (ST' : stage T (combine (map (report_file dir) rs) outs) f f').
  { eapply (run_left_stage T Y s1 bit YO); [rewrite KI; exact FC|exact L64| |exact RL]. rewrite KK. apply (PL _ (peel_always _ _)).
    exact AL. }
  rewrite (stage_other T _ _ _ skey ST'); [exact HS|]. rewrite combine_fst by exact LO.
  intros I. apply in_map_iff in I as (i & I & _). apply (proj1 (HD i) I).
Qed.

Theorem C58_flut_dir f skey bkey spec cipher dir freq queue_size interval max_depth g coin bits f' :
  keys_at Y f skey bkey -> f cipher = Some (enc_output T Y coin bits) ->
  (forall j, report_file dir j <> skey /\ report_file dir j <> cipher) ->
  from_file f spec = Ok g -> 0 < size g -> 0 < freq ->
  0 < queue_size < 31 -> 0 < interval -> max_depth < 31 -> table_fits (t_n1 T) max_depth queue_size g ->
  flut_margin (size g * 2 ^ (queue_size / 2)) queue_size interval E ->
  (forall n k, In n (flushes queue_size 0 0 (asked (Some freq) 0 bits)) -> width g n k -> k < 2 ^ max_depth) ->
  (Z.of_nat (length bits * (words * 8)) < 2 ^ 64)%Z ->
  run_left T Y (do_run_flut T Y f spec cipher None (Some dir) freq queue_size interval bkey (Some max_depth) None false) f f' ->
  dir_left f skey dir freq g bits f'.
Proof.
  intros HK FC HD EG SG HF HQ HI0 HMD HDN HM HWd L64 RL.
  assert (W : wf_graph g) by (eapply from_file_wf; eauto).
  destruct (C33_flut T s0 s1 bit E OK NN g max_depth queue_size interval _ _ W HQ HI0 HMD HDN HM (asked_encrypts T Y s1 bit YO (Some freq) coin bits 0) HWd)
    as (outs & s' & EO & PO).
  apply bind_ok in EO as (r & EN & EO).
  destruct (loop_dir (flut_eval_one_any T) (flut_result_any T) (flut_eval_one T) (flut_result T)
              (flut_one_any_exact T) (flut_result_any_exact T) f cipher coin bits g r s' outs dir freq HF (fun j => proj2 (HD j)) EO PO) as (LO & VO & AL).
  destruct (do_run_flut T Y f spec cipher None (Some dir) freq queue_size interval bkey (Some max_depth) None false) as [c0|e] eqn:EC; [|discriminate].
  destruct (flut_peel f bkey spec cipher None (Some dir) freq queue_size interval max_depth g r coin bits c0 (proj1 HQ) (proj2 HK) EG EN EC) as (KI & KK & PL).
  apply (stage_dir f skey dir freq g bits outs f' (proj1 HK) (fun j => proj1 (HD j)) LO VO).
  eapply (run_left_stage T Y s1 bit YO); [rewrite KI; exact FC|exact L64| |exact RL]. rewrite KK.
  apply (PL _ (peel_always _ _)). exact AL.
Qed.

(** ** C58: dec refuses every proper prefix of a result. *)
Theorem C58_dec_short f skey output c k :
  (exists b, f skey = Some b /\ c_read_skey T Y b = true) ->
  k < length (archive_tlwe (t_n1 T) c) -> f output = Some (firstn k (archive_tlwe (t_n1 T) c)) ->
  do_dec T Y f skey output = Fail FExit.
Proof.
  intros (sb & HS & RS) HK HF. eapply do_dec_short; eauto. rewrite firstn_length. rewrite archive_length in *. lia.
Qed.

(** ** C58: a killed genkey or genbkey changes nothing but its output; and if (as with cereal's
    archives) the reader rejects every proper prefix of a key, the output is as before, or
    complete, or refused by every command that reads it. *)
Theorem C58_genkey f skey f' :
  (forall k, k < length (c_skey T Y) -> c_read_skey T Y (firstn k (c_skey T Y)) = false) ->
  genkey_left T Y f skey f' ->
  (forall p, p <> skey -> f' p = f p) /\
  (f' skey = f skey \/ f' skey = Some (c_skey T Y) \/
   (forall bkey, do_genbkey T Y f' skey bkey = Fail FExit) /\
   (forall input cipher ap coin, do_enc T Y f' skey input cipher ap coin = Fail FExit) /\
   (forall output, do_dec T Y f' skey output = Fail FExit)).
Proof.
  intros HR [H|(k & H)].
  - split; [intros; apply H|left; apply H].
  - split; [intros p P; rewrite H; apply write_other; exact P|]. right.
    pose proof (H skey) as HS. rewrite write_same in HS.
    destruct (Nat.ltb_spec k (length (c_skey T Y))) as [L|L].
    + right. assert (X : read_skey T Y f' skey = Fail FExit).
      { unfold read_skey, open_file. rewrite HS. cbn [bind]. rewrite HR by exact L. reflexivity. }
      split; [|split]; intros; [unfold do_genbkey|unfold do_enc|unfold do_dec]; rewrite X; reflexivity.
    + left. rewrite HS, firstn_all2 by exact L. reflexivity.
Qed.
Theorem C58_genbkey f skey bkey f' :
  (forall k, k < length (c_bkey T Y) -> c_read_bkey T Y (firstn k (c_bkey T Y)) = None) ->
  genbkey_left T Y f skey bkey f' ->
  (forall p, p <> bkey -> f' p = f p) /\
  (f' bkey = f bkey \/ f' bkey = Some (c_bkey T Y) \/ read_bkey T Y f' bkey = Fail FExit).
Proof.
  intros HR [H|(_ & k & H)].
  - split; [intros; apply H|left; apply H].
  - split; [intros p P; rewrite H; apply write_other; exact P|]. right.
    pose proof (H bkey) as HS. rewrite write_same in HS.
    destruct (Nat.ltb_spec k (length (c_bkey T Y))) as [L|L].
    + right. unfold read_bkey, open_file. rewrite HS. cbn [bind]. rewrite HR by exact L. reflexivity.
    + left. rewrite HS, firstn_all2 by exact L. reflexivity.
Qed.
End Killed.

(** * The hypotheses are met. *)
(** enc is killed after the first of six bits: the run that follows prints 0; the whole input is
    accepted. *)
Definition ex_killed : fs := write ex_f ["c"%char] (enc_output ex_T ex_Y 0 [true]).
Example ex_killed_keys : keys_at ex_Y ex_killed ["k"%char] ["b"%char].
Proof. split; eexists; (split; [vm_compute; reflexivity|reflexivity]). Qed.
Example ex_killed_spec : from_file ex_killed ["s"%char] = Ok ex_g.
Proof. vm_compute. reflexivity. Qed.
Example C58_enc_nonvacuous :
  enc_left ex_T ex_Y ex_f ["k"%char] ["i"%char] ["c"%char] 2 0 ex_killed /\
  run_plain ex_f ["s"%char] ["i"%char] 2 = Ok ["1"%char] /\
  exists f2, run_ends ex_T ex_Y (do_run_reverse ex_T ex_Y ex_killed ["s"%char] ["c"%char] (Some ["o"%char]) None 1 2 false ["b"%char] false)
               ex_killed (Ok f2) /\
             do_dec ex_T ex_Y f2 ["k"%char] ["o"%char] = Ok ["0"%char].
Proof.
  split; [|split; [exact ex_plain|]].
  - right. split; [reflexivity|]. right. eexists. split; [vm_compute; reflexivity|].
    exists 8. intros q. unfold ex_killed. f_equal.
  - destruct ex_contract as (H1 & H2). destruct ex_margins as (M1 & _). destruct ex_from_file as (_ & _ & SG).
    edestruct (C58_reverse ex_T _ _ _ _ ex_Y H1 H2 ex_crypto ex_killed ["k"%char] ["b"%char] ["s"%char] ["c"%char] ["o"%char] 1 2 ex_g 0 [true])
      as ((f2 & b & R & A & D) & _);
      [exact ex_killed_keys|vm_compute; reflexivity|discriminate|exact ex_killed_spec|rewrite SG; lia|lia|exact M1|vm_compute; reflexivity|].
    exists f2. split; [exact R|]. vm_compute in A. injection A as <-. exact D.
Qed.
(** enc is killed in the middle of a ciphertext: the run commands refuse the file. *)
Definition ex_torn : fs := write ex_f ["c"%char] (firstn 12 (enc_output ex_T ex_Y 0 [true; false])).
Example C58_enc_torn :
  enc_left ex_T ex_Y ex_f ["k"%char] ["i"%char] ["c"%char] 2 0 ex_torn /\
  run_ends ex_T ex_Y (do_run_block ex_T ex_Y ex_torn ["s"%char] ["c"%char] ["o"%char] 2 ["b"%char] false) ex_torn (Fail FAssert).
Proof.
  assert (EL : enc_left ex_T ex_Y ex_f ["k"%char] ["i"%char] ["c"%char] 2 0 ex_torn).
  { right. split; [reflexivity|]. right. eexists. split; [vm_compute; reflexivity|].
    exists 12. intros q. unfold ex_torn. f_equal. }
  split; [exact EL|].
  edestruct (C58_enc ex_T _ _ ex_Y ex_crypto ex_f ["k"%char] ["i"%char] ["c"%char] 2 0) as (_ & [X|[(file & F1 & _ & F2)|(n & NL & X)]]);
    [reflexivity|discriminate|lia|vm_compute; reflexivity|exact EL| | |].
  - vm_compute in X. discriminate.
  - apply F2. reflexivity.
  - exfalso. assert (L : Some 12 = option_map (@length N) (Some (enc_output ex_T ex_Y 0 (firstn n (bits_passed 0 2 [1; 2; 1]%N))))).
    { transitivity (option_map (@length N) (ex_torn ["c"%char])); [vm_compute; reflexivity|]. rewrite X. reflexivity. }
    clear X. cbn [option_map] in L. injection L as L. rewrite (ct_file_length ex_T ex_Y _ _ ex_crypto) in L.
    change (block_size (c_words ex_T ex_Y)) with 8 in L. lia.
Qed.
(** The reverse run with reports after every second input is killed while it writes 4.out: that is
    refused, and 2.out is right. *)
Definition ex_whole : fs := write ex_f ["c"%char] (enc_output ex_T ex_Y 0 [true; false; false; true; true; false]).
Example C58_dir_nonvacuous : exists f',
  run_left ex_T ex_Y (do_run_reverse ex_T ex_Y ex_whole ["s"%char] ["c"%char] None (Some ["d"%char]) 2 2 false ["b"%char] false) ex_whole f' /\
  do_dec ex_T ex_Y f' ["k"%char] (report_file ["d"%char] 4) = Fail FExit /\
  do_dec ex_T ex_Y f' ["k"%char] (report_file ["d"%char] 2) = Ok ["1"%char].
Proof.
  destruct ex_contract as (H1 & H2). destruct ex_margins as (M1 & _). destruct ex_from_file as (_ & _ & SG).
  assert (KY : keys_at ex_Y ex_whole ["k"%char] ["b"%char]) by (split; eexists; (split; [vm_compute; reflexivity|reflexivity])).
  assert (EG : from_file ex_whole ["s"%char] = Ok ex_g) by (vm_compute; reflexivity).
  assert (SG0 : 0 < size ex_g) by (rewrite SG; lia).
  assert (FC : ex_whole ["c"%char] = Some (enc_output ex_T ex_Y 0 [true; false; false; true; true; false])) by apply write_same.
  edestruct (C58_reverse_dir_cut ex_T _ _ _ _ ex_Y H1 H2 ex_crypto ex_whole ["k"%char] ["b"%char] ["s"%char] ["c"%char] ["d"%char] 2 2 ex_g 0
               [true; false; false; true; true; false] 4 7) as (f' & bytes & RL & FB & LB & DD);
    [exact KY|exact FC|exact ex_report_names|exact EG|exact SG0|lia|lia|exact M1|vm_compute; reflexivity|left; cbn; lia|cbn; lia|].
  exists f'. split; [exact RL|]. split; [exact DD|].
  edestruct (C58_reverse_dir ex_T _ _ _ _ ex_Y H1 H2 ex_crypto ex_whole ["k"%char] ["b"%char] ["s"%char] ["c"%char] ["d"%char] 2 2 ex_g 0
               [true; false; false; true; true; false] f') as (_ & _ & C);
    [exact KY|exact FC|exact ex_report_names|exact EG|exact SG0|lia|lia|exact M1|vm_compute; reflexivity|exact RL|].
  destruct (C 2 4) as (b & A & D); [left; cbn; lia|lia| |].
  - rewrite FB. intros X. vm_compute in X. discriminate.
  - vm_compute in A. injection A as <-. exact D.
Qed.
(** A killed genkey leaves a key that nobody reads. *)
Example C58_genkey_nonvacuous :
  genkey_left ex_T ex_Y ex_f ["n"%char] (write ex_f ["n"%char] []) /\
  (forall k, k < length (c_skey ex_T ex_Y) -> c_read_skey ex_T ex_Y (firstn k (c_skey ex_T ex_Y)) = false) /\
  (forall k, k < length (c_bkey ex_T ex_Y) -> c_read_bkey ex_T ex_Y (firstn k (c_bkey ex_T ex_Y)) = None).
Proof.
  split; [right; exists 0; intros q; reflexivity|]. split; intros [|k] H; try reflexivity; cbn in H; lia.
Qed.

Print Assumptions C58_enc.
Print Assumptions C58_enc_noticed_refuted.
Print Assumptions C58_bits_passed.
Print Assumptions C58_offline.
Print Assumptions C58_reverse.
Print Assumptions C58_flut.
Print Assumptions C58_block.
Print Assumptions C58_reverse_dir.
Print Assumptions C58_reverse_dir_cut.
Print Assumptions C58_flut_dir.
Print Assumptions C58_dec_short.
Print Assumptions C58_genkey.
Print Assumptions C58_genbkey.
