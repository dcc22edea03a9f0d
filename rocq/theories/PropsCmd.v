(** C35, C41, C49: the commands end to end.

    [run_ends T Y c f r]: whatever the loader thread and the parallel regions do, the command c
    started with the files f terminates, and its outcome is r (the files afterwards, or a
    failure). *)
From Coq Require Import List Arith Bool NArith ZArith Ascii Lia.
Import ListNotations.
From Verif Require Import Base BaseFacts GraphModel Spec GraphFacts GraphOps Minimize Quotient TextModel TextSpec TextFacts TextClaims
  CliModel CliFacts PropsText BitsModel BitsFacts TorusModel TfheSpec TfheFacts
  RunnerModel RunnerSpec RunnerFacts LookupFacts ReachFacts PropsRunner ParModel ParFacts SchedFacts StreamModel InputSpec StreamFacts PropsInput
  ClientModel ClientFacts CmdModel CmdSpec CmdFacts.

Section End2End.
Context (T : tfhe) (s0 s1 : list Z) (bit : trgsw T -> bool -> Prop) (E : noise) (Y : crypto T).
Hypothesis OK : tfhe_ok T s0 s1 bit E.
Hypothesis NN : noise_nonneg E.
Hypothesis YO : crypto_ok T Y s1 bit.
Notation words := (c_words T Y).
Notation decrypt c := (decrypt_TLWELvl1_to_bit (t_n1 T) c s1).

(** The files after enc. *)
Definition f_enc (f : fs) (cipher : text) (coin : nat) (bits : list bool) : fs :=
  write (write f cipher []) cipher (ct_file T Y coin bits).
Lemma f_enc_same f cipher coin bits : f_enc f cipher coin bits cipher = Some (ct_file T Y coin bits).
Proof. apply write_same. Qed.
Lemma f_enc_other f cipher coin bits p : p <> cipher -> f_enc f cipher coin bits p = f p.
Proof. intros H. unfold f_enc. rewrite !write_other; auto. Qed.

Lemma from_file_eq f f' spec : f spec = f' spec -> from_file f spec = from_file f' spec.
Proof. unfold from_file, open_file. intros ->. reflexivity. Qed.
Lemma read_bkey_ok f p b k : f p = Some b -> c_read_bkey T Y b = Some k -> read_bkey T Y f p = Ok k.
Proof. unfold read_bkey, open_file. intros -> H. cbn [bind]. rewrite H. reflexivity. Qed.

Lemma mapM_ok {A B} (f : A -> res B) l : (forall x, In x l -> exists y, f x = Ok y) -> exists ys, mapM f l = Ok ys.
Proof.
  induction l as [|x l IH]; intros H; cbn [mapM]; eauto.
  destruct (H x) as (y & ->); [cbn; auto|]. destruct IH as (ys & ->); [intros; apply H; cbn; auto|]. cbn. eauto.
Qed.
Lemma logged_depths_ok g n interval r :
  offline_new T g n interval true false = Ok r -> wf_graph g -> (0 < interval)%nat ->
  (Z.of_nat n < 2 ^ 31)%Z -> exists l, mapM (states_at_depth (b_graph r)) (seq 0 n) = Ok l.
Proof.
  intros EN W HI HL.
  destruct (offline_new_ok T g n interval W HI HL) as (r' & EN' & HB & HP & HS & HV & HA & HW).
  rewrite EN in EN'. injection EN' as <-. apply mapM_ok. intros k Hk. apply in_seq in Hk.
  destruct HB as (_ & _ & _ & _ & HI'). rewrite HS in HI'. destruct HI' as [SD _].
  destruct (SD k ltac:(lia)) as (l & -> & _). eauto.
Qed.

(** ** C35: encrypt, run, decrypt prints what the plain run prints. *)
Theorem C35_offline f skey bkey spec input cipher output ap interval coin bytes printed :
  keys_at Y f skey bkey -> f input = Some bytes ->
  ~ In cipher [skey; bkey; spec; input] -> output <> skey ->
  0 < ap -> 0 < interval -> back_margin E interval ->
  (Z.of_nat (nbits ap bytes) < 2 ^ 31)%Z -> (Z.of_nat (nbits ap bytes * (words * 8)) < 2 ^ 64)%Z ->
  run_plain f spec input ap = Ok printed ->
  exists f1 f2,
    do_enc T Y f skey input cipher ap coin = Ok f1 /\
    run_ends T Y (do_run_offline T Y f1 spec cipher output interval bkey false) f1 (Ok f2) /\
    do_dec T Y f2 skey output = Ok printed /\
    (forall p, p <> cipher -> p <> output -> f2 p = f p).
Proof.
  intros ((sb & HS & RS) & (bb & HK & RK)) HI NC NO H0 HI0 HM HB31 HB64 HP.
  destruct (plain_facts f spec input ap bytes printed H0 HI HP) as (g & bits & v & EG & W & LB & EB & AC & ->).
  assert (cipher <> skey /\ cipher <> bkey /\ cipher <> spec /\ cipher <> input) as (N1 & N2 & N3 & N4)
    by (cbn in NC; intuition).
  destruct (minimized_correct g W) as (m & EM & WM & AM & _).
  pose proof (encs_bits T Y s1 bit YO coin bits) as HBITS.
  assert (L31 : (Z.of_nat (length bits) < 2 ^ 31)%Z) by (rewrite LB; exact HB31).
  destruct (C30_offline T s0 s1 bit E OK NN m interval bits (encs T Y coin bits) WM HI0 HM L31 HBITS) as (c & EC & AD).
  rewrite AM in AD. rewrite AC in AD. injection AD as ->.
  exists (f_enc f cipher coin bits), (write (f_enc f cipher coin bits) output (archive_tlwe (t_n1 T) c)).
  split; [eapply do_enc_ok; eauto|]. split; [|split].
  - apply (run_ends_ok T Y s1 bit YO) with (coin := coin) (bits := bits).
    + apply f_enc_same.
    + rewrite LB. exact HB64.
    + cbn [cmd_body cmd_kind delivery].
      apply (sure_det _ _ (true, true)).
      { eapply read_bkey_ok; eauto. rewrite f_enc_other; auto. }
      apply (sure_det _ _ m).
      { rewrite (from_file_eq _ f) by (apply f_enc_other; auto). rewrite EG. exact EM. }
      unfold offline_run in EC. rewrite encs_length in EC.
      apply bind_ok in EC as (r & EN & EC). apply bind_ok in EC as (r' & EF & ER).
      assert (LR : length (rev (map (c_save T Y) (encs T Y coin bits))) = length bits)
        by (rewrite rev_length, map_length, encs_length; reflexivity).
      cbn [sure]. rewrite LR.
      apply (sure_det _ _ r); [exact EN|]. cbn [sure]. rewrite LR.
      destruct (logged_depths_ok m (length bits) interval r EN WM HI0 L31) as (dl & ED).
      apply (sure_det _ _ dl); [exact ED|]. cbn [sure].
      eapply (offline_loop_sure T Y).
      * rewrite map_rev, (encs_load T Y s1 bit YO). exact EF.
      * apply (sure_det _ _ c); [exact ER|]. reflexivity.
  - apply (do_dec_ok T Y s1 bit YO) with (b := sb); auto.
    + rewrite write_other by auto. rewrite f_enc_other; auto.
    + apply write_same.
  - intros p P1 P2. rewrite write_other by auto. apply f_enc_other. auto.
Qed.

(** The common part of the other three modes, with --out. *)
Lemma monitor_to_file {St} (feed : St -> trgsw T -> outcomes St) (ask : St -> outcomes (list Z * St)) feedD askD
    f skey output cipher sb coin bits c s s' (k : client fs) freq v :
  (forall s c, exact (feed s c) (feedD s c)) -> (forall s, exact (ask s) (askD s)) ->
  f skey = Some sb -> c_read_skey T Y sb = true -> cipher <> skey -> output <> skey ->
  (Z.of_nat (length bits * (words * 8)) < 2 ^ 64)%Z ->
  play feedD askD (asked None 0 (encs T Y coin bits)) s = Ok ([c], s') ->
  decrypt c = v ->
  (forall r, sure (monitor_loop T Y feed ask cipher None freq (last_output T ask (Some output) None (length bits))
                     (length bits) 0 s (f_enc f cipher coin bits)) (map (c_save T Y) (encs T Y coin bits)) r ->
             sure k (map (c_save T Y) (encs T Y coin bits)) r) ->
  exists f2, run_ends T Y (Ok (mkCommand Forward cipher k)) (f_enc f cipher coin bits) (Ok f2) /\
    do_dec T Y f2 skey output = Ok (answer v) /\
    (forall p, p <> cipher -> p <> output -> f2 p = f p).
Proof.
  intros HFe HAs HS RS N1 NO HL HP <- HK.
  exists (write (f_enc f cipher coin bits) output (archive_tlwe (t_n1 T) c)). split; [|split].
  - apply (run_ends_ok T Y s1 bit YO) with (coin := coin) (bits := bits); [apply f_enc_same|exact HL|].
    cbn [cmd_body cmd_kind delivery]. apply HK.
    destruct (to_file T Y s1 feed ask feedD askD HFe HAs cipher None freq
                (map (c_save T Y) (encs T Y coin bits)) (length bits) s (f_enc f cipher coin bits) output [c] s')
      as (c' & [= <-] & SU); auto.
    + rewrite map_length, encs_length. reflexivity.
    + rewrite (encs_load T Y s1 bit YO). exact HP.
  - apply (do_dec_ok T Y s1 bit YO) with (b := sb); auto.
    + rewrite write_other by auto. rewrite f_enc_other; auto.
    + apply write_same.
  - intros p P1 P2. rewrite write_other by auto. apply f_enc_other. auto.
Qed.

Lemma asked_single g bits outs :
  map (fun c => Ok (decrypt c)) outs = verdicts g [] (asked None 0 bits) ->
  length outs = 1 -> forall v, accepts g bits = Ok v -> exists c, outs = [c] /\ decrypt c = v.
Proof.
  intros H L v AC. destruct outs as [|c [|]]; try discriminate. exists c. split; auto.
  pose proof (verdicts_asked g None bits []) as V. cbn [length app] in V. rewrite V in H.
  unfold reports in H. cbn [app map Nat.add] in H. rewrite firstn_all, AC in H. congruence.
Qed.
Lemma one_answer {St} (feedD : St -> trgsw T -> res St) (askD : St -> res (list Z * St)) coin bits s (outs : list (list Z)) s' :
  play feedD askD (asked None 0 (encs T Y coin bits)) s = Ok (outs, s') -> length outs = 1.
Proof.
  generalize 0 at 1. revert coin s. induction bits as [|b bits IH]; intros coin s i; cbn [encs asked play].
  - intros H. apply bind_ok in H as ([c t] & _ & H). cbn in H. injection H as <- _. reflexivity.
  - intros H. apply bind_ok in H as (t & _ & H). eapply IH; eauto.
Qed.

Theorem C35_reverse f skey bkey spec input cipher output ap interval freq coin bytes printed :
  keys_at Y f skey bkey -> f input = Some bytes ->
  ~ In cipher [skey; bkey; spec; input] -> output <> skey ->
  0 < ap -> 0 < interval -> back_margin E interval ->
  (Z.of_nat (nbits ap bytes * (words * 8)) < 2 ^ 64)%Z ->
  run_plain f spec input ap = Ok printed ->
  exists f1 f2,
    do_enc T Y f skey input cipher ap coin = Ok f1 /\
    run_ends T Y (do_run_reverse T Y f1 spec cipher (Some output) None freq interval false bkey false) f1 (Ok f2) /\
    do_dec T Y f2 skey output = Ok printed /\
    (forall p, p <> cipher -> p <> output -> f2 p = f p).
Proof.
  intros ((sb & HS & RS) & (bb & HK & RK)) HI NC NO H0 HI0 HM HB64 HP.
  destruct (plain_facts f spec input ap bytes printed H0 HI HP) as (g & bits & v & EG & W & LB & EB & AC & ->).
  assert (cipher <> skey /\ cipher <> bkey /\ cipher <> spec /\ cipher <> input) as (N1 & N2 & N3 & N4)
    by (cbn in NC; intuition).
  destruct (C31_reverse T s0 s1 bit E OK NN g interval _ _ W HI0 HM (asked_encrypts T Y s1 bit YO None coin bits 0))
    as (outs & s' & EO & PO).
  apply bind_ok in EO as (r & EN & EO).
  destruct (asked_single g bits outs PO (one_answer _ _ _ _ _ _ _ EO) v AC) as (c & -> & DC).
  exists (f_enc f cipher coin bits).
  destruct (monitor_to_file (backstream_eval_any T) (reverse_ask_any T) (online2_eval_one T) (reverse_ask T)
              f skey output cipher sb coin bits c r s'
              (cmd_body (mkCommand Forward cipher
                 (pdet (read_bkey T Y (f_enc f cipher coin bits) bkey) (fun '(ekey, _) =>
                  pdet (from_file (f_enc f cipher coin bits) spec) (fun g =>
                  pdet (online2_new T g interval false ekey false) (fun r =>
                  PSize (fun _ => PSize (fun hidden =>
                  monitor_loop T Y (backstream_eval_any T) (reverse_ask_any T) cipher None freq
                    (last_output T (reverse_ask_any T) (Some output) None hidden) hidden 0 r (f_enc f cipher coin bits))))))))) freq v)
    as (f2 & R1 & R2 & R3); auto.
  - apply backstream_any_exact.
  - intros; apply exact_det.
  - rewrite LB. exact HB64.
  - intros q SU. cbn [cmd_body]. apply (sure_det _ _ (true, true)).
    { eapply read_bkey_ok; eauto. rewrite f_enc_other; auto. }
    apply (sure_det _ _ g).
    { rewrite (from_file_eq _ f) by (apply f_enc_other; auto). exact EG. }
    apply (sure_det _ _ r); [exact EN|]. cbn [sure]. rewrite map_length, encs_length. exact SU.
  - exists f2. split; [eapply do_enc_ok; eauto|]. split; [exact R1|]. split; [exact R2|exact R3].
Qed.

Lemma ascii_N_text t : map ascii_of_N (map N_of_ascii t) = t.
Proof. induction t as [|c t IH]; cbn; [reflexivity|]. rewrite ascii_N_embedding, IH. reflexivity. Qed.

(** --spec-reversed with any specification of the mirrored words. *)
Lemma mirrored_run f skey bkey rspec input cipher output ap interval freq coin bytes g g2 bits v :
  keys_at Y f skey bkey -> f input = Some bytes ->
  from_file f rspec = Ok g2 -> wf_graph g2 ->
  (forall w, accepts g2 (rev w) = accepts g w) ->
  length bits = nbits ap bytes ->
  (forall S (func : S -> bool -> res S) s, each_input_bit bytes ap func s = foldM func bits s) ->
  accepts g bits = Ok v ->
  ~ In cipher [skey; bkey; rspec; input] -> output <> skey ->
  0 < ap -> 0 < interval -> back_margin E interval ->
  (Z.of_nat (nbits ap bytes * (words * 8)) < 2 ^ 64)%Z ->
  exists f1 f2,
    do_enc T Y f skey input cipher ap coin = Ok f1 /\
    run_ends T Y (do_run_reverse T Y f1 rspec cipher (Some output) None freq interval true bkey false) f1 (Ok f2) /\
    do_dec T Y f2 skey output = Ok (answer v) /\
    (forall p, p <> cipher -> p <> output -> f2 p = f p).
Proof.
  intros ((sb & HS & RS) & (bb & HK & RK)) HI ER W2 AM LB EB AC NC NO H0 HI0 HM HB64.
  assert (cipher <> skey /\ cipher <> bkey /\ cipher <> rspec /\ cipher <> input) as (N1 & N2 & N3 & N4)
    by (cbn in NC; intuition).
  destruct (C31_spec_reversed T s0 s1 bit E OK NN g2 interval _ _ W2 HI0 HM (asked_encrypts T Y s1 bit YO None coin bits 0))
    as (outs & s' & EO & PO).
  rewrite (mirrored_ext g g2 AM) in PO.
  apply bind_ok in EO as (r & EN & EO).
  destruct (asked_single g bits outs PO (one_answer _ _ _ _ _ _ _ EO) v AC) as (c & -> & DC).
  exists (f_enc f cipher coin bits).
  destruct (monitor_to_file (backstream_eval_any T) (reverse_ask_any T) (online2_eval_one T) (reverse_ask T)
              f skey output cipher sb coin bits c r s'
              (cmd_body (mkCommand Forward cipher
                 (pdet (read_bkey T Y (f_enc f cipher coin bits) bkey) (fun '(ekey, _) =>
                  pdet (from_file (f_enc f cipher coin bits) rspec) (fun g =>
                  pdet (online2_new T g interval true ekey false) (fun r =>
                  PSize (fun _ => PSize (fun hidden =>
                  monitor_loop T Y (backstream_eval_any T) (reverse_ask_any T) cipher None freq
                    (last_output T (reverse_ask_any T) (Some output) None hidden) hidden 0 r (f_enc f cipher coin bits))))))))) freq v)
    as (f2 & R1 & R2 & R3); auto.
  - apply backstream_any_exact.
  - intros; apply exact_det.
  - rewrite LB. exact HB64.
  - intros q SU. cbn [cmd_body]. apply (sure_det _ _ (true, true)).
    { eapply read_bkey_ok; eauto. rewrite f_enc_other; auto. }
    apply (sure_det _ _ g2).
    { rewrite (from_file_eq _ f) by (apply f_enc_other; auto). exact ER. }
    apply (sure_det _ _ r); [exact EN|]. cbn [sure]. rewrite map_length, encs_length. exact SU.
  - exists f2. split; [eapply do_enc_ok; eauto|]. split; [exact R1|]. split; [exact R2|exact R3].
Qed.
Theorem C35_mirrored_spec f skey bkey spec rspec input cipher output ap interval freq coin bytes g g2 printed :
  keys_at Y f skey bkey -> f input = Some bytes ->
  from_file f spec = Ok g -> from_file f rspec = Ok g2 -> wf_graph g2 ->
  (forall w, accepts g2 (rev w) = accepts g w) ->
  ~ In cipher [skey; bkey; rspec; input] -> output <> skey ->
  0 < ap -> 0 < interval -> back_margin E interval ->
  (Z.of_nat (nbits ap bytes * (words * 8)) < 2 ^ 64)%Z ->
  run_plain f spec input ap = Ok printed ->
  exists f1 f2,
    do_enc T Y f skey input cipher ap coin = Ok f1 /\
    run_ends T Y (do_run_reverse T Y f1 rspec cipher (Some output) None freq interval true bkey false) f1 (Ok f2) /\
    do_dec T Y f2 skey output = Ok printed /\
    (forall p, p <> cipher -> p <> output -> f2 p = f p).
Proof.
  intros KA HI EG' ER W2 AM NC NO H0 HI0 HM HB64 HP.
  destruct (plain_facts f spec input ap bytes printed H0 HI HP) as (g' & bits & v & EG & W & LB & EB & AC & ->).
  rewrite EG' in EG. injection EG as <-.
  apply (mirrored_run f skey bkey rspec input cipher output ap interval freq coin bytes g g2 bits v); auto.
Qed.

(** --spec-reversed with what spec2spec --reversed printed for the specification. *)
Theorem C35_spec_reversed f skey bkey spec rspec input cipher output ap interval freq coin opt_min bytes specbytes out printed :
  keys_at Y f skey bkey -> f input = Some bytes ->
  f spec = Some specbytes -> do_spec2spec (map ascii_of_N specbytes) opt_min true false = Ok out ->
  f rspec = Some (map N_of_ascii out) -> (N.of_nat (length out) <= 2 ^ 31)%N ->
  ~ In cipher [skey; bkey; rspec; input] -> output <> skey ->
  0 < ap -> 0 < interval -> back_margin E interval ->
  (Z.of_nat (nbits ap bytes * (words * 8)) < 2 ^ 64)%Z ->
  run_plain f spec input ap = Ok printed ->
  exists f1 f2,
    do_enc T Y f skey input cipher ap coin = Ok f1 /\
    run_ends T Y (do_run_reverse T Y f1 rspec cipher (Some output) None freq interval true bkey false) f1 (Ok f2) /\
    do_dec T Y f2 skey output = Ok printed /\
    (forall p, p <> cipher -> p <> output -> f2 p = f p).
Proof.
  intros KA HI FS ES FR LO NC NO H0 HI0 HM HB64 HP.
  destruct (plain_facts f spec input ap bytes printed H0 HI HP) as (g & bits & v & EG & W & LB & EB & AC & ->).
  assert (EG' := EG). unfold from_file, open_file in EG'. rewrite FS in EG'. cbn [bind] in EG'.
  destruct (C09_spec2spec _ g opt_min true false EG' W) as (out' & g' & ES' & DG & WG & AG & RD).
  rewrite ES in ES'. injection ES' as <-.
  destruct RD as (g2 & EG2 & A2). { pose proof (dump_length _ _ DG). lia. }
  assert (ER : from_file f rspec = Ok g2).
  { unfold from_file, open_file. rewrite FR. cbn [bind]. rewrite ascii_N_text. exact EG2. }
  assert (W2 : wf_graph g2).
  { eapply from_istream_wf; [exact EG2|]. intros HN. destruct (AG []) as (b & _ & Hb). rewrite <- A2 in Hb.
    unfold accepts in Hb. apply bind_ok in Hb as (q & _ & Hb). apply is_final_state_size in Hb. auto. }
  assert (AM : forall w, accepts g2 (rev w) = accepts g w).
  { intros w. rewrite A2. destruct (AG (rev w)) as (b & E1 & ->). rewrite rev_involutive in E1. auto. }
  apply (C35_mirrored_spec f skey bkey spec rspec input cipher output ap interval freq coin bytes g g2); auto.
Qed.

Theorem C35_flut f skey bkey spec input cipher output ap queue_size interval max_depth freq coin bytes g printed :
  keys_at Y f skey bkey -> f input = Some bytes ->
  ~ In cipher [skey; bkey; spec; input] -> output <> skey ->
  0 < ap -> 0 < queue_size < 31 -> 0 < interval -> max_depth < 31 -> table_fits (t_n1 T) max_depth queue_size g ->
  from_file f spec = Ok g -> flut_margin (size g * 2 ^ (queue_size / 2)) queue_size interval E ->
  (* never too many live states when the queue is evaluated *)
  (forall n k, In n (flushes queue_size 0 0 (asked None 0 (repeat tt (nbits ap bytes)))) -> width g n k -> k < 2 ^ max_depth) ->
  (Z.of_nat (nbits ap bytes * (words * 8)) < 2 ^ 64)%Z ->
  run_plain f spec input ap = Ok printed ->
  exists f1 f2,
    do_enc T Y f skey input cipher ap coin = Ok f1 /\
    run_ends T Y (do_run_flut T Y f1 spec cipher (Some output) None freq queue_size interval bkey (Some max_depth) None false)
             f1 (Ok f2) /\
    do_dec T Y f2 skey output = Ok printed /\
    (forall p, p <> cipher -> p <> output -> f2 p = f p).
Proof.
  intros ((sb & HS & RS) & (bb & HK & RK)) HI NC NO H0 HQ HI0 HD HDN EG HM HWd HB64 HP.
  destruct (plain_facts f spec input ap bytes printed H0 HI HP) as (g' & bits & v & EG' & W & LB & EB & AC & ->).
  rewrite EG in EG'. injection EG' as <-.
  assert (cipher <> skey /\ cipher <> bkey /\ cipher <> spec /\ cipher <> input) as (N1 & N2 & N3 & N4)
    by (cbn in NC; intuition).
  destruct (C33_flut T s0 s1 bit E OK NN g max_depth queue_size interval _ _ W HQ HI0 HD HDN HM (asked_encrypts T Y s1 bit YO None coin bits 0))
    as (outs & s' & EO & PO).
  { intros n k Hn Hk. apply (HWd n k); auto. erewrite flushes_shape; [exact Hn|]. rewrite repeat_length. auto. }
  apply bind_ok in EO as (r & EN & EO).
  destruct (asked_single g bits outs PO (one_answer _ _ _ _ _ _ _ EO) v AC) as (c & -> & DC).
  exists (f_enc f cipher coin bits).
  destruct (monitor_to_file (flut_eval_one_any T) (flut_result_any T) (flut_eval_one T) (flut_result T)
              f skey output cipher sb coin bits c r s'
              (match do_run_flut T Y (f_enc f cipher coin bits) spec cipher (Some output) None freq queue_size interval bkey (Some max_depth) None false with
               | Ok c => cmd_body c | Fail e => PRet (Fail e) end) freq v)
    as (f2 & R1 & R2 & R3); auto.
  - intros; apply flut_one_any_exact.
  - intros; apply flut_result_any_exact.
  - rewrite LB. exact HB64.
  - intros q SU. cbn [do_run_flut cmd_body].
    apply (sure_det _ _ g).
    { rewrite (from_file_eq _ f) by (apply f_enc_other; auto). exact EG. }
    apply (sure_det _ _ (true, true)).
    { eapply read_bkey_ok; eauto. rewrite f_enc_other; auto. }
    apply (sure_det _ _ tt); [reflexivity|]. apply (sure_det _ _ tt); [reflexivity|].
    apply (sure_det _ _ r); [exact EN|]. cbn [sure]. apply (sure_det _ _ tt); [reflexivity|]. cbn [sure].
    rewrite map_length, encs_length. exact SU.
  - exists f2. split; [eapply do_enc_ok; eauto|]. split; [exact R1|]. split; [exact R2|exact R3].
Qed.

Theorem C35_block f skey bkey spec input cipher output ap queue_size coin bytes g printed :
  keys_at Y f skey bkey -> f input = Some bytes ->
  ~ In cipher [skey; bkey; spec; input] -> output <> skey ->
  0 < ap -> bytes <> [] ->
  from_file f spec = Ok g -> block_margin g queue_size E ->
  Nat.log2 (size g) + 1 < t_n1 T -> Nat.log2 (size g) + 1 < 31 ->
  (Z.of_nat (nbits ap bytes * (words * 8)) < 2 ^ 64)%Z ->
  run_plain f spec input ap = Ok printed ->
  exists f1 f2,
    do_enc T Y f skey input cipher ap coin = Ok f1 /\
    run_ends T Y (do_run_block T Y f1 spec cipher output queue_size bkey false) f1 (Ok f2) /\
    do_dec T Y f2 skey output = Ok printed /\
    (forall p, p <> cipher -> p <> output -> f2 p = f p).
Proof.
  intros ((sb & HS & RS) & (bb & HK & RK)) HI NC NO H0 HB EG HM HL1 HL2 HB64 HP.
  destruct (plain_facts f spec input ap bytes printed H0 HI HP) as (g' & bits & v & EG' & W & LB & EB & AC & ->).
  rewrite EG in EG'. injection EG' as <-.
  assert (cipher <> skey /\ cipher <> bkey /\ cipher <> spec /\ cipher <> input) as (N1 & N2 & N3 & N4)
    by (cbn in NC; intuition).
  destruct (C32_block T s0 s1 bit E OK NN g queue_size _ _ W HM HL1 HL2 (asked_encrypts T Y s1 bit YO None coin bits 0))
    as (outs & s' & EO & PO).
  { assert (HN : 0 < length bits).
    { rewrite LB. unfold nbits. destruct bytes as [|b0 bytes]; [congruence|].
      destruct (Nat.eq_dec (length (b0 :: bytes) mod ((ap + 7) / 8)) 0) as [M|M].
      - apply Nat.div_exact in M; [|intros K; apply Nat.div_small_iff in K; lia].
        destruct (length (b0 :: bytes) / ((ap + 7) / 8)); [|lia]. rewrite Nat.mul_0_r in M. discriminate.
      - exfalso. eapply (input_bits_fail ap _ H0 M). specialize (EB unit (fun _ _ => Ok tt) tt).
        rewrite EB. instantiate (1 := tt). clear. induction bits; cbn; auto. }
    destruct bits; [cbn in HN; lia|discriminate]. }
  apply bind_ok in EO as (r & EN & EO).
  destruct (asked_single g bits outs PO (one_answer _ _ _ _ _ _ _ EO) v AC) as (c & -> & DC).
  exists (f_enc f cipher coin bits).
  destruct (monitor_to_file (block_eval_one_any T) (block_result_any T) (block_eval_one T) (block_result T)
              f skey output cipher sb coin bits c r s'
              (match do_run_block T Y (f_enc f cipher coin bits) spec cipher output queue_size bkey false with
               | Ok c => cmd_body c | Fail e => PRet (Fail e) end) 0 v)
    as (f2 & R1 & R2 & R3); auto.
  - intros; apply block_one_any_exact.
  - intros; apply block_result_any_exact.
  - rewrite LB. exact HB64.
  - intros q SU. cbn [do_run_block cmd_body].
    apply (sure_det _ _ g).
    { rewrite (from_file_eq _ f) by (apply f_enc_other; auto). exact EG. }
    apply (sure_det _ _ (true, true)).
    { eapply read_bkey_ok; eauto. rewrite f_enc_other; auto. }
    apply (sure_det _ _ tt); [reflexivity|].
    apply (sure_det _ _ r); [exact EN|]. cbn [sure].
    rewrite map_length, encs_length. exact SU.
  - exists f2. split; [eapply do_enc_ok; eauto|]. split; [exact R1|]. split; [exact R2|exact R3].
Qed.

(** On an empty input the plain run answers but the block runner aborts. *)
Theorem C35_block_empty_refuted f skey bkey spec input cipher output ap queue_size coin printed :
  keys_at Y f skey bkey -> f input = Some [] ->
  ~ In cipher [skey; bkey; spec; input] -> 0 < ap ->
  run_plain f spec input ap = Ok printed ->
  exists f1,
    do_enc T Y f skey input cipher ap coin = Ok f1 /\
    run_ends T Y (do_run_block T Y f1 spec cipher output queue_size bkey false) f1 (Fail FAssert).
Proof.
  intros ((sb & HS & RS) & (bb & HK & RK)) HI NC H0 HP.
  destruct (plain_facts f spec input ap [] printed H0 HI HP) as (g & bits & v & EG & W & LB & EB & AC & ->).
  assert (cipher <> skey /\ cipher <> bkey /\ cipher <> spec /\ cipher <> input) as (N1 & N2 & N3 & N4)
    by (cbn in NC; intuition).
  exists (f_enc f cipher coin bits). split; [eapply do_enc_ok; eauto|].
  assert (N0 : nbits ap [] = 0) by (unfold nbits; cbn [length]; rewrite Nat.div_0_l; [lia|intros K; apply Nat.div_small_iff in K; lia]).
  destruct bits as [|b bits]; [clear LB EB AC|rewrite N0 in LB; discriminate].
  apply (run_ends_ok T Y s1 bit YO) with (coin := coin) (bits := []); [apply f_enc_same|cbn; lia|].
  cbn [cmd_body cmd_kind delivery do_run_block map encs].
  apply (sure_det _ _ g).
  { rewrite (from_file_eq _ f) by (apply f_enc_other; auto). exact EG. }
  apply (sure_det _ _ (true, true)).
  { eapply read_bkey_ok; eauto. rewrite f_enc_other; auto. }
  apply (sure_det _ _ tt); [reflexivity|].
  eapply sure_det; [reflexivity|]. cbn [sure length monitor_loop Nat.eqb last_output].
  apply sure_any_fail. intros x. unfold block_result_any, block_eval_queued_any, obind, det. cbn. split.
  - intros (y & -> & Hx). exact Hx.
  - intros ->. eexists. split; reflexivity.
Qed.

(** ** C41: --out-dir: the verdict of every reported prefix.  (The option is not registered on the
    command line, so only a caller of the functions can ask for this.) *)
Lemma in_reports freq n j : In j (reports (Some freq) 0 n) <-> (0 < j <= n /\ j mod freq = 0) \/ j = n.
Proof.
  unfold reports. rewrite in_app_iff, filter_In, in_seq, Nat.eqb_eq. cbn [In Nat.add]. intuition lia.
Qed.
Lemma combine_map {A B C} (h : A -> B) (l : list A) (v : list C) p c : In (p, c) (combine (map h l) v) ->
  exists i j, nth_error l i = Some j /\ nth_error v i = Some c /\ p = h j.
Proof.
  revert v. induction l as [|x l IH]; intros [|y v] H; cbn in H; try contradiction.
  destruct H as [[= <- <-]|H].
  - exists 0, x. auto.
  - destruct (IH _ H) as (i & j & H1 & H2 & H3). exists (S i), j. auto.
Qed.
Lemma combine_fst {A B C} (h : A -> B) (l : list A) (v : list C) : length v = length l ->
  map fst (combine (map h l) v) = map h l.
Proof. revert v. induction l as [|x l IH]; intros [|y v] H; cbn in *; try discriminate; auto. f_equal. apply IH. lia. Qed.

Lemma monitor_to_dir {St} (feed : St -> trgsw T -> outcomes St) (ask : St -> outcomes (list Z * St)) feedD askD
    f skey dir cipher sb coin bits outs s s' (k : client fs) freq g :
  (forall s c, exact (feed s c) (feedD s c)) -> (forall s, exact (ask s) (askD s)) ->
  f skey = Some sb -> c_read_skey T Y sb = true -> cipher <> skey -> 0 < freq ->
  (forall j, report_file dir j <> skey /\ report_file dir j <> cipher) ->
  (Z.of_nat (length bits * (words * 8)) < 2 ^ 64)%Z ->
  play feedD askD (asked (Some freq) 0 (encs T Y coin bits)) s = Ok (outs, s') ->
  map (fun c => Ok (decrypt c)) outs = verdicts g [] (asked (Some freq) 0 bits) ->
  (forall r, sure (monitor_loop T Y feed ask cipher (Some dir) freq (last_output T ask None (Some dir) (length bits))
                     (length bits) 0 s (f_enc f cipher coin bits)) (map (c_save T Y) (encs T Y coin bits)) r ->
             sure k (map (c_save T Y) (encs T Y coin bits)) r) ->
  exists f2, run_ends T Y (Ok (mkCommand Forward cipher k)) (f_enc f cipher coin bits) (Ok f2) /\
    (forall j, (0 < j <= length bits /\ j mod freq = 0) \/ j = length bits ->
       exists b, accepts g (firstn j bits) = Ok b /\ do_dec T Y f2 skey (report_file dir j) = Ok (answer b)) /\
    (forall p, p <> cipher ->
       (forall j, (0 < j <= length bits /\ j mod freq = 0) \/ j = length bits -> p <> report_file dir j) -> f2 p = f p).
Proof.
  intros HFe HAs HS RS N1 HF0 HD HL HP PO HK.
  pose proof (verdicts_asked g (Some freq) bits []) as V. cbn [length app] in V. rewrite V in PO. clear V.
  destruct (to_dir T Y s1 feed ask feedD askD HFe HAs cipher (Some dir) freq
              (map (c_save T Y) (encs T Y coin bits)) (length bits) s (f_enc f cipher coin bits) dir outs s')
    as (LO & SU); auto.
  { rewrite map_length, encs_length. reflexivity. }
  { intros j _. apply HD. }
  { rewrite (encs_load T Y s1 bit YO). exact HP. }
  set (rs := reports (Some freq) 0 (length bits)) in *.
  exists (writes T (combine (map (report_file dir) rs) outs) (f_enc f cipher coin bits)). split; [|split].
  - apply (run_ends_ok T Y s1 bit YO) with (coin := coin) (bits := bits); [apply f_enc_same|exact HL|].
    cbn [cmd_body cmd_kind delivery]. apply HK. exact SU.
  - intros j Hj. apply in_reports in Hj. fold rs in Hj.
    destruct (writes_lookup T (combine (map (report_file dir) rs) outs) (f_enc f cipher coin bits) (report_file dir j))
      as [(NI & _)|(c & IC & FC)].
    { exfalso. apply NI. rewrite combine_fst by auto. apply in_map. exact Hj. }
    apply combine_map in IC as (i & j' & I1 & I2 & I3). apply report_file_inj in I3 as <-.
    assert (Hv : nth_error (map (fun c => Ok (decrypt c)) outs) i = Some (Ok (decrypt c)))
      by (apply (map_nth_error (fun c => Ok (decrypt c))); exact I2).
    rewrite PO in Hv. rewrite (map_nth_error (fun k => accepts g (firstn k bits)) i rs I1) in Hv.
    injection Hv as Hv. exists (decrypt c). split; [exact Hv|].
    apply (do_dec_ok T Y s1 bit YO) with (b := sb); auto.
    destruct (writes_lookup T (combine (map (report_file dir) rs) outs) (f_enc f cipher coin bits) skey)
      as [(_ & ->)|(c' & IC & _)].
    { rewrite f_enc_other; auto. }
    apply combine_map in IC as (? & j' & _ & _ & I3). destruct (HD j') as (HD1 & _). congruence.
  - intros p P1 P2.
    destruct (writes_lookup T (combine (map (report_file dir) rs) outs) (f_enc f cipher coin bits) p)
      as [(_ & ->)|(c' & IC & _)].
    { apply f_enc_other; auto. }
    apply combine_map in IC as (i & j' & I1 & _ & I3). exfalso. apply (P2 j'); auto. apply in_reports.
    eapply nth_error_In; eauto.
Qed.

Lemma from_file_wf f spec g : from_file f spec = Ok g -> 0 < size g -> wf_graph g.
Proof.
  intros EG SG. unfold from_file in EG. apply bind_ok in EG as (b & _ & EB).
  apply (from_istream_build _ _ g (lines_of_getlines _)) in EB as (rows & HR & HB).
  destruct rows as [|r rows]; [|apply (build_language (r :: rows)); [discriminate|exact HB]].
  exfalso. vm_compute in HB. injection HB as <-. cbn in SG. lia.
Qed.
Lemma packed_bits ap vals blocks : 0 < ap -> Forall2 (packs ap) vals blocks ->
  length (concat vals) = nbits ap (concat blocks).
Proof.
  intros H0 F. unfold nbits.
  assert (K : ap <= 8 * ((ap + 7) / 8) < ap + 8).
  { pose proof (Nat.div_mod (ap + 7) 8). pose proof (Nat.mod_upper_bound (ap + 7) 8). lia. }
  assert (length (concat vals) = length vals * ap /\ length (concat blocks) = length vals * ((ap + 7) / 8)) as (-> & ->).
  { clear - F K. induction F as [|v b vs bs (P1 & P2 & _) F IH]; cbn [concat length]; auto.
    rewrite !app_length. destruct IH as (-> & ->). lia. }
  rewrite Nat.div_mul; lia.
Qed.

Theorem C41_reverse f skey bkey spec input cipher dir ap interval freq coin vals blocks g :
  keys_at Y f skey bkey -> 0 < ap -> Forall2 (packs ap) vals blocks -> f input = Some (concat blocks) ->
  ~ In cipher [skey; bkey; spec; input] ->
  (forall j, report_file dir j <> skey /\ report_file dir j <> cipher) ->
  0 < freq -> 0 < interval -> back_margin E interval ->
  from_file f spec = Ok g -> 0 < size g ->
  let bits := concat vals in
  let reported j := (0 < j <= length bits /\ j mod freq = 0) \/ j = length bits in
  (Z.of_nat (length bits * (words * 8)) < 2 ^ 64)%Z ->
  exists f1 f2,
    do_enc T Y f skey input cipher ap coin = Ok f1 /\
    run_ends T Y (do_run_reverse T Y f1 spec cipher None (Some dir) freq interval false bkey false) f1 (Ok f2) /\
    (forall j, reported j -> exists b, accepts g (firstn j bits) = Ok b /\
                                       do_dec T Y f2 skey (report_file dir j) = Ok (answer b)) /\
    (forall p, p <> cipher -> (forall j, reported j -> p <> report_file dir j) -> f2 p = f p).
Proof.
  intros ((sb & HS & RS) & (bb & HK & RK)) H0 HPK HI NC HD HF0 HI0 HM EG SG bits reported HB64.
  assert (W : wf_graph g).
  { eapply from_file_wf; eauto. }
  assert (EB : forall S (func : S -> bool -> res S) s, each_input_bit (concat blocks) ap func s = foldM func bits s)
    by (intros; apply C20_input_decoding; auto).
  assert (cipher <> skey /\ cipher <> bkey /\ cipher <> spec /\ cipher <> input) as (N1 & N2 & N3 & N4)
    by (cbn in NC; intuition).
  destruct (C31_reverse T s0 s1 bit E OK NN g interval _ _ W HI0 HM (asked_encrypts T Y s1 bit YO (Some freq) coin bits 0))
    as (outs & s' & EO & PO).
  apply bind_ok in EO as (r & EN & EO).
  exists (f_enc f cipher coin bits).
  destruct (monitor_to_dir (backstream_eval_any T) (reverse_ask_any T) (online2_eval_one T) (reverse_ask T)
              f skey dir cipher sb coin bits outs r s'
              (match do_run_reverse T Y (f_enc f cipher coin bits) spec cipher None (Some dir) freq interval false bkey false with
               | Ok c => cmd_body c | Fail e => PRet (Fail e) end) freq g)
    as (f2 & R1 & R2 & R3); auto.
  - apply backstream_any_exact.
  - intros; apply exact_det.
  - intros q SU. cbn [do_run_reverse assert_ cmd_body]. apply (sure_det _ _ (true, true)).
    { eapply read_bkey_ok; eauto. rewrite f_enc_other; auto. }
    apply (sure_det _ _ g).
    { rewrite (from_file_eq _ f) by (apply f_enc_other; auto). exact EG. }
    apply (sure_det _ _ r); [exact EN|]. cbn [sure]. rewrite map_length, encs_length. exact SU.
  - exists f2. split; [eapply do_enc_ok; eauto|]. split; [exact R1|]. split; [exact R2|exact R3].
Qed.

Theorem C41_flut f skey bkey spec input cipher dir ap queue_size interval max_depth freq coin vals blocks g :
  keys_at Y f skey bkey -> 0 < ap -> Forall2 (packs ap) vals blocks -> f input = Some (concat blocks) ->
  ~ In cipher [skey; bkey; spec; input] ->
  (forall j, report_file dir j <> skey /\ report_file dir j <> cipher) ->
  0 < freq -> 0 < queue_size < 31 -> 0 < interval -> max_depth < 31 -> table_fits (t_n1 T) max_depth queue_size g ->
  from_file f spec = Ok g -> 0 < size g -> flut_margin (size g * 2 ^ (queue_size / 2)) queue_size interval E ->
  let bits := concat vals in
  let reported j := (0 < j <= length bits /\ j mod freq = 0) \/ j = length bits in
  (forall n k, In n (flushes queue_size 0 0 (asked (Some freq) 0 bits)) -> width g n k -> k < 2 ^ max_depth) ->
  (Z.of_nat (length bits * (words * 8)) < 2 ^ 64)%Z ->
  exists f1 f2,
    do_enc T Y f skey input cipher ap coin = Ok f1 /\
    run_ends T Y (do_run_flut T Y f1 spec cipher None (Some dir) freq queue_size interval bkey (Some max_depth) None false)
             f1 (Ok f2) /\
    (forall j, reported j -> exists b, accepts g (firstn j bits) = Ok b /\
                                       do_dec T Y f2 skey (report_file dir j) = Ok (answer b)) /\
    (forall p, p <> cipher -> (forall j, reported j -> p <> report_file dir j) -> f2 p = f p).
Proof.
  intros ((sb & HS & RS) & (bb & HK & RK)) H0 HPK HI NC HD HF0 HQ HI0 HMD HDN EG SG HM bits reported HWd HB64.
  assert (W : wf_graph g).
  { eapply from_file_wf; eauto. }
  assert (EB : forall S (func : S -> bool -> res S) s, each_input_bit (concat blocks) ap func s = foldM func bits s)
    by (intros; apply C20_input_decoding; auto).
  assert (cipher <> skey /\ cipher <> bkey /\ cipher <> spec /\ cipher <> input) as (N1 & N2 & N3 & N4)
    by (cbn in NC; intuition).
  destruct (C33_flut T s0 s1 bit E OK NN g max_depth queue_size interval _ _ W HQ HI0 HMD HDN HM (asked_encrypts T Y s1 bit YO (Some freq) coin bits 0) HWd)
    as (outs & s' & EO & PO).
  apply bind_ok in EO as (r & EN & EO).
  exists (f_enc f cipher coin bits).
  destruct (monitor_to_dir (flut_eval_one_any T) (flut_result_any T) (flut_eval_one T) (flut_result T)
              f skey dir cipher sb coin bits outs r s'
              (match do_run_flut T Y (f_enc f cipher coin bits) spec cipher None (Some dir) freq queue_size interval bkey (Some max_depth) None false with
               | Ok c => cmd_body c | Fail e => PRet (Fail e) end) freq g)
    as (f2 & R1 & R2 & R3); auto.
  - intros; apply flut_one_any_exact.
  - intros; apply flut_result_any_exact.
  - intros q SU. cbn [do_run_flut cmd_body].
    apply (sure_det _ _ g).
    { rewrite (from_file_eq _ f) by (apply f_enc_other; auto). exact EG. }
    apply (sure_det _ _ (true, true)).
    { eapply read_bkey_ok; eauto. rewrite f_enc_other; auto. }
    apply (sure_det _ _ tt); [reflexivity|]. apply (sure_det _ _ tt); [reflexivity|].
    apply (sure_det _ _ r); [exact EN|]. cbn [sure].
    apply (sure_det _ _ tt). { destruct (Nat.eqb_spec queue_size 0); [lia|reflexivity]. }
    cbn [sure]. rewrite map_length, encs_length. exact SU.
  - exists f2. split; [eapply do_enc_ok; eauto|]. split; [exact R1|]. split; [exact R2|exact R3].
Qed.

(** ** C49: the key files. *)
Theorem C49_keys f skey bkey : skey <> bkey ->
  exists f1 f2, do_genkey T Y f skey = Ok f1 /\ do_genbkey T Y f1 skey bkey = Ok f2 /\
    keys_at Y f2 skey bkey /\ (forall p, p <> skey -> p <> bkey -> f2 p = f p).
Proof.
  intros N. exists (write f skey (c_skey T Y)), (write (write f skey (c_skey T Y)) bkey (c_bkey T Y)).
  split; [reflexivity|]. split; [|split].
  - unfold do_genbkey, read_skey, open_file. rewrite write_same. cbn [bind]. rewrite (y_skey _ _ _ _ YO). reflexivity.
  - split.
    + exists (c_skey T Y). rewrite write_other, write_same by auto. split; auto. apply YO.
    + exists (c_bkey T Y). rewrite write_same. split; auto. apply YO.
  - intros p P1 P2. rewrite !write_other; auto.
Qed.
End End2End.

(** * The hypotheses are met: a toy instance, test/02.spec and the input bits 1, 0, 0, 1, 1, 0
    (three valuations of two bits). *)
Definition ex_Y : crypto ex_T := mkCrypto ex_T 1
  (fun b : bool => [if b then 1 else 0]%N) (fun l => match l with [1%N] => true | _ => false end)
  (fun _ b => b) ex_s1 [7]%N [8]%N
  (fun l => match l with [7%N] => true | _ => false end) (fun l => match l with [8%N] => Some (true, true) | _ => None end).
Example ex_crypto : crypto_ok ex_T ex_Y ex_s1 (fun c b => c = b).
Proof.
  constructor; try solve [cbn; lia]; try solve [reflexivity]; cbn.
  all: intros _ [|]; try reflexivity; (split; [reflexivity|]); repeat constructor.
Qed.
Definition ex_f : fs :=
  write (write (write (write (write (fun _ => None) ["k"%char] [7%N]) ["b"%char] [8%N])
    ["s"%char] (map N_of_ascii ex_spec2)) ["i"%char] [1; 2; 1]%N) ["e"%char] [].
Example ex_keys : keys_at ex_Y ex_f ["k"%char] ["b"%char].
Proof. split; eexists; (split; [vm_compute; reflexivity|reflexivity]). Qed.
Example ex_plain : run_plain ex_f ["s"%char] ["i"%char] 2 = Ok ["1"%char].
Proof. vm_compute. reflexivity. Qed.
Definition ex_g : Graph := match from_file ex_f ["s"%char] with Ok g => g | Fail _ => ex_dfa end.
Example ex_from_file : from_file ex_f ["s"%char] = Ok ex_g /\ wf_graph ex_g /\ size ex_g = 3.
Proof.
  assert (E : from_file ex_f ["s"%char] = Ok ex_g) by (vm_compute; reflexivity).
  assert (S3 : size ex_g = 3) by (vm_compute; reflexivity).
  split; [exact E|]. split; [|exact S3]. eapply from_file_wf; [exact E|]. rewrite S3. repeat constructor.
Qed.
Example C35_nonvacuous : exists f1 f2,
  do_enc ex_T ex_Y ex_f ["k"%char] ["i"%char] ["c"%char] 2 0 = Ok f1 /\
  run_ends ex_T ex_Y (do_run_offline ex_T ex_Y f1 ["s"%char] ["c"%char] ["o"%char] 2 ["b"%char] false) f1 (Ok f2) /\
  do_dec ex_T ex_Y f2 ["k"%char] ["o"%char] = Ok ["1"%char].
Proof.
  destruct ex_contract as (H1 & H2). destruct ex_margins as (M1 & _).
  edestruct (C35_offline ex_T _ _ _ _ ex_Y H1 H2 ex_crypto ex_f ["k"%char] ["b"%char] ["s"%char] ["i"%char] ["c"%char] ["o"%char] 2 2 0)
    as (f1 & f2 & A & B & C & _);
    [exact ex_keys|vm_compute; reflexivity|cbn; intuition discriminate|discriminate|lia|lia|exact M1|vm_compute; reflexivity
    |vm_compute; reflexivity|exact ex_plain|]. eauto.
Qed.
Example C35_block_nonvacuous : exists f1 f2,
  do_enc ex_T ex_Y ex_f ["k"%char] ["i"%char] ["c"%char] 2 0 = Ok f1 /\
  run_ends ex_T ex_Y (do_run_block ex_T ex_Y f1 ["s"%char] ["c"%char] ["o"%char] 2 ["b"%char] false) f1 (Ok f2) /\
  do_dec ex_T ex_Y f2 ["k"%char] ["o"%char] = Ok ["1"%char].
Proof.
  destruct ex_contract as (H1 & H2). destruct ex_margins as (_ & M1 & _). destruct ex_from_file as (EG & W & SG).
  edestruct (C35_block ex_T _ _ _ _ ex_Y H1 H2 ex_crypto ex_f ["k"%char] ["b"%char] ["s"%char] ["i"%char] ["c"%char] ["o"%char] 2 2 0)
    as (f1 & f2 & A & B & C & _);
    [exact ex_keys|vm_compute; reflexivity|cbn; intuition discriminate|discriminate|lia|discriminate|exact EG
    |unfold block_margin, block_noise in *; rewrite SG; exact M1|rewrite SG; cbn; lia|rewrite SG; cbn; lia|vm_compute; reflexivity|exact ex_plain|]. eauto.
Qed.
Example C35_block_empty_nonvacuous : exists f1,
  do_enc ex_T ex_Y ex_f ["k"%char] ["e"%char] ["c"%char] 2 0 = Ok f1 /\
  run_ends ex_T ex_Y (do_run_block ex_T ex_Y f1 ["s"%char] ["c"%char] ["o"%char] 2 ["b"%char] false) f1 (Fail FAssert).
Proof.
  assert (HP : run_plain ex_f ["s"%char] ["e"%char] 2 = Ok ["0"%char]) by (vm_compute; reflexivity).
  destruct ex_contract as (H1 & H2).
  eapply (C35_block_empty_refuted ex_T); [exact ex_crypto|exact ex_keys|reflexivity|cbn; intuition discriminate|lia|exact HP].
Qed.
Example ex_packs : Forall2 (packs 2) [[true; false]; [false; true]; [true; false]] [[1]; [2]; [1]]%N.
Proof.
  repeat constructor; cbn; try lia;
    intros i b; do 2 (destruct i; [cbn; intros [= <-]; eexists; split; reflexivity|]); destruct i; discriminate.
Qed.
Example ex_report_names : forall j, report_file ["d"%char] j <> ["k"%char] /\ report_file ["d"%char] j <> ["c"%char].
Proof. intros j. split; discriminate. Qed.
Example C41_flut_nonvacuous : exists f1 f2,
  do_enc ex_T ex_Y ex_f ["k"%char] ["i"%char] ["c"%char] 2 0 = Ok f1 /\
  run_ends ex_T ex_Y (do_run_flut ex_T ex_Y f1 ["s"%char] ["c"%char] None (Some ["d"%char]) 4 2 2 ["b"%char] (Some 2) None false) f1 (Ok f2) /\
  do_dec ex_T ex_Y f2 ["k"%char] (report_file ["d"%char] 4) = Ok ["1"%char] /\
  do_dec ex_T ex_Y f2 ["k"%char] (report_file ["d"%char] 6) = Ok ["1"%char].
Proof.
  destruct ex_contract as (H1 & H2). destruct ex_margins as (_ & _ & M1). destruct ex_from_file as (EG & W & SG).
  edestruct (C41_flut ex_T _ _ _ _ ex_Y H1 H2 ex_crypto ex_f ["k"%char] ["b"%char] ["s"%char] ["i"%char] ["c"%char] ["d"%char]
               2 2 2 2 4 0 [[true; false]; [false; true]; [true; false]] [[1]; [2]; [1]]%N ex_g)
    as (f1 & f2 & A & B & C & _);
    [exact ex_keys|lia|exact ex_packs|vm_compute; reflexivity|cbn; intuition discriminate|exact ex_report_names
    |lia|lia|lia|lia|apply FlutFacts.depth_fits; cbn; lia|exact EG|rewrite SG; lia|rewrite SG; exact M1| |vm_compute; reflexivity|].
  - intros n k _ HW. destruct (reach_exists ex_g n) as [l HR].
    rewrite (width_unique _ _ _ _ HW (reach_width _ W _ _ HR)).
    pose proof (reach_len _ W _ _ HR) as HL. rewrite SG in HL. cbn. lia.
  - exists f1, f2. split; [exact A|]. split; [exact B|].
    destruct (C 4 ltac:(cbn; auto with arith)) as (b4 & A4 & D4). destruct (C 6 ltac:(cbn; auto)) as (b6 & A6 & D6).
    vm_compute in A4, A6. injection A4 as <-. injection A6 as <-. split; [exact D4|exact D6].
Qed.

Print Assumptions C35_offline.
Print Assumptions C35_reverse.
Print Assumptions C35_mirrored_spec.
Print Assumptions C35_spec_reversed.
Print Assumptions C35_flut.
Print Assumptions C35_block.
Print Assumptions C35_block_empty_refuted.
Print Assumptions C41_reverse.
Print Assumptions C41_flut.
Print Assumptions C49_keys.
