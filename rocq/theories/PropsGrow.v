(** C77: the input file of a run command grows, or is cut, while the command runs.

    [run_ends_while T Y change c f Q]: every execution of the command, while another process changes
    its input file in the ways [change] at any moments, is finite and ends with an outcome in [Q]. *)
From Coq Require Import List Arith Bool NArith ZArith Ascii Lia.
Import ListNotations.
From Verif Require Import Base BaseFacts GraphModel Spec GraphFacts TextModel TorusModel TfheSpec TfheFacts
  RunnerModel RunnerSpec RunnerFacts ReachFacts PropsRunner ParModel SchedFacts StreamModel InputSpec StreamFacts PropsInput
  ClientModel ClientFacts CmdModel CmdSpec CmdFacts PropsCmd CrashModel CrashFacts PropsCrash ServerSpec ServerFacts
  GrowModel GrowSpec GrowFacts.

Section Any.
Context (T : tfhe) (Y : crypto T).
Notation words := (c_words T Y).
Hypothesis HW : 0 < words.
Hypothesis HB : (Z.of_nat (words * 8) < 2 ^ 63)%Z.

(** The input of the command, if it exists, is a file of bytes of a size that fits in 64 bits. *)
Definition file_input (c : res command) (f : fs) : Prop :=
  forall c0 bytes, c = Ok c0 -> f (cmd_input c0) = Some bytes -> is_bytes bytes /\ (Z.of_nat (length bytes) < 2 ^ 64)%Z.

Lemma opened k bytes junk s : is_bytes bytes -> (Z.of_nat (length bytes) < 2 ^ 64)%Z -> length junk = words ->
  open_stream k words bytes junk [] = Ok s ->
  is_data (s_is s) = bytes /\ exists cts, Forall (is_ctxt words) cts /\ idle k words cts 0 s /\ s_prog s = [].
Proof.
  intros B1 B2 HJ EO. split.
  { unfold open_stream in EO. rewrite seek_zero_end in EO. apply bind_ok in EO as (n & _ & EO).
    destruct k; [rewrite seek_zero_beg in EO|]; apply bind_ok in EO as (r & _ & [= <-]); reflexivity. }
  assert (BS : block_size words = words * 8) by reflexivity.
  destruct (Nat.eq_dec (length bytes mod block_size words) 0) as [M|M].
  2:{ exfalso. rewrite (C25_partial_block k words bytes junk [] HW B2 M) in EO. discriminate. }
  apply Nat.div_exact in M; [|lia]. set (n := length bytes / block_size words) in *.
  destruct (ctxts_of_bytes words n bytes B1) as (cts & C1 & C2 & C3); [lia|].
  subst bytes. exists cts. split; [exact C1|].
  assert (H64 : (Z.of_nat (length cts * block_size words) < two64)%Z).
  { rewrite C2. replace (n * block_size words) with (length (concat (map save cts))) by lia. exact B2. }
  destruct (open_idle k words cts HW HB C1 H64 junk HJ) as (s1 & E1 & I & P).
  rewrite EO in E1. injection E1 as <-. auto.
Qed.

Lemma start_good {R} k cts s (p : client R) : idle k words cts 0 s -> s_prog s = [] ->
  good k words cts (fun _ _ => True) (fun _ => True) (s, Run p).
Proof. intros I P. exists 0. auto. Qed.

Lemma run_while (change : list N -> list N -> Prop) c f r : (forall old new, change old new -> resized old new) -> (forall old, change old old) ->
  file_input c f -> run_ends T Y c f r ->
  run_ends_while T Y change c f
    (fun r' => r' = r \/ (r' = Fail FAssert /\ exists c0 old new, c = Ok c0 /\ f (cmd_input c0) = Some old /\ change old new /\ ~ grown old new)).
Proof.
  intros H1 H2 FI H. destruct c as [c|e]; cbn [run_ends run_ends_while] in *; [|left; congruence].
  destruct (f (cmd_input c)) as [bytes|] eqn:EF; [|left; congruence].
  intros junk HJ. specialize (H junk HJ). destruct (FI c bytes eq_refl EF) as (B1 & B2).
  destruct (open_stream (cmd_kind c) words bytes junk []) as [s|e] eqn:EO; [|left; congruence].
  destruct (opened _ _ _ _ B1 B2 HJ EO) as (D & cts & C1 & I & P).
  destruct (ends_resized _ _ _ HW HB C1 (change bytes) bytes (H1 bytes) (H2 bytes) s (cmd_body c) r (start_good _ _ _ _ I P) D H) as (A & EN).
  split; [exact A|]. intros x M NM. destruct (EN x M NM) as (r' & E & [Q|(Q & d & CD & NG)]); exists r'; split; auto.
  right. split; [exact Q|]. exists c, bytes, d. auto.
Qed.

(** ** C77: appending to the input file of a running command changes nothing: it ends as if the
    file had stayed as it was when the command opened it. *)
Theorem C77_grows c f r : file_input c f -> run_ends T Y c f r ->
  run_ends_while T Y grown c f (fun r' => r' = r).
Proof.
  intros FI H. pose proof (run_while grown c f r (fun o n G => or_introl G) grown_refl FI H) as W.
  destruct c as [c|e]; cbn [run_ends_while] in *.
  2:{ destruct W as [W|(_ & c0 & o & n & W & _)]; [exact W|discriminate]. }
  destruct (f (cmd_input c)) as [bytes|] eqn:EF.
  2:{ destruct W as [W|(_ & c0 & o & n & [= <-] & W & _)]; [exact W|congruence]. }
  intros junk HJ. specialize (W junk HJ).
  destruct (open_stream (cmd_kind c) words bytes junk []) as [s|e].
  2:{ destruct W as [W|(_ & c0 & o & n & _ & _ & G & NG)]; [exact W|contradiction]. }
  destruct W as (A & W). split; [exact A|]. intros x M NM. destruct (W x M NM) as (r' & E & [Q|(_ & c0 & o & n & _ & _ & G & NG)]); eauto. contradiction.
Qed.

(** ** C77: appending to it or cutting it, again and again, as long as no byte gets another value:
    the command ends as if the file had stayed as it was, or an assertion fails. *)
Theorem C77_resized c f r : file_input c f -> run_ends T Y c f r ->
  run_ends_while T Y resized c f (fun r' => r' = r \/ r' = Fail FAssert).
Proof.
  intros FI H. assert (RR : forall old, resized old old) by (intros old; left; apply grown_refl).
  pose proof (run_while resized c f r (fun o n G => G) RR FI H) as W.
  destruct c as [c|e]; cbn [run_ends_while] in *; [|tauto].
  destruct (f (cmd_input c)) as [bytes|]; [|tauto]. intros junk HJ. specialize (W junk HJ).
  destruct (open_stream (cmd_kind c) words bytes junk []) as [s|e]; [|tauto].
  destruct W as (A & W). split; [exact A|]. intros x M NM. destruct (W x M NM) as (r' & E & Q). exists r'. split; [exact E|tauto].
Qed.

(** ** C77: at every moment, also when it is killed, the command has written only what it could
    have written with a file that stays as it was. *)
Theorem C77_left c f f' : file_input c f -> run_left_while T Y resized c f f' -> run_left T Y c f f'.
Proof.
  intros FI [S|(c0 & bytes & junk & s & x & -> & EF & HJ & EO & M)]; [left; exact S|right].
  destruct (FI c0 bytes eq_refl EF) as (B1 & B2). destruct (opened _ _ _ _ B1 B2 HJ EO) as (D & cts & C1 & I & P).
  destruct (fgmoves_under _ _ _ HW HB C1 (resized bytes) bytes (fun d H => H) (or_introl (grown_refl bytes)) (s, Run (cmd_body c0)) f (x, f')
              (start_good _ _ _ _ I P) D M) as (w & MT & _).
  exists c0, bytes, junk, s, w. auto.
Qed.
End Any.

(** * A run on a file that enc is still writing *)
Section Encrypting.
Context (T : tfhe) (s0 s1 : list Z) (bit : trgsw T -> bool -> Prop) (E : noise) (Y : crypto T).
Hypothesis OK : tfhe_ok T s0 s1 bit E.
Hypothesis NN : noise_nonneg E.
Hypothesis YO : crypto_ok T Y s1 bit.
Notation words := (c_words T Y).

(** The run is started when [k] bytes of the encryption of [bits] are in the file, and enc goes on.
    If this is not a whole number of ciphertexts, the run stops; if it is [n] ciphertexts, it
    answers for the first [n] bits. *)
Definition early_run (command : res command) (f : fs) (skey output : text) (g : Graph) (bits : list bool) (k : nat) : Prop :=
  (k mod (words * 8) <> 0 -> run_ends_while T Y grown command f (fun r => r = Fail FAssert)) /\
  (forall n, k = n * (words * 8) -> exists f2 b,
     run_ends_while T Y grown command f (fun r => r = Ok f2) /\
     accepts g (firstn n bits) = Ok b /\ do_dec T Y f2 skey output = Ok (answer b)).

Lemma le_bytes_byte j : forall w, Forall (fun x => (x < 256)%N) (le_bytes j w).
Proof. induction j as [|j IH]; intros w; cbn [le_bytes]; constructor; auto. apply N.mod_lt. discriminate. Qed.
Lemma save_bytes c : is_bytes (save c).
Proof.
  unfold is_bytes, save. induction c as [|w c IH]; cbn [map concat]; [constructor|]. apply Forall_app. split; [apply le_bytes_byte|exact IH].
Qed.
Lemma enc_bytes bits : forall coin, is_bytes (enc_output T Y coin bits).
Proof.
  induction bits as [|b bits IH]; intros coin; cbn [enc_output]; [constructor|]. apply Forall_app. split; [apply save_bytes|apply IH].
Qed.
Lemma firstn_bytes k b : is_bytes b -> is_bytes (firstn k b).
Proof. unfold is_bytes. rewrite <- (firstn_skipn k b) at 1. intros H. apply Forall_app in H. tauto. Qed.

Lemma early c0 f skey cipher output g coin bits k :
  cmd_input c0 = cipher -> f cipher = Some (firstn k (enc_output T Y coin bits)) ->
  k <= length bits * (words * 8) -> (Z.of_nat (length bits * (words * 8)) < 2 ^ 64)%Z ->
  (forall n, n <= length bits -> k = n * (words * 8) -> f cipher = Some (enc_output T Y coin (firstn n bits)) ->
     length (firstn n bits) <= length bits ->
     (Z.of_nat (length (firstn n bits) * (words * 8)) < 2 ^ 64)%Z ->
     (exists f2 b, run_ends T Y (Ok c0) f (Ok f2) /\ accepts g (firstn n bits) = Ok b /\ do_dec T Y f2 skey output = Ok (answer b))) ->
  early_run (Ok c0) f skey output g bits k.
Proof.
  intros KI FC LK L64 H. pose proof (y_words _ _ _ _ YO) as HW. pose proof (y_block _ _ _ _ YO) as HB.
  assert (BS : block_size words = words * 8) by reflexivity.
  assert (LO : length (enc_output T Y coin bits) = length bits * (words * 8)) by (rewrite (ct_file_length T Y s1 bit YO), BS; reflexivity).
  assert (LF : length (firstn k (enc_output T Y coin bits)) = k) by (rewrite firstn_length; lia).
  assert (FI : file_input (Ok c0) f).
  { intros c bytes [= <-] EF. rewrite KI, FC in EF. injection EF as <-. split; [apply firstn_bytes, enc_bytes|]. rewrite LF. lia. }
  split.
  - intros M. apply (C77_grows T Y HW HB); [exact FI|]. cbn [run_ends]. rewrite KI, FC. intros junk _.
    rewrite C25_partial_block; [reflexivity|exact HW| |]; rewrite LF; [lia|exact M].
  - intros n EK. assert (NB : n <= length bits) by nia.
    assert (FC' : f cipher = Some (enc_output T Y coin (firstn n bits))).
    { rewrite FC. f_equal. rewrite <- (enc_output_firstn T Y s1 bit YO) by exact NB. rewrite BS. now rewrite EK. }
    assert (LN : length (firstn n bits) = n) by (rewrite firstn_length; lia).
    destruct (H n NB EK FC') as (f2 & b & R & A & D); [lia|rewrite LN; nia|].
    exists f2, b. split; [|auto]. apply (C77_grows T Y HW HB); auto.
Qed.

(** ** C77: for each kind of run *)
Theorem C77_offline f skey bkey spec cipher output interval g coin bits k :
  keys_at Y f skey bkey -> f cipher = Some (firstn k (enc_output T Y coin bits)) -> k <= length bits * (words * 8) ->
  output <> skey -> from_file f spec = Ok g -> 0 < size g -> 0 < interval -> back_margin E interval ->
  (Z.of_nat (length bits) < 2 ^ 31)%Z -> (Z.of_nat (length bits * (words * 8)) < 2 ^ 64)%Z ->
  early_run (do_run_offline T Y f spec cipher output interval bkey false) f skey output g bits k.
Proof.
  intros HK FC LK NO EG SG HI HM L31 L64. eapply early; eauto. intros n NB EK FC' LN LN64.
  eapply (C58_offline T s0 s1 bit E Y OK NN YO f skey bkey spec cipher output interval g coin (firstn n bits)); auto. lia.
Qed.
Theorem C77_reverse f skey bkey spec cipher output freq interval g coin bits k :
  keys_at Y f skey bkey -> f cipher = Some (firstn k (enc_output T Y coin bits)) -> k <= length bits * (words * 8) ->
  output <> skey -> from_file f spec = Ok g -> 0 < size g -> 0 < interval -> back_margin E interval ->
  (Z.of_nat (length bits * (words * 8)) < 2 ^ 64)%Z ->
  early_run (do_run_reverse T Y f spec cipher (Some output) None freq interval false bkey false) f skey output g bits k.
Proof.
  intros HK FC LK NO EG SG HI HM L64. unfold do_run_reverse. cbn [assert_]. eapply early; eauto. intros n NB EK FC' LN LN64.
  eapply (C58_reverse T s0 s1 bit E Y OK NN YO f skey bkey spec cipher output freq interval g coin (firstn n bits)); auto.
Qed.
Theorem C77_flut f skey bkey spec cipher output freq queue_size interval max_depth g coin bits k :
  keys_at Y f skey bkey -> f cipher = Some (firstn k (enc_output T Y coin bits)) -> k <= length bits * (words * 8) ->
  output <> skey -> from_file f spec = Ok g -> 0 < size g ->
  0 < queue_size < 31 -> 0 < interval -> max_depth < 31 -> table_fits (t_n1 T) max_depth queue_size g ->
  flut_margin (size g * 2 ^ (queue_size / 2)) queue_size interval E ->
  (forall n j, width g n j -> j < 2 ^ max_depth) ->
  (Z.of_nat (length bits * (words * 8)) < 2 ^ 64)%Z ->
  early_run (do_run_flut T Y f spec cipher (Some output) None freq queue_size interval bkey (Some max_depth) None false)
    f skey output g bits k.
Proof.
  intros HK FC LK NO EG SG HQ HI HD HT HM HWd L64. eapply early; eauto. intros n NB EK FC' LN LN64.
  eapply (C58_flut T s0 s1 bit E Y OK NN YO f skey bkey spec cipher output freq queue_size interval max_depth g coin (firstn n bits)); eauto.
Qed.
Theorem C77_block f skey bkey spec cipher output queue_size g coin bits k :
  keys_at Y f skey bkey -> f cipher = Some (firstn k (enc_output T Y coin bits)) -> 0 < k <= length bits * (words * 8) ->
  output <> skey -> from_file f spec = Ok g -> 0 < size g ->
  block_margin g queue_size E -> Nat.log2 (size g) + 1 < t_n1 T -> Nat.log2 (size g) + 1 < 31 ->
  (Z.of_nat (length bits * (words * 8)) < 2 ^ 64)%Z ->
  early_run (do_run_block T Y f spec cipher output queue_size bkey false) f skey output g bits k.
Proof.
  intros HK FC LK NO EG SG HM HL1 HL2 L64. eapply early; eauto; [lia|]. intros n NB EK FC' LN LN64.
  eapply (C58_block T s0 s1 bit E Y OK NN YO f skey bkey spec cipher output queue_size g coin (firstn n bits)); auto.
  destruct n as [|n]; [lia|]. destruct bits as [|b bits]; [cbn in NB; lia|discriminate].
Qed.
End Encrypting.

(** ** C77: a file that is written anew while it is read can be delivered half old and half new, both
    files being complete. *)
Theorem C77_rewritten_refuted : exists (a b a' b' : list N) junk sched1 sched2 opened s1 s2,
  Forall (is_ctxt 1) [a; b; a'; b'] /\ NoDup [a; b; a'; b'] /\
  open_stream Forward 1 (save a ++ save b) junk [Next; Next] = Ok opened /\
  exec Forward 1 sched1 opened = Ok s1 /\
  exec Forward 1 sched2 (with_file (save a' ++ save b') s1) = Ok s2 /\
  s_prog s2 = [] /\ s_out s2 = [EValue a; EValue b'].
Proof.
  exists [1%N], [2%N], [3%N], [4%N], [0%N], (Loader :: repeat Caller 6), (Loader :: repeat Caller 6).
  eexists. eexists. eexists. split.
  { repeat constructor. }
  split; [repeat constructor; cbn; intuition discriminate|].
  split; [vm_compute; reflexivity|]. split; [vm_compute; reflexivity|]. split; [vm_compute; reflexivity|].
  split; vm_compute; reflexivity.
Qed.

(** * The hypotheses are met. *)
(** enc has written the first of six ciphertexts when the run begins; meanwhile the file grows. *)
Example C77_nonvacuous :
  early_run ex_T ex_Y (do_run_reverse ex_T ex_Y ex_killed ["s"%char] ["c"%char] (Some ["o"%char]) None 1 2 false ["b"%char] false)
    ex_killed ["k"%char] ["o"%char] ex_g [true; false; false; true; true; false] 8 /\
  grown (enc_output ex_T ex_Y 0 [true]) (enc_output ex_T ex_Y 0 [true; false; false; true; true; false]) /\
  accepts ex_g (firstn 1 [true; false; false; true; true; false]) = Ok false /\
  accepts ex_g [true; false; false; true; true; false] = Ok true.
Proof.
  destruct ex_contract as (H1 & H2). destruct ex_margins as (M1 & _). destruct ex_from_file as (_ & _ & SG).
  split; [|split; [|split; vm_compute; reflexivity]].
  - eapply (C77_reverse ex_T _ _ _ _ ex_Y H1 H2 ex_crypto ex_killed ["k"%char] ["b"%char] ["s"%char] ["c"%char] ["o"%char] 1 2 ex_g 0);
      [exact ex_killed_keys|vm_compute; reflexivity|cbn; lia|discriminate|exact ex_killed_spec|rewrite SG; lia|lia|exact M1|vm_compute; reflexivity].
  - eexists. vm_compute. reflexivity.
Qed.
Example C77_torn :
  early_run ex_T ex_Y (do_run_block ex_T ex_Y ex_torn ["s"%char] ["c"%char] ["o"%char] 2 ["b"%char] false)
    ex_torn ["k"%char] ["o"%char] ex_g [true; false] 12 /\ 12 mod (c_words ex_T ex_Y * 8) <> 0.
Proof.
  destruct ex_contract as (H1 & H2). destruct ex_margins as (_ & M2 & _). destruct ex_from_file as (_ & _ & SG).
  split; [|vm_compute; discriminate].
  eapply (C77_block ex_T _ _ _ _ ex_Y H1 H2 ex_crypto ex_torn ["k"%char] ["b"%char] ["s"%char] ["c"%char] ["o"%char] 2 ex_g 0);
    [split; eexists; (split; [vm_compute; reflexivity|reflexivity])|vm_compute; reflexivity|cbn; lia|discriminate|vm_compute; reflexivity
    |rewrite SG; lia|unfold block_margin, block_noise in *; rewrite SG; exact M2|rewrite SG; cbn; lia|rewrite SG; cbn; lia|vm_compute; reflexivity].
Qed.

(** The same run, while the file also shrinks at times; a file that has become too short stops it. *)
Example C77_resized_nonvacuous : exists f2,
  run_ends_while ex_T ex_Y resized
    (do_run_reverse ex_T ex_Y ex_killed ["s"%char] ["c"%char] (Some ["o"%char]) None 1 2 false ["b"%char] false)
    ex_killed (fun r => r = Ok f2 \/ r = Fail FAssert) /\
  do_dec ex_T ex_Y f2 ["k"%char] ["o"%char] = Ok ["0"%char].
Proof.
  destruct C58_enc_nonvacuous as (_ & _ & f2 & R & D). exists f2. split; [|exact D].
  eapply C77_resized; [exact (y_words _ _ _ _ ex_crypto)|exact (y_block _ _ _ _ ex_crypto)| |exact R].
  intros c0 bytes [= <-] EF. cbn [cmd_input] in EF. vm_compute in EF. injection EF as <-.
  split; [repeat constructor|reflexivity].
Qed.
Example C77_cut_stops : exists s,
  open_stream Forward 1 (save [1%N] ++ save [2%N]) [0%N] [Next; Next] = Ok s /\
  bind (exec Forward 1 (Loader :: repeat Caller 6) s) (fun s1 => exec Forward 1 [Loader] (with_file (save [1%N]) s1)) = Fail FAssert.
Proof. eexists. split; [vm_compute; reflexivity|]. vm_compute. reflexivity. Qed.

Print Assumptions C77_grows.
Print Assumptions C77_resized.
Print Assumptions C77_left.
Print Assumptions C77_offline.
Print Assumptions C77_reverse.
Print Assumptions C77_flut.
Print Assumptions C77_block.
Print Assumptions C77_rewritten_refuted.
