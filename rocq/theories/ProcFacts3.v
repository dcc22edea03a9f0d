(** The commands, one by one. *)
From Coq Require Import List Arith Bool NArith ZArith Ascii Lia.
Import ListNotations.
From Verif Require Import Base GraphModel TextModel BitsModel TorusModel RunnerModel ParModel StreamModel ClientModel ClientFacts CmdModel CrashModel CmdFacts CrashFacts ProcModel ProcSpec ProcFacts ProcFacts2.

Section Cmds.
Context (T : tfhe) (Y : crypto T).
Definition ended_as (r : res text) (g : fs) : res text -> fs -> Prop := fun r' f' => r' = r /\ same_files g f'.
Lemma ended_as_ext r g : forall r' a b, same_files a b -> ended_as r g r' a -> ended_as r g r' b.
Proof. intros r' a b SF [-> H]. split; auto. intros p. rewrite SF. auto. Qed.
Lemma same_refl (f : fs) : same_files f f.
Proof. intros p. reflexivity. Qed.

Lemma genkey_pends f o : pends (ended_as (Ok []) (write f o (c_skey T Y))) ((None, Doing (work_genkey T Y o)), f).
Proof. apply pe_store; [apply ended_as_ext|]. apply pe_ret. split; auto using same_refl. Qed.
Lemma genbkey_pends f s o : match do_genbkey T Y f s o with
  | Ok g => pends (ended_as (Ok []) g) ((None, Doing (work_genbkey T Y s o)), f)
  | Fail e => pends (ended_as (Fail e) f) ((None, Doing (work_genbkey T Y s o)), f)
  end.
Proof.
  unfold do_genbkey. change (read_skey T Y f s) with (skey_of T Y (f s)). destruct (skey_of T Y (f s)) as [u|e] eqn:E; cbn [bind].
  - apply pe_read. apply pe_det. rewrite E. apply pe_store; [apply ended_as_ext|]. apply pe_ret. split; auto using same_refl.
  - apply pe_read. apply pe_det. rewrite E. split; auto using same_refl.
Qed.
Lemma dec_pends f s i : match do_dec T Y f s i with
  | Ok t => pends (ended_as (Ok t) f) ((None, Doing (work_dec T Y s i)), f)
  | Fail e => pends (ended_as (Fail e) f) ((None, Doing (work_dec T Y s i)), f)
  end.
Proof.
  unfold do_dec. change (read_skey T Y f s) with (skey_of T Y (f s)). destruct (skey_of T Y (f s)) as [u|e] eqn:E; cbn [bind].
  2:{ apply pe_read. apply pe_det. rewrite E. split; auto using same_refl. }
  change (open_file f i) with (there (f i)). destruct (do b <- there (f i); read_tlwe (t_n1 T) b) as [c|e] eqn:E2.
  - assert (X : bind (there (f i)) (fun b => do enc_res <- read_tlwe (t_n1 T) b; Ok (print_result (decrypt_TLWELvl1_to_bit (t_n1 T) enc_res (c_key T Y)))) =
                Ok (print_result (decrypt_TLWELvl1_to_bit (t_n1 T) c (c_key T Y)))).
    { destruct (there (f i)); cbn [bind] in *; [|discriminate]. rewrite E2. reflexivity. }
    rewrite X. apply pe_read. apply pe_det. rewrite E. apply pe_read. apply pe_det. rewrite E2. apply pe_ret. split; auto using same_refl.
  - assert (X : bind (there (f i)) (fun b => do enc_res <- read_tlwe (t_n1 T) b; Ok (print_result (decrypt_TLWELvl1_to_bit (t_n1 T) enc_res (c_key T Y)))) = Fail e).
    { destruct (there (f i)); cbn [bind] in *; [|congruence]. rewrite E2. reflexivity. }
    rewrite X. apply pe_read. apply pe_det. rewrite E. apply pe_read. apply pe_det. rewrite E2. split; auto using same_refl.
Qed.
Lemma plain_pends f s i ap : match run_plain f s i ap with
  | Ok t => pends (ended_as (Ok t) f) ((None, Doing (work_plain s i ap)), f)
  | Fail e => pends (ended_as (Fail e) f) ((None, Doing (work_plain s i ap)), f)
  end.
Proof.
  unfold run_plain. change (from_file f s) with (graph_of (f s)). destruct (graph_of (f s)) as [g|e] eqn:E; cbn [bind].
  2:{ apply pe_read. apply pe_det. rewrite E. split; auto using same_refl. }
  change (open_file f i) with (there (f i)). destruct (bind (there (f i)) _) as [t|e] eqn:E2;
    apply pe_read; apply pe_det; rewrite E; apply pe_read; apply pe_det; rewrite E2; [apply pe_ret|]; split; auto using same_refl.
Qed.

(** enc: the bits are written whether or not the input turns out to be too short *)
Lemma enc_out bits : forall coin acc,
  foldM (fun '(coin, bytes) b => Ok (S coin, bytes ++ save (c_save T Y (c_enc T Y coin b)))) bits (coin, acc)
  = Ok (coin + length bits, acc ++ enc_output T Y coin bits).
Proof.
  induction bits as [|b bits IH]; intros coin acc; cbn [foldM enc_output length].
  - rewrite app_nil_r, Nat.add_0_r. reflexivity.
  - cbn [bind]. rewrite IH. rewrite <- app_assoc, Nat.add_succ_comm. reflexivity.
Qed.
Lemma each_bit_skip {A B} ap (a : A) (b : B) bytes : forall rest,
  (do _ <- each_input_bit_from rest ap (fun t _ => Ok t) bytes a; Ok b) = each_input_bit_from rest ap (fun t _ => Ok t) bytes b.
Proof.
  induction bytes as [|v bytes IH]; intros rest; cbn [each_input_bit_from].
  - destruct (rest =? 0); reflexivity.
  - destruct (byte_bits 8 v (if rest =? 0 then ap else rest)) as [bs r].
    assert (Z : forall (C : Type) (c : C), foldM (fun t (_ : bool) => Ok t) bs c = Ok c) by (clear; induction bs; intros; cbn; auto).
    rewrite !Z. cbn [bind]. apply IH.
Qed.
Lemma enc_pends f s i o ap coin : exists g, (forall p, p <> o -> g p = f p) /\
  match do_enc T Y f s i o ap coin with
  | Ok h => same_files g h /\ pends (ended_as (Ok []) g) ((None, Doing (work_enc T Y s i o ap coin)), f)
  | Fail e => pends (ended_as (Fail e) g) ((None, Doing (work_enc T Y s i o ap coin)), f)
  end.
Proof.
  unfold do_enc. change (read_skey T Y f s) with (skey_of T Y (f s)). destruct (skey_of T Y (f s)) as [u|e] eqn:E; cbn [bind].
  2:{ exists f. split; auto. apply pe_read. apply pe_det. rewrite E. split; auto using same_refl. }
  change (open_file (write f o []) i) with (there (write f o [] i)). destruct (there (write f o [] i)) as [input|e] eqn:E2; cbn [bind].
  2:{ exists (write f o []). split; [intros p; apply write_other|]. apply pe_read. apply pe_det. rewrite E. apply pe_create.
      apply pe_read. apply pe_det. rewrite E2. split; auto using same_refl. }
  exists (write f o (enc_output T Y coin (bits_passed 0 ap input))). split; [intros p; apply write_other|].
  unfold each_input_bit. rewrite each_bit_passed, enc_out. cbn [bind app].
  pose proof (each_bit_skip ap (coin + length (bits_passed 0 ap input), enc_output T Y coin (bits_passed 0 ap input)) tt input 0) as K.
  assert (K2 : forall k, pends k ((None, Doing (wdet (each_input_bit input ap (fun _ _ => Ok tt) tt) (fun _ => WRet (Ok [])))), write (write f o []) o (enc_output T Y coin (bits_passed 0 ap input))) ->
     (forall r a b, same_files a b -> k r a -> k r b) ->
     pends k ((None, Doing (work_enc T Y s i o ap coin)), f)).
  { intros k P EX. apply pe_read. apply pe_det. rewrite E. apply pe_create. apply pe_read. apply pe_det. rewrite E2.
    apply pe_append; auto. apply write_same. }
  assert (K3 : each_input_bit input ap (fun _ _ => Ok tt) tt = each_input_bit_from 0 ap (fun t _ => Ok t) input tt).
  { unfold each_input_bit. assert (Z : forall bytes rest, each_input_bit_from rest ap (fun (_ : unit) (_ : bool) => Ok tt) bytes tt = each_input_bit_from rest ap (fun (t : unit) (_ : bool) => Ok t) bytes tt).
    { induction bytes as [|v bytes IH]; intros rest; cbn [each_input_bit_from]; auto. destruct (byte_bits 8 v (if rest =? 0 then ap else rest)) as [bs r].
      assert (Z1 : foldM (fun (_ : unit) (_ : bool) => Ok tt) bs tt = Ok tt) by (clear; induction bs; cbn; auto).
      assert (Z2 : foldM (fun (t : unit) (_ : bool) => Ok t) bs tt = Ok tt) by (clear; induction bs; cbn; auto). rewrite Z1, Z2. cbn [bind]. apply IH. }
    apply Z. }
  destruct (each_input_bit_from 0 ap (fun t _ => Ok t) input (coin + length (bits_passed 0 ap input), enc_output T Y coin (bits_passed 0 ap input))) as [[c' by']|e] eqn:EE.
  - assert (B : by' = enc_output T Y coin (bits_passed 0 ap input)).
    { pose proof (each_bit_skip ap tt (coin + length (bits_passed 0 ap input), enc_output T Y coin (bits_passed 0 ap input)) input 0) as K4.
      rewrite EE in K4. destruct (each_input_bit_from 0 ap (fun (t : unit) _ => Ok t) input tt); cbn [bind] in K4; congruence. }
    cbn [bind] in *. subst by'. split; [intros p; apply write_twice|]. apply K2; [|apply ended_as_ext]. apply pe_det. rewrite K3, <- K. apply pe_ret.
    split; auto. intros p. apply write_twice.
  - cbn [bind] in *. apply K2; [|apply ended_as_ext]. apply pe_det. rewrite K3, <- K. split; auto. intros p. apply write_twice.
Qed.

(** The commands that read a stream *)
Lemma run_pends kd input body c f r : run_ends T Y (Ok (mkCommand kd input c)) f r -> wmatch body f c ->
  pends (fun r' f' => rmatch r' f' r) ((None, Doing (WOpen kd (c_words T Y) input body)), f).
Proof.
  cbn [run_ends cmd_input cmd_kind cmd_body]. intros RE WM. apply pe_step.
  - intros N. destruct (f input) as [bytes|] eqn:EB; [|eapply N; apply p_open_none; auto].
    destruct (open_stream kd (c_words T Y) bytes (repeat 0%N (c_words T Y)) []) as [s|e] eqn:EO;
      eapply N; [eapply p_open|eapply p_open_fail]; eauto using repeat_length.
  - intros y M. inversion M; subst; match goal with H : _ input = _ |- _ => rewrite H in RE end;
      try (match goal with H1 : length _ = _, H2 : open_stream _ _ _ _ _ = _ |- _ => specialize (RE _ H1); rewrite H2 in RE end).
    + destruct RE as [A ST]. apply (follows kd (c_words T Y) r (s, Run c)); auto.
    + subst r. apply pe_end. reflexivity.
    + subst r. apply pe_end. reflexivity.
Qed.

Lemma store_match p bytes k f c : (forall g, same_files (write f p bytes) g -> wmatch k g (c g)) ->
  wmatch (wstore p bytes k) f (store_file f p bytes c).
Proof.
  intros H. unfold wstore, store_file. cbn [wmatch]. split; [apply write_same|]. do 3 eexists. split; [reflexivity|]. cbn [app].
  eapply wmatch_ext; [|apply H; apply same_refl]. intros q. apply write_twice.
Qed.
Lemma ret_match f : wmatch (WRet (Ok [])) f (PRet (Ok f)).
Proof. exists (Ok f). split; auto. split; auto. apply same_refl. Qed.
Lemma fail_match e f : wmatch (WRet (Fail e)) f (PRet (Fail e)).
Proof. exists (Fail e). split; auto. reflexivity. Qed.
Lemma offline_loop_match n : forall r f finish finish', (forall r, wmatch (finish r) f (finish' r)) ->
  wmatch (offline_work T Y n r finish) f (offline_loop T Y n r finish').
Proof.
  induction n as [|n IH]; intros r f finish finish' H; cbn [offline_work offline_loop]; auto.
  eexists; split; [reflexivity|]. intros c. eexists; split; [reflexivity|]. intros r'. apply IH; auto.
Qed.
Lemma monitor_match {St} (feed : St -> trgsw T -> outcomes St) ask input dir freq finish finish' :
  (forall s f, wmatch (finish s) f (finish' s f)) -> forall fuel i s f,
  wmatch (monitor_work T Y feed ask input dir freq finish fuel i s) f (monitor_loop T Y feed ask input dir freq finish' fuel i s f).
Proof.
  intros H. induction fuel as [|fuel IH]; intros i s f; cbn [monitor_work monitor_loop]; eexists; (split; [reflexivity|]); intros n; cbv beta;
    (destruct (n =? 0); [apply H|]); [apply fail_match|].
  eexists; split; [reflexivity|]. intros c. eexists; split; [reflexivity|]. intros s1; cbv beta.
  destruct dir as [d|]; [|apply IH]. destruct (freq =? 0); [apply fail_match|].
  destruct (i mod freq =? freq - 1); [|apply IH]. eexists; split; [reflexivity|]. intros [o s2]; cbv beta iota.
  destruct (path_eqb _ input); [apply fail_match|]. apply store_match. intros g _. apply IH.
Qed.
Lemma last_match {St} (ask : St -> outcomes (tlwe * St)) out dir n s f :
  wmatch (last_work T ask out dir n s) f (last_output T ask out dir n s f).
Proof.
  eexists; split; [reflexivity|]. intros [c s']. destruct out as [o|]; [|destruct dir as [d|]].
  - apply store_match. intros g _. apply ret_match.
  - apply store_match. intros g _. apply ret_match.
  - apply fail_match.
Qed.
Ltac next_match := eexists; split; [reflexivity|]; intros.
Lemma offline_pends f spec input output freq bkey san r : run_ends T Y (do_run_offline T Y f spec input output freq bkey san) f r ->
  pends (fun r' f' => rmatch r' f' r) ((None, Doing (work_offline T Y spec input output freq bkey san)), f).
Proof.
  intros RE. eapply run_pends; [exact RE|]. cbn [wmatch]. eexists; split; [reflexivity|]. intros [ekey ik]. cbn [wmatch].
  do 6 next_match. apply offline_loop_match. intros r'. next_match. apply store_match. intros. apply ret_match.
Qed.
Lemma reverse_pends f spec input output dir ofreq freq sr bkey san r :
  run_ends T Y (do_run_reverse T Y f spec input output dir ofreq freq sr bkey san) f r ->
  pends (fun r' f' => rmatch r' f' r) ((None, Doing (work_reverse T Y spec input output dir ofreq freq sr bkey san)), f).
Proof.
  intros RE. apply pe_det. unfold do_run_reverse in RE. set (b := match output with Some _ => _ | None => _ end) in *.
  destruct b; cbn [assert_] in *; [|cbn in RE; subst r; reflexivity].
  eapply run_pends; [exact RE|]. cbn [wmatch]. eexists; split; [reflexivity|]. intros [ekey ik]. cbn [wmatch].
  do 4 next_match. apply monitor_match. intros. apply last_match.
Qed.
Lemma flut_pends f spec input output dir ofreq q freq bkey md dbg san r :
  run_ends T Y (do_run_flut T Y f spec input output dir ofreq q freq bkey md dbg san) f r ->
  pends (fun r' f' => rmatch r' f' r) ((None, Doing (work_flut T Y spec input output dir ofreq q freq bkey md dbg san)), f).
Proof.
  intros RE. eapply run_pends; [exact RE|]. cbn [wmatch]. next_match. cbn [wmatch]. eexists; split; [reflexivity|]. intros [ekey ik]. next_match.
  destruct dbg as [d|]; do 5 next_match; apply monitor_match; intros; apply last_match.
Qed.
Lemma block_pends f spec input output q bkey san r : run_ends T Y (do_run_block T Y f spec input output q bkey san) f r ->
  pends (fun r' f' => rmatch r' f' r) ((None, Doing (work_block T Y spec input output q bkey san)), f).
Proof.
  intros RE. eapply run_pends; [exact RE|]. cbn [wmatch]. next_match. cbn [wmatch]. eexists; split; [reflexivity|]. intros [ekey ik].
  do 3 next_match. apply monitor_match. intros. apply last_match.
Qed.
End Cmds.
