(** C68: commands that run at the same time in one directory.

    [all_end ps f Q]: every execution of the processes ps, in whatever order they and their threads make
    their steps, is finite and ends with Q.  [alone l f r g]: the commands l, run by themselves in the
    directory f, always end with the outcome r and leave the files g. *)
From Coq Require Import List Arith Bool NArith ZArith Ascii Lia.
Import ListNotations.
From Verif Require Import Base BaseFacts GraphModel Spec GraphFacts TextModel BitsModel TorusModel TfheSpec RunnerModel RunnerSpec
  ReachFacts PropsRunner ParModel StreamModel ClientModel CmdModel CmdSpec CmdFacts PropsCmd CrashModel CrashFacts
  ProcModel ProcSpec ProcFacts ProcFacts2 ProcFacts3.

Lemma ordered_pairs {A} (R : A -> A -> Prop) l : (forall i j a b, i < j -> nth_error l i = Some a -> nth_error l j = Some b -> R a b) ->
  ForallOrdPairs R l.
Proof.
  induction l as [|x l IH]; intros H; constructor.
  - apply Forall_forall. intros y IY. apply In_nth_error in IY as [j HJ]. apply (H 0 (S j)); auto. lia.
  - apply IH. intros i j a b L HA HB. apply (H (S i) (S j)); auto. lia.
Qed.

(** If no process writes a file that another one reads or writes, all of them end, whatever the
    interleaving; each prints what it prints alone and leaves the files it leaves alone; and a file that
    none of them writes stays as it is. *)
Theorem C68_together f jobs :
  (forall a, In a jobs -> Forall (within (j_reads a) (j_writes a)) (j_script a) /\ alone (j_script a) f (j_result a) (j_files a)) ->
  (forall i j a b p, i <> j -> nth_error jobs i = Some a -> nth_error jobs j = Some b -> j_writes a p -> ~ j_reads b p /\ ~ j_writes b p) ->
  all_end (map (fun a => begin (j_script a)) jobs) f (fun ps f' =>
    Forall2 (fun a q => stopped q (j_result a)) jobs ps /\
    (forall a p, In a jobs -> j_reads a p \/ j_writes a p -> f' p = j_files a p) /\
    (forall p, (forall a, In a jobs -> ~ j_writes a p) -> f' p = f p)).
Proof.
  intros HJ HS. apply together.
  - apply Forall_forall. exact HJ.
  - apply ordered_pairs. intros i j x y L HX HY.
    rewrite nth_error_map in HX, HY. destruct (nth_error jobs i) as [a|] eqn:HA; [|discriminate]. destruct (nth_error jobs j) as [b|] eqn:HB; [|discriminate].
    injection HX as <-. injection HY as <-. intros p. unfold reads_or_writes, job_access. cbn [fst snd].
    pose proof (HS i j a b p ltac:(lia) HA HB). pose proof (HS j i b a p ltac:(lia) HB HA). intuition.
Qed.

(** Commands one after another. *)
Definition prefixed (d : text) (r : res text) : res text := match r with Ok t => Ok (d ++ t) | Fail e => Fail e end.
Lemma smove_shift d out st l f f' o1 st1 l1 f1' : same_files f f' -> smove ((d ++ out, st, l), f') ((o1, st1, l1), f1') ->
  exists out1 f1, o1 = d ++ out1 /\ smove ((out, st, l), f) ((out1, st1, l1), f1) /\ same_files f1 f1'.
Proof.
  intros SF M. inversion M; subst.
  - match goal with H : pmove _ _ |- _ =>
      destruct (pmove_local (fun _ => True) (fun _ => True) st f' st1 f1' f (pin_all _)) as (f1 & M' & A & _); [intros p _; apply SF|exact H|] end.
    exists out, f1. split; [reflexivity|]. split; [constructor; exact M'|]. intros p. apply A. auto.
  - exists (out ++ t), f. rewrite app_assoc. split; [reflexivity|]. split; [constructor|exact SF].
Qed.
Lemma same_sym (f g : fs) : same_files f g -> same_files g f.
Proof. intros H p. symmetry. apply H. Qed.
Lemma smove_unshift d out st l f f' out1 st1 l1 f1 : same_files f f' -> smove ((out, st, l), f) ((out1, st1, l1), f1) ->
  exists f1', smove ((d ++ out, st, l), f') ((d ++ out1, st1, l1), f1').
Proof.
  intros SF M. inversion M; subst.
  - match goal with H : pmove _ _ |- _ =>
      destruct (pmove_local (fun _ => True) (fun _ => True) st f st1 f1 f' (pin_all _)) as (f2 & M' & _); [intros p _; symmetry; apply SF|exact H|] end.
    exists f2. constructor. exact M'.
  - exists f'. rewrite app_assoc. constructor.
Qed.
Lemma stopped_shift d out st l r : stopped (out, st, l) r -> stopped (d ++ out, st, l) (prefixed d r).
Proof. destruct st as [o [w|k|k|[t|e]]]; cbn; try contradiction; [destruct l; [|contradiction]|]; intros ->; cbn; rewrite ?app_assoc; reflexivity. Qed.
Lemma sends_shift (Q : res text -> fs -> Prop) d x : sends Q x -> forall out st l f f', x = ((out, st, l), f) -> same_files f f' ->
  sends (fun r' g' => exists r g, r' = prefixed d r /\ same_files g g' /\ Q r g) ((d ++ out, st, l), f').
Proof.
  induction 1 as [q r f0 ST HQ|x NS _ IH]; intros out st l f f' E SF.
  - injection E as -> ->. eapply se_end; [apply stopped_shift; exact ST|]. exists r, f. auto.
  - subst x. apply se_step.
    + intros N. apply NS. intros [[[o1 s1] l1] f1] M. destruct (smove_unshift d _ _ _ _ _ _ _ _ _ SF M) as (f2 & M'). eapply N; eauto.
    + intros [[[o1 s1] l1] f1] M. destruct (smove_shift d _ _ _ _ _ _ _ _ _ SF M) as (out1 & f2 & -> & M' & SF'). eapply IH; eauto.
Qed.
Lemma sends_mono (Q Q' : res text -> fs -> Prop) x : (forall r f, Q r f -> Q' r f) -> sends Q x -> sends Q' x.
Proof. intros H S. induction S; [eapply se_end; eauto|apply se_step; auto]. Qed.
Lemma alone_sends l f r g : alone l f r g -> sends (fun r' f' => r' = r /\ same_files g f') (begin l, f).
Proof.
  intros A. apply alone_iff in A as [A H].
  assert (G : forall x, Acc (fun y x => smove x y) x -> smoves (begin l, f) x -> sends (fun r' f' => r' = r /\ same_files g f') x).
  { intros x AX. induction AX as [[q f'] _ IH]. intros M.
    assert (D : (exists r', stopped q r') \/ forall r', ~ stopped q r').
    { destruct q as [[out [o [w|k|k|[t|e]]]] rest]; cbn; auto; [|left; eauto]. destruct rest; [left; eauto|auto]. }
    assert (I : forall y, smove (q, f') y -> sends (fun r' f' => r' = r /\ same_files g f') y).
    { intros y My. apply IH; auto. eapply sm_step; eauto. }
    destruct D as [[r' ST]|N].
    - destruct (H q f' M) as [ST' SF]; [intros y My; eapply stopped_stuck; eauto|]. eapply se_end; [exact ST'|]. auto.
    - apply se_step; auto. intros NM. destruct (H q f' M NM) as [ST' _]. eapply N; eauto. }
  apply G; [exact A|constructor].
Qed.
Lemma sends_app (Q1 Q : res text -> fs -> Prop) w l2 : (forall r g, Q1 r g -> match r with Ok t => sends Q ((t, (None, Doing w), l2), g) | Fail e => Q (Fail e) g end) ->
  forall x, sends Q1 x -> forall out st l1 f, x = ((out, st, l1), f) -> sends Q ((out, st, l1 ++ w :: l2), f).
Proof.
  intros HQ x S. induction S as [q r f0 ST H1|x NS _ IH]; intros out st l1 f E.
  - injection E as -> ->. specialize (HQ _ _ H1). destruct st as [o [w'|k|k|[t|e]]]; cbn in ST; try contradiction.
    + destruct l1; [|contradiction]. subst r. cbn [app]. apply se_step; [intros N; eapply N; apply s_next|].
      intros y M. inversion M; subst; [exfalso; eapply ended_stuck; eauto|exact HQ].
    + subst r. eapply se_end; [|exact HQ]. reflexivity.
  - subst x. apply se_step.
    + intros N. apply NS. intros y M. inversion M; subst; [eapply N; constructor; eauto|eapply N; apply (s_next out o t w0 (l ++ w :: l2))].
    + intros y M. inversion M; subst.
      * eapply IH; [|reflexivity]. constructor. eassumption.
      * destruct l1 as [|w1 l1].
        -- exfalso. apply NS. intros y' M'. inversion M'; subst. eapply ended_stuck; eauto.
        -- cbn [app] in *. match goal with H : _ :: _ = _ :: _ |- _ => injection H; intros; subst end. eapply IH; [|reflexivity]. constructor.
Qed.
Theorem C68_then l1 l2 f t g r h : alone l1 f (Ok t) g -> alone l2 g r h ->
  alone (l1 ++ l2) f (match r with Ok u => Ok (t ++ u) | Fail e => Fail e end) h.
Proof.
  intros A1 A2. apply alone_sends in A1, A2. apply sends_alone. fold (prefixed t r).
  destruct l1 as [|w1 l1].
  - cbn [app]. assert (E : t = [] /\ same_files g f).
    { inversion A1; subst.
      - cbn in H1. destruct H2 as [-> SF]. split; [congruence|exact SF].
      - exfalso. apply H. intros y M. inversion M; subst. eapply ended_stuck; eauto. }
    destruct E as [-> SF]. destruct (begin l2) as [[o s] l] eqn:EB.
    pose proof (sends_shift _ [] _ A2 _ _ _ _ f eq_refl (same_sym _ _ (same_sym _ _ SF))) as S. cbn [app] in S.
    eapply sends_mono; [|exact S]. intros r' f' (r0 & g0 & -> & SG & -> & SH). split; [reflexivity|]. intros p. rewrite SG. apply SH.
  - destruct l2 as [|w2 l2].
    + rewrite app_nil_r. assert (E : r = Ok [] /\ same_files h g).
      { inversion A2; subst.
        - cbn in H1. destruct H2 as [-> SF]. split; [congruence|exact SF].
        - exfalso. apply H. intros y M. inversion M; subst. eapply ended_stuck; eauto. }
      destruct E as [-> SF]. cbn [prefixed]. rewrite app_nil_r.
      eapply sends_mono; [|exact A1]. intros r' f' (-> & SG). split; [reflexivity|]. intros p. rewrite SG. apply SF.
    + cbn [begin app] in *. eapply sends_app; [|exact A1|reflexivity].
      intros r' g' [-> SF]. cbn [begin] in A2. pose proof (sends_shift _ t _ A2 _ _ _ _ g' eq_refl SF) as S. rewrite app_nil_r in S.
      eapply sends_mono; [|exact S]. intros r' f' (r0 & g0 & -> & SG & -> & SH). split; [reflexivity|]. intros p. rewrite SG. apply SH.
Qed.
Lemma pends_alone w f r g : pends (ended_as r g) ((None, Doing w), f) -> alone [w] f r g.
Proof.
  intros P. apply sends_alone. cbn [begin]. apply sends_seq. eapply pends_mono; [|exact P].
  intros r' f' [-> SF]. destruct r; split; auto.
Qed.
Lemma run_alone w f g : pends (fun r' f' => rmatch r' f' (Ok g)) ((None, Doing w), f) -> alone [w] f (Ok []) g.
Proof. intros P. apply pends_alone. eapply pends_mono; [|exact P]. intros [t|e] f' H; cbn in H; [|contradiction]. destruct H as [-> SF]. split; auto. Qed.
Lemma run_alone_fails w f e : pends (fun r' f' => rmatch r' f' (Fail e)) ((None, Doing w), f) ->
  all_end [begin [w]] f (fun ps f' => exists q, ps = [q] /\ stopped q (Fail e)).
Proof.
  intros P. assert (S : sends (fun r' _ => r' = Fail e) (begin [w], f)).
  { cbn [begin]. apply sends_seq. eapply pends_mono; [|exact P]. intros [t|e'] f' H; cbn in H; [contradiction|congruence]. }
  clear P. generalize dependent (begin [w]). intros q0 S. split.
  - apply acc_single. induction S as [q r' f' ST _|x _ _ IH]; constructor; auto. intros y M. exfalso. eapply stopped_stuck; eauto.
  - intros ps f' M ST.
    assert (G : forall x y, wmoves x y -> forall q, fst x = [q] -> sends (fun r' _ => r' = Fail e) (q, snd x) ->
               exists q', fst y = [q'] /\ sends (fun r' _ => r' = Fail e) (q', snd y)).
    { intros x y MM. induction MM as [x|x y z MM _ IH]; intros q E HS; [eauto|]. destruct x as [px fx]. cbn in E. subst px.
      apply wmove_cons_inv in MM as [(q' & h & -> & MY)|(ps' & h & _ & MY)]; [|exfalso; eapply wmove_nil; eauto].
      apply (IH q'); auto. eapply sends_move; eauto. }
    destruct (G _ _ M q0 eq_refl S) as (q' & E & S'). cbn in E, S'. subst ps. exists q'. split; [reflexivity|].
    inversion S'; subst; [assumption|]. exfalso. match goal with H : ~ (forall y, ~ smove _ y) |- _ => apply H end.
    intros [q2 f2] MY. eapply ST. apply wmove_here. exact MY.
Qed.

Section Commands.
Context (T : tfhe) (Y : crypto T).

(** Each command, run alone, does what the model of the single command says. *)
Theorem C68_genkey f o g : do_genkey T Y f o = Ok g -> alone [work_genkey T Y o] f (Ok []) g.
Proof. intros [= <-]. apply pends_alone. apply genkey_pends. Qed.
Theorem C68_genbkey f s o : match do_genbkey T Y f s o with
  | Ok g => alone [work_genbkey T Y s o] f (Ok []) g
  | Fail e => alone [work_genbkey T Y s o] f (Fail e) f
  end.
Proof. pose proof (genbkey_pends T Y f s o) as P. destruct (do_genbkey T Y f s o); apply pends_alone; exact P. Qed.
Theorem C68_enc f s i o ap coin : match do_enc T Y f s i o ap coin with
  | Ok g => alone [work_enc T Y s i o ap coin] f (Ok []) g
  | Fail e => exists g, alone [work_enc T Y s i o ap coin] f (Fail e) g /\ (forall p, p <> o -> g p = f p)
  end.
Proof.
  destruct (enc_pends T Y f s i o ap coin) as (g & F & P). destruct (do_enc T Y f s i o ap coin) as [h|e].
  - destruct P as [SF P]. apply pends_alone. eapply pends_mono; [|exact P]. intros r f' [-> SG]. split; [reflexivity|]. intros p. rewrite SG. symmetry. apply SF.
  - exists g. split; [|exact F]. apply pends_alone. exact P.
Qed.
Theorem C68_dec f s i : match do_dec T Y f s i with
  | Ok t => alone [work_dec T Y s i] f (Ok t) f
  | Fail e => alone [work_dec T Y s i] f (Fail e) f
  end.
Proof. pose proof (dec_pends T Y f s i) as P. destruct (do_dec T Y f s i); apply pends_alone; exact P. Qed.
Theorem C68_plain f s i ap : match run_plain f s i ap with
  | Ok t => alone [work_plain s i ap] f (Ok t) f
  | Fail e => alone [work_plain s i ap] f (Fail e) f
  end.
Proof. pose proof (plain_pends f s i ap) as P. destruct (run_plain f s i ap); apply pends_alone; exact P. Qed.

Lemma run_does w f r : pends (fun r' f' => rmatch r' f' r) ((None, Doing w), f) -> does w f r.
Proof. destruct r; [apply run_alone|apply run_alone_fails]. Qed.
Theorem C68_offline f spec input output freq bkey san r :
  run_ends T Y (do_run_offline T Y f spec input output freq bkey san) f r ->
  does (work_offline T Y spec input output freq bkey san) f r.
Proof. intros H. apply run_does. apply offline_pends. exact H. Qed.
Theorem C68_reverse f spec input output dir ofreq freq sr bkey san r :
  run_ends T Y (do_run_reverse T Y f spec input output dir ofreq freq sr bkey san) f r ->
  does (work_reverse T Y spec input output dir ofreq freq sr bkey san) f r.
Proof. intros H. apply run_does. apply reverse_pends. exact H. Qed.
Theorem C68_flut f spec input output dir ofreq q freq bkey md dbg san r :
  run_ends T Y (do_run_flut T Y f spec input output dir ofreq q freq bkey md dbg san) f r ->
  does (work_flut T Y spec input output dir ofreq q freq bkey md dbg san) f r.
Proof. intros H. apply run_does. apply flut_pends. exact H. Qed.
Theorem C68_block f spec input output q bkey san r :
  run_ends T Y (do_run_block T Y f spec input output q bkey san) f r ->
  does (work_block T Y spec input output q bkey san) f r.
Proof. intros H. apply run_does. apply block_pends. exact H. Qed.

(** The files they read and write: those on the command line. *)
Lemma within_det {X} R W (r : res X) k : (forall x, within R W (k x)) -> within R W (wdet r k).
Proof. intros H. exact H. Qed.
Lemma within_store (R W : text -> Prop) p b k : W p -> within R W k -> within R W (wstore p b k).
Proof. intros H K. cbn. auto. Qed.
Lemma within_mono (R R' W W' : text -> Prop) w : (forall p, R p -> R' p) -> (forall p, W p -> W' p) -> within R W w -> within R' W' w.
Proof.
  intros HR HW. induction w; cbn [within]; intros H'; auto; try (destruct H' as [HA HB]; split; auto); auto.
Qed.
Lemma within_monitor {St} (R W : text -> Prop) (feed : St -> trgsw T -> outcomes St) ask input out dir freq finish :
  (forall p, outputs out dir p -> W p) -> (forall s, within R W (finish s)) -> forall fuel i s,
  within R W (monitor_work T Y feed ask input dir freq finish fuel i s).
Proof.
  intros HW HF. induction fuel as [|fuel IH]; intros i s; cbn [monitor_work within]; intros n; (destruct (n =? 0); [apply HF|]); cbn [within]; auto.
  intros c s1. destruct dir as [d|]; [|apply IH]. destruct (freq =? 0); [exact I|]. destruct (i mod freq =? freq - 1); [|apply IH].
  cbn [within]. intros [c' s2]. destruct (path_eqb _ _); [exact I|]. apply within_store; [|apply IH].
  apply HW. right. exists d, (i + 1). split; [reflexivity|apply report_path].
Qed.
Lemma within_last {St} (R W : text -> Prop) (ask : St -> outcomes (tlwe * St)) out dir n s : (forall p, outputs out dir p -> W p) -> within R W (last_work T ask out dir n s).
Proof.
  intros HW. cbn [last_work within]. intros [c s']. destruct out as [o|]; [|destruct dir as [d|]].
  - apply within_store; [|exact I]. apply HW. left. reflexivity.
  - apply within_store; [|exact I]. apply HW. right. exists d, n. split; [reflexivity|apply report_path].
  - exact I.
Qed.

Ltac acc := repeat first
  [ exact I | progress cbn [within wdet wstore In work_genkey work_genbkey work_enc work_dec work_plain]
  | match goal with
    | |- forall _ : bool * bool, _ => intros [? ?]
    | |- forall x, _ => let x := fresh "x" in intros x
    | |- _ /\ _ => split
    | |- _ = _ => reflexivity
    | |- _ \/ _ => solve [auto 8]
    end ].
Theorem C68_files s i o ap coin bkey spec input output dir ofreq freq q md dbg sr san out1 :
  within (fun _ => False) (eq o) (work_genkey T Y o) /\
  within (eq s) (eq o) (work_genbkey T Y s o) /\
  within (fun p => In p [s; i]) (eq o) (work_enc T Y s i o ap coin) /\
  within (fun p => In p [s; i]) (fun _ => False) (work_dec T Y s i) /\
  within (fun p => In p [spec; i]) (fun _ => False) (work_plain spec i ap) /\
  within (fun p => In p [spec; input; bkey]) (eq out1) (work_offline T Y spec input out1 freq bkey san) /\
  within (fun p => In p [spec; input; bkey]) (outputs output dir) (work_reverse T Y spec input output dir ofreq freq sr bkey san) /\
  within (fun p => In p [spec; input; bkey] \/ dbg = Some p) (outputs output dir) (work_flut T Y spec input output dir ofreq q freq bkey md dbg san) /\
  within (fun p => In p [spec; input; bkey]) (eq out1) (work_block T Y spec input out1 q bkey san).
Proof.
  assert (EW : forall p, outputs (Some out1) None p -> out1 = p).
  { intros p [[= ->]|(d & j & [=] & _)]. reflexivity. }
  split; [acc|]. split; [acc|]. split; [acc|]. split; [acc|]. split; [acc|]. split; [|split; [|split]].
  - unfold work_offline. acc. match goal with |- within _ _ (offline_work _ _ ?n ?r _) => generalize r; generalize n end. clear.
    intros n. induction n as [|n IH]; intros r; cbn [offline_work]; acc. apply IH.
  - unfold work_reverse. acc. apply (within_monitor _ _ _ _ _ output); auto. intros s0. apply within_last. auto.
  - unfold work_flut. acc. destruct dbg as [d|]; acc; apply (within_monitor _ _ _ _ _ output); auto; intros s0; apply within_last; auto.
  - unfold work_block. acc. apply (within_monitor _ _ _ _ _ (Some out1)); auto. intros s0. apply within_last. auto.
Qed.
End Commands.

Section Sessions.
Context (T : tfhe) (s0 s1 : list Z) (bit : trgsw T -> bool -> Prop) (E : noise) (Y : crypto T).
Hypothesis OK : tfhe_ok T s0 s1 bit E.
Hypothesis NN : noise_nonneg E.
Hypothesis YO : crypto_ok T Y s1 bit.

(** One user alone gets the answer of run plain. *)
Theorem C68_user f u printed :
  keys_at Y f (u_skey u) (u_bkey u) -> user_ok T Y E f u printed ->
  ~ In (u_cipher u) [u_skey u; u_bkey u; u_spec u; u_input u] -> u_output u <> u_skey u ->
  exists g, alone (u_script T Y u) f (Ok printed) g.
Proof.
  destruct u as [skey bkey spec input cipher output ap coin m]. unfold user_ok, u_script, u_run. cbn [u_skey u_bkey u_spec u_input u_cipher u_output u_ap u_coin u_mode].
  intros HK (H0 & RP & g & bytes & EG & HI & MO & L64) NC NO.
  assert (G : exists f1 f2, do_enc T Y f skey input cipher ap coin = Ok f1 /\
    alone [u_run T Y (mkUser skey bkey spec input cipher output ap coin m)] f1 (Ok []) f2 /\ do_dec T Y f2 skey output = Ok printed).
  { unfold u_run. cbn [u_skey u_bkey u_spec u_input u_cipher u_output u_ap u_coin u_mode].
    destruct m as [interval|freq interval|q interval d freq|q]; cbn [mode_ok] in MO.
    - destruct MO as (M1 & M2 & M3).
      edestruct (C35_offline T s0 s1 bit E Y OK NN YO f skey bkey spec input cipher output ap interval coin bytes printed) as (f1 & f2 & A & B & C & _); auto.
      exists f1, f2. split; [exact A|]. split; [|exact C]. exact (C68_offline T Y _ _ _ _ _ _ _ _ B).
    - destruct MO as (M1 & M2).
      edestruct (C35_reverse T s0 s1 bit E Y OK NN YO f skey bkey spec input cipher output ap interval freq coin bytes printed) as (f1 & f2 & A & B & C & _); auto.
      exists f1, f2. split; [exact A|]. split; [|exact C]. exact (C68_reverse T Y _ _ _ _ _ _ _ _ _ _ _ B).
    - destruct MO as (M1 & M2 & M3 & M4 & M5 & M6).
      edestruct (C35_flut T s0 s1 bit E Y OK NN YO f skey bkey spec input cipher output ap q interval d freq coin bytes g printed) as (f1 & f2 & A & B & C & _); auto.
      exists f1, f2. split; [exact A|]. split; [|exact C]. exact (C68_flut T Y _ _ _ _ _ _ _ _ _ _ _ _ _ B).
    - destruct MO as (M1 & M2 & M3 & M4).
      edestruct (C35_block T s0 s1 bit E Y OK NN YO f skey bkey spec input cipher output ap q coin bytes g printed) as (f1 & f2 & A & B & C & _); auto.
      { intros ->. unfold nbits in M1. cbn [length] in M1. rewrite Nat.div_0_l in M1; [lia|]. pose proof (Nat.div_le_mono 8 (ap + 7) 8 ltac:(lia) ltac:(lia)) as D. change (8 / 8) with 1 in D. lia. }
      exists f1, f2. split; [exact A|]. split; [|exact C]. exact (C68_block T Y _ _ _ _ _ _ _ _ B). }
  destruct G as (f1 & f2 & A & B & C). exists f2.
  pose proof (C68_enc T Y f skey input cipher ap coin) as A'. rewrite A in A'.
  pose proof (C68_dec T Y f2 skey output) as C'. rewrite C in C'.
  pose proof (C68_then _ _ _ _ _ _ _ B C') as BC. cbn [app] in BC.
  pose proof (C68_then _ _ _ _ _ _ _ A' BC) as ABC. cbn [app] in ABC. exact ABC.
Qed.
Theorem C68_session f u printed : user_ok T Y E f u printed ->
  NoDup [u_skey u; u_bkey u; u_cipher u] -> u_output u <> u_skey u ->
  (forall p, In p [u_spec u; u_input u] -> ~ In p [u_skey u; u_bkey u; u_cipher u]) ->
  exists g, alone (u_session T Y u) f (Ok printed) g.
Proof.
  intros UO ND NO NS.
  assert (NK : u_skey u <> u_bkey u /\ u_skey u <> u_cipher u /\ u_bkey u <> u_cipher u).
  { repeat match goal with H : NoDup (_ :: _) |- _ => apply NoDup_cons_iff in H as (? & H) end. cbn [In] in *. intuition. }
  destruct NK as (N1 & N2 & N3).
  pose proof (NS _ (or_introl eq_refl)) as NP. pose proof (NS _ (or_intror (or_introl eq_refl))) as NI. cbn [In] in NP, NI.
  destruct (C49_keys T s1 bit Y YO f (u_skey u) (u_bkey u) N1) as (f1 & f2 & A & B & K & F).
  assert (FS : f2 (u_spec u) = f (u_spec u)) by (apply F; intuition).
  assert (FI : f2 (u_input u) = f (u_input u)) by (apply F; intuition).
  destruct (C68_user f2 u printed) as (g & U); auto.
  - destruct UO as (H0 & RP & g & bytes & EG & HI & MO & L64). split; [exact H0|]. split.
    + rewrite <- RP. unfold run_plain, from_file, open_file. rewrite FS, FI. reflexivity.
    + exists g, bytes. unfold from_file, open_file in *. rewrite FS, FI. auto.
  - cbn [In]. intuition.
  - exists g. pose proof (C68_genkey T Y f (u_skey u) f1 A) as A'.
    pose proof (C68_genbkey T Y f1 (u_skey u) (u_bkey u)) as B'. rewrite B in B'.
    pose proof (C68_then _ _ _ _ _ _ _ B' U) as BU. cbn [app] in BU.
    pose proof (C68_then _ _ _ _ _ _ _ A' BU) as ABU. cbn [app] in ABU. exact ABU.
Qed.

Lemma u_script_within u : Forall (within (fun p => In p (u_names u)) (fun p => In p [u_cipher u; u_output u])) (u_script T Y u).
Proof.
  destruct u as [skey bkey spec input cipher output ap coin m]. unfold u_script, u_run, u_names. cbn [u_skey u_bkey u_spec u_input u_cipher u_output u_ap u_coin u_mode].
  assert (OW : forall p, outputs (Some output) None p -> In p [cipher; output]).
  { intros p [[= ->]|(d & j & [=] & _)]. cbn; auto. }
  constructor; [|constructor; [|constructor; [|constructor]]].
  - pose proof (C68_files T Y skey input cipher ap coin bkey spec cipher None None 0 0 0 None None false false cipher) as (_ & _ & W & _).
    eapply within_mono; [| |exact W]; cbn [In]; intuition.
  - destruct m as [interval|freq interval|q interval d freq|q].
    + pose proof (C68_files T Y skey input cipher ap coin bkey spec cipher None None 0 interval 0 None None false false output) as (_ & _ & _ & _ & _ & W & _).
      eapply within_mono; [| |exact W]; cbn [In]; intuition.
    + pose proof (C68_files T Y skey input cipher ap coin bkey spec cipher (Some output) None freq interval 0 None None false false output) as (_ & _ & _ & _ & _ & _ & W & _).
      eapply within_mono; [|exact OW|exact W]; cbn [In]; intuition.
    + pose proof (C68_files T Y skey input cipher ap coin bkey spec cipher (Some output) None freq interval q (Some d) None false false output) as (_ & _ & _ & _ & _ & _ & _ & W & _).
      eapply within_mono; [|exact OW|exact W]; cbn [In]; intuition discriminate.
    + pose proof (C68_files T Y skey input cipher ap coin bkey spec cipher None None 0 0 q None None false false output) as (_ & _ & _ & _ & _ & _ & _ & _ & W).
      eapply within_mono; [| |exact W]; cbn [In]; intuition.
  - pose proof (C68_files T Y skey output cipher ap coin bkey spec cipher None None 0 0 0 None None false false cipher) as (_ & _ & _ & W & _).
    eapply within_mono; [| |exact W]; cbn [In]; intuition.
Qed.
Lemma u_session_within u : Forall (within (fun p => In p (u_names u)) (fun p => In p [u_skey u; u_bkey u; u_cipher u; u_output u])) (u_session T Y u).
Proof.
  constructor; [|constructor].
  - pose proof (C68_files T Y [] [] (u_skey u) 0 0 [] [] [] None None 0 0 0 None None false false []) as (W & _).
    eapply within_mono; [| |exact W]; cbn [In]; intuition.
  - pose proof (C68_files T Y (u_skey u) [] (u_bkey u) 0 0 [] [] [] None None 0 0 0 None None false false []) as (_ & W & _).
    eapply within_mono; [| |exact W]; cbn [In u_names]; intuition.
  - eapply Forall_impl; [|apply u_script_within]. intros w. apply within_mono; cbn [In]; intuition.
Qed.

(** Any number of users at the same time; they may share keys, specifications and inputs. *)
Lemma many (script : user -> list work) (W : user -> text -> Prop) f us :
  (forall u, Forall (within (fun p => In p (u_names u)) (W u)) (script u)) ->
  (forall u, In u us -> exists printed g, run_plain f (u_spec u) (u_input u) (u_ap u) = Ok printed /\ alone (script u) f (Ok printed) g) ->
  (forall i j u v p, i <> j -> nth_error us i = Some u -> nth_error us j = Some v -> W u p -> ~ In p (u_names v) /\ ~ W v p) ->
  all_end (map (fun u => begin (script u)) us) f (fun ps f' =>
    Forall2 (fun u q => exists printed, run_plain f (u_spec u) (u_input u) (u_ap u) = Ok printed /\ stopped q (Ok printed)) us ps /\
    (forall p, (forall u, In u us -> ~ W u p) -> f' p = f p)).
Proof.
  intros HW HA HS.
  assert (J : exists jobs, Forall2 (fun u a => j_script a = script u /\ j_reads a = (fun p => In p (u_names u)) /\ j_writes a = W u /\
     exists printed, run_plain f (u_spec u) (u_input u) (u_ap u) = Ok printed /\ j_result a = Ok printed /\ alone (script u) f (Ok printed) (j_files a)) us jobs).
  { clear HS. induction us as [|u us IH]; [exists []; constructor|].
    destruct IH as (jobs & F); [intros v HV; apply HA; right; exact HV|]. destruct (HA u (or_introl eq_refl)) as (printed & g & R & A).
    exists (mkJob (script u) (fun p => In p (u_names u)) (W u) (Ok printed) g :: jobs). constructor; [|exact F]. cbn. eauto 8. }
  destruct J as (jobs & F).
  assert (NE : forall i a, nth_error jobs i = Some a -> exists u, nth_error us i = Some u /\ j_script a = script u /\ j_reads a = (fun p => In p (u_names u)) /\ j_writes a = W u /\
     exists printed, run_plain f (u_spec u) (u_input u) (u_ap u) = Ok printed /\ j_result a = Ok printed /\ alone (script u) f (Ok printed) (j_files a)).
  { clear - F. induction F as [|u a us jobs H F IH]; intros [|i] b; cbn; try discriminate; [intros [= <-]; eauto|apply IH]. }
  assert (ME : map (fun u => begin (script u)) us = map (fun a => begin (j_script a)) jobs).
  { clear - F. induction F as [|u a us jobs H F IH]; cbn; [reflexivity|]. destruct H as (-> & _). rewrite IH. reflexivity. }
  rewrite ME. destruct (C68_together f jobs) as [AC EN].
  - intros a HI. apply In_nth_error in HI as [i HI]. destruct (NE _ _ HI) as (u & _ & E1 & E2 & E3 & pr & _ & E4 & A). rewrite E1, E2, E3, E4. auto.
  - intros i j a b p NEQ HI HJ. destruct (NE _ _ HI) as (u & HU & _ & _ & E3 & _). destruct (NE _ _ HJ) as (v & HV & _ & E2' & E3' & _).
    rewrite E3, E2', E3'. eauto.
  - split; [exact AC|]. intros ps f' M ST. destruct (EN ps f' M ST) as (F2 & _ & FR). split.
    + clear - F F2. revert ps F2. induction F as [|u a us jobs H F IH]; intros ps F2; inversion F2; subst; constructor; auto.
      destruct H as (_ & _ & _ & pr & R & E & _). exists pr. split; [exact R|]. rewrite <- E. assumption.
    + intros p HP. apply FR. intros a HI. apply In_nth_error in HI as [i HI]. destruct (NE _ _ HI) as (u & HU & _ & _ & E3 & _). rewrite E3. apply HP. eapply nth_error_In; eauto.
Qed.
(** (the key files are there) *)
Theorem C68_users f us :
  (forall u, In u us -> keys_at Y f (u_skey u) (u_bkey u) /\ (exists printed, user_ok T Y E f u printed) /\
     ~ In (u_cipher u) [u_skey u; u_bkey u; u_spec u; u_input u] /\ u_output u <> u_skey u) ->
  (forall i j u v p, i <> j -> nth_error us i = Some u -> nth_error us j = Some v -> In p [u_cipher u; u_output u] -> ~ In p (u_names v)) ->
  all_end (map (fun u => begin (u_script T Y u)) us) f (fun ps f' =>
    Forall2 (fun u q => exists printed, run_plain f (u_spec u) (u_input u) (u_ap u) = Ok printed /\ stopped q (Ok printed)) us ps /\
    (forall p, (forall u, In u us -> ~ In p [u_cipher u; u_output u]) -> f' p = f p)).
Proof.
  intros HU HS. apply (many (u_script T Y) (fun u p => In p [u_cipher u; u_output u])).
  - apply u_script_within.
  - intros u IU. destruct (HU u IU) as (HK & (pr & UO) & NC & NO). destruct (C68_user f u pr) as (g & A); auto.
    exists pr, g. split; [|exact A]. apply UO.
  - intros i j u v p NEQ Hi Hj HP. pose proof (HS i j u v p NEQ Hi Hj HP) as N. split; [exact N|]. intros HQ. apply N. unfold u_names. cbn [In] in *. intuition.
Qed.
(** (each of them makes key files first) *)
Theorem C68_sessions f us :
  (forall u, In u us -> (exists printed, user_ok T Y E f u printed) /\
     NoDup [u_skey u; u_bkey u; u_cipher u] /\ u_output u <> u_skey u /\
     (forall p, In p [u_spec u; u_input u] -> ~ In p [u_skey u; u_bkey u; u_cipher u])) ->
  (forall i j u v p, i <> j -> nth_error us i = Some u -> nth_error us j = Some v ->
     In p [u_skey u; u_bkey u; u_cipher u; u_output u] -> ~ In p (u_names v)) ->
  all_end (map (fun u => begin (u_session T Y u)) us) f (fun ps f' =>
    Forall2 (fun u q => exists printed, run_plain f (u_spec u) (u_input u) (u_ap u) = Ok printed /\ stopped q (Ok printed)) us ps /\
    (forall p, (forall u, In u us -> ~ In p [u_skey u; u_bkey u; u_cipher u; u_output u]) -> f' p = f p)).
Proof.
  intros HU HS. apply (many (u_session T Y) (fun u p => In p [u_skey u; u_bkey u; u_cipher u; u_output u])).
  - apply u_session_within.
  - intros u IU. destruct (HU u IU) as ((pr & UO) & ND & NO & NS). destruct (C68_session f u pr) as (g & A); auto.
    exists pr, g. split; [|exact A]. apply UO.
  - intros i j u v p NEQ Hi Hj HP. pose proof (HS i j u v p NEQ Hi Hj HP) as N. split; [exact N|]. intros HQ. apply N. unfold u_names. cbn [In] in *. intuition.
Qed.
End Sessions.

(** The condition is needed: genbkey that reads the secret key while genkey writes it anew may fail. *)
Definition ex_race : list process := [begin [work_genkey ex_T ex_Y ["k"%char]]; begin [work_genbkey ex_T ex_Y ["k"%char] ["b"%char]]].
Theorem C68_shared_refuted :
  (exists g, alone [work_genkey ex_T ex_Y ["k"%char]] ex_f (Ok []) g) /\
  (exists g, alone [work_genbkey ex_T ex_Y ["k"%char] ["b"%char]] ex_f (Ok []) g) /\
  exists q1 q2 f', wmoves (ex_race, ex_f) ([q1; q2], f') /\ (forall y, ~ wmove ([q1; q2], f') y) /\ stopped q1 (Ok []) /\ stopped q2 (Fail FExit).
Proof.
  split; [eexists; apply C68_genkey; reflexivity|]. split.
  { pose proof (C68_genbkey ex_T ex_Y ex_f ["k"%char] ["b"%char]) as H.
    destruct (do_genbkey ex_T ex_Y ex_f ["k"%char] ["b"%char]) as [g|e] eqn:EQ; [eauto|vm_compute in EQ; discriminate]. }
  exists ([], (None, Ended (Ok [])), []), ([], (None, Ended (Fail FExit)), []), (write (write ex_f ["k"%char] []) ["k"%char] [7%N]).
  split; [|split; [|split; reflexivity]].
  - unfold ex_race, begin, work_genkey, work_genbkey, wstore.
    eapply ws_step; [apply wmove_here; apply s_step; apply p_create|].
    eapply ws_step; [apply wmove_there; apply wmove_here; apply s_step; apply p_read|].
    eapply ws_step; [apply wmove_there; apply wmove_here; apply s_step; apply p_any_fail; reflexivity|].
    eapply ws_step; [apply wmove_here; apply s_step; apply (p_append ["k"%char] [] [7%N] []); discriminate|].
    eapply ws_step; [apply wmove_here; apply s_step; apply p_appended|].
    eapply ws_step; [apply wmove_here; apply s_step; apply p_end|]. apply ws_refl.
  - intros y M. apply wmove_cons_inv in M as [(q & h & _ & M)|(ps & h & _ & M)].
    + eapply (stopped_stuck _ (Ok [])); [|exact M]. reflexivity.
    + apply wmove_cons_inv in M as [(q & h' & _ & M)|(ps' & h' & _ & M)].
      * eapply (stopped_stuck _ (Fail FExit)); [|exact M]. reflexivity.
      * eapply wmove_nil; eauto.
Qed.

(** Examples: four users of one key pair, one specification and one input, one for each mode; two sessions with keys of their own. *)
Definition ex_users : list user :=
  [mkUser ["k"%char] ["b"%char] ["s"%char] ["i"%char] ["1"%char; "c"%char] ["1"%char; "o"%char] 2 0 (Offline 2);
   mkUser ["k"%char] ["b"%char] ["s"%char] ["i"%char] ["2"%char; "c"%char] ["2"%char; "o"%char] 2 9 (Reverse 1 2);
   mkUser ["k"%char] ["b"%char] ["s"%char] ["i"%char] ["3"%char; "c"%char] ["3"%char; "o"%char] 2 5 (Flut 2 2 2 1);
   mkUser ["k"%char] ["b"%char] ["s"%char] ["i"%char] ["4"%char; "c"%char] ["4"%char; "o"%char] 2 3 (Block 2)].
Lemma ex_users_ok u : In u ex_users -> user_ok ex_T ex_Y (toy_noise 1000) ex_f u ["1"%char].
Proof.
  destruct ex_margins as (M1 & M2 & M3). destruct ex_from_file as (EG & W & SG).
  intros HI. repeat (destruct HI as [<-|HI]); try contradiction HI; (split; [cbn; lia|]); (split; [exact ex_plain|]);
    exists ex_g, [1; 2; 1]%N; (split; [exact EG|]); (split; [reflexivity|]); (split; [|vm_compute; reflexivity]); cbn [u_mode u_ap mode_ok].
  - split; [lia|]. split; [exact M1|vm_compute; reflexivity].
  - split; [lia|exact M1].
  - split; [lia|]. split; [lia|]. split; [lia|]. split; [apply FlutFacts.depth_fits; cbn; lia|]. split; [rewrite SG; exact M3|].
    intros n k _ HW. destruct (reach_exists ex_g n) as [l HR].
    rewrite (width_unique _ _ _ _ HW (reach_width _ W _ _ HR)).
    pose proof (reach_len _ W _ _ HR) as HL. rewrite SG in HL. cbn. lia.
  - split; [vm_compute; lia|]. split; [unfold block_margin, block_noise in *; rewrite SG; exact M2|]. rewrite SG. cbn. lia.
Qed.
Example C68_users_nonvacuous :
  all_end (map (fun u => begin (u_script ex_T ex_Y u)) ex_users) ex_f (fun ps f' =>
    Forall (fun q => stopped q (Ok ["1"%char])) ps /\ f' ["k"%char] = ex_f ["k"%char]).
Proof.
  destruct ex_contract as (H1 & H2).
  destruct (C68_users ex_T _ _ _ _ ex_Y H1 H2 ex_crypto ex_f ex_users) as [A B].
  - intros u HI. split; [|split; [exists ["1"%char]; apply ex_users_ok; exact HI|]].
    + repeat (destruct HI as [<-|HI]); try contradiction HI; exact ex_keys.
    + repeat (destruct HI as [<-|HI]); try contradiction HI; split; cbn; intuition discriminate.
  - intros i j u v p NEQ HI HJ.
    do 4 (destruct i as [|i]; [injection HI as <-; do 4 (destruct j as [|j]; [try lia; injection HJ as <-; cbn; intros [<-|[<-|[]]]; intuition discriminate|]); destruct j; discriminate|]).
    destruct i; discriminate.
  - split; [exact A|]. intros ps f' M ST. destruct (B ps f' M ST) as [F G]. split.
    + assert (X : forall us, (forall u, In u us -> In u ex_users) -> forall ps, Forall2 (fun u q => exists printed,
        run_plain ex_f (u_spec u) (u_input u) (u_ap u) = Ok printed /\ stopped q (Ok printed)) us ps -> Forall (fun q => stopped q (Ok ["1"%char])) ps).
      { clear. induction us as [|u us IH]; intros HS ps F; inversion F; subst; constructor.
        - destruct H1 as (pr & R & S). assert (R' : run_plain ex_f (u_spec u) (u_input u) (u_ap u) = Ok ["1"%char]) by (apply ex_users_ok; apply HS; left; reflexivity).
          rewrite R' in R. injection R as <-. exact S.
        - apply IH; auto. intros v HV. apply HS. right. exact HV. }
      eapply X; [|exact F]. auto.
    + apply G. intros u HI. repeat (destruct HI as [<-|HI]); try contradiction HI; cbn; intuition discriminate.
Qed.
Definition ex_sessions : list user :=
  [mkUser ["1"%char; "k"%char] ["1"%char; "b"%char] ["s"%char] ["i"%char] ["1"%char; "c"%char] ["1"%char; "o"%char] 2 0 (Offline 2);
   mkUser ["2"%char; "k"%char] ["2"%char; "b"%char] ["s"%char] ["i"%char] ["2"%char; "c"%char] ["2"%char; "o"%char] 2 3 (Block 2)].
Example C68_sessions_nonvacuous :
  all_end (map (fun u => begin (u_session ex_T ex_Y u)) ex_sessions) ex_f (fun ps f' =>
    Forall (fun q => stopped q (Ok ["1"%char])) ps).
Proof.
  destruct ex_contract as (H1 & H2).
  assert (UO : forall u, In u ex_sessions -> user_ok ex_T ex_Y (toy_noise 1000) ex_f u ["1"%char]).
  { intros u HI. repeat (destruct HI as [<-|HI]); try contradiction HI.
    - exact (ex_users_ok _ (or_introl eq_refl)).
    - exact (ex_users_ok _ (or_intror (or_intror (or_intror (or_introl eq_refl))))). }
  destruct (C68_sessions ex_T _ _ _ _ ex_Y H1 H2 ex_crypto ex_f ex_sessions) as [A B].
  - intros u HI. split; [exists ["1"%char]; apply UO; exact HI|].
    repeat (destruct HI as [<-|HI]); try contradiction HI; (split; [|split; [discriminate|cbn; intuition (subst; intuition discriminate)]]);
      repeat constructor; cbn; intuition discriminate.
  - intros i j u v p NEQ HI HJ.
    do 2 (destruct i as [|i]; [injection HI as <-; do 2 (destruct j as [|j]; [try lia; injection HJ as <-; cbn; intros [<-|[<-|[<-|[<-|[]]]]]; intuition discriminate|]); destruct j; discriminate|]).
    destruct i; discriminate.
  - split; [exact A|]. intros ps f' M ST. destruct (B ps f' M ST) as [F _].
    assert (X : forall us, (forall u, In u us -> In u ex_sessions) -> forall ps, Forall2 (fun u q => exists printed,
        run_plain ex_f (u_spec u) (u_input u) (u_ap u) = Ok printed /\ stopped q (Ok printed)) us ps -> Forall (fun q => stopped q (Ok ["1"%char])) ps).
    { clear - UO. induction us as [|u us IH]; intros HS ps F; inversion F; subst; constructor.
      - destruct H1 as (pr & R & S). assert (R' : run_plain ex_f (u_spec u) (u_input u) (u_ap u) = Ok ["1"%char]) by (apply UO; apply HS; left; reflexivity).
        rewrite R' in R. injection R as <-. exact S.
      - apply IH; auto. intros v HV. apply HS. right. exact HV. }
    eapply X; [|exact F]. auto.
Qed.

Print Assumptions C68_together.
Print Assumptions C68_then.
Print Assumptions C68_genkey.
Print Assumptions C68_genbkey.
Print Assumptions C68_enc.
Print Assumptions C68_dec.
Print Assumptions C68_plain.
Print Assumptions C68_offline.
Print Assumptions C68_reverse.
Print Assumptions C68_flut.
Print Assumptions C68_block.
Print Assumptions C68_files.
Print Assumptions C68_user.
Print Assumptions C68_session.
Print Assumptions C68_users.
Print Assumptions C68_sessions.
Print Assumptions C68_shared_refuted.
