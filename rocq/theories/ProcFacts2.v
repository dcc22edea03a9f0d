(** A command that runs alone does what the model of the single command says. *)
From Coq Require Import List Arith Bool NArith ZArith Ascii Lia.
Import ListNotations.
From Verif Require Import Base GraphModel TextModel BitsModel TorusModel RunnerModel ParModel StreamModel ClientModel ClientFacts CmdModel CrashModel CmdFacts CrashFacts ProcModel ProcSpec ProcFacts.

(** Every execution of a process ends, with Q. *)
Inductive pends (Q : res text -> fs -> Prop) : pstate * fs -> Prop :=
| pe_end o r f : Q r f -> pends Q ((o, Ended r), f)
| pe_step x : ~ (forall y, ~ pmove x y) -> (forall y, pmove x y -> pends Q y) -> pends Q x.
Inductive sends (Q : res text -> fs -> Prop) : process * fs -> Prop :=
| se_end q r f : stopped q r -> Q r f -> sends Q (q, f)
| se_step x : ~ (forall y, ~ smove x y) -> (forall y, smove x y -> sends Q y) -> sends Q x.

Lemma ended_stuck o r f y : ~ pmove ((o, Ended r), f) y.
Proof. intros M. inversion M; subst; match goal with H : forall r, _ <> Ended r |- _ => eapply H; reflexivity end. Qed.
Lemma stopped_stuck q r f y : stopped q r -> ~ smove (q, f) y.
Proof.
  intros S M. inversion M; subst; cbn in S.
  - destruct st as [o [w|k|k|[t|e]]]; try contradiction; eapply ended_stuck; eauto.
  - contradiction.
Qed.
Lemma stopped_fun q r r' : stopped q r -> stopped q r' -> r = r'.
Proof. destruct q as [[out [o [w|k|k|[t|e]]]] l]; cbn; try contradiction; [destruct l; [|contradiction]|]; congruence. Qed.

Lemma sends_move Q x y : sends Q x -> smove x y -> sends Q y.
Proof. intros S M. inversion S; subst; auto. exfalso. eapply stopped_stuck; eauto. Qed.
Lemma sends_alone l f r g : sends (fun r' f' => r' = r /\ same_files g f') (begin l, f) -> alone l f r g.
Proof.
  intros S. apply alone_iff. split.
  - induction S as [q r' f' ST _|x _ _ IH]; constructor; auto. intros y M. exfalso. eapply stopped_stuck; eauto.
  - intros q f' M ST. assert (G : forall x, smoves (begin l, f) x -> sends (fun r' f' => r' = r /\ same_files g f') x).
    { clear q f' M ST. assert (H : forall x y, smoves x y -> sends (fun r' f' => r' = r /\ same_files g f') x -> sends (fun r' f' => r' = r /\ same_files g f') y).
      { intros x y M. induction M as [x|x y z _ IH M]; auto. intros H. eapply sends_move; [apply IH; exact H|exact M]. }
      intros x M. eapply H; eauto. }
    specialize (G _ M). remember (q, f') as x eqn:E. destruct G as [q0 r0 f0 S0 [-> SF]|x NS _].
    + injection E as -> ->. auto.
    + exfalso. subst x. auto.
Qed.
Lemma sends_seq Q out st rest f :
  pends (fun r g => match r with
                    | Ok t => match rest with [] => Q (Ok (out ++ t)) g | w :: l => sends Q ((out ++ t, (None, Doing w), l), g) end
                    | Fail e => Q (Fail e) g
                    end) (st, f) ->
  sends Q ((out, st, rest), f).
Proof.
  intros P. remember (st, f) as x eqn:E. revert st f E. induction P as [o r f0 HQ|x NS _ IH]; intros st f E.
  - injection E as <- <-. destruct r as [t|e].
    + destruct rest as [|w l]; [eapply se_end; [|exact HQ]; reflexivity|].
      apply se_step; [intros N; eapply N; apply s_next|]. intros y M. inversion M; subst; [exfalso; eapply ended_stuck; eauto|exact HQ].
    + eapply se_end; [|exact HQ]. destruct rest; reflexivity.
  - subst x. apply se_step; [intros N; apply NS; intros [s1 f1] M; eapply N; constructor; eauto|]. intros y MY. inversion MY; subst.
    + eapply IH; eauto.
    + exfalso. apply NS. intros y' M'. eapply ended_stuck; eauto.
Qed.

Lemma pends_mono (Q Q' : res text -> fs -> Prop) x : (forall r f, Q r f -> Q' r f) -> pends Q x -> pends Q' x.
Proof. intros H P. induction P; [apply pe_end; auto|apply pe_step; auto]. Qed.
Lemma within_all w : within (fun _ => True) (fun _ => True) w.
Proof. induction w; cbn [within]; auto. Qed.
Lemma pin_all st : pin (fun _ => True) (fun _ => True) st.
Proof. destruct st as [o [w|k|k|r]]; cbn; intros; try apply within_all. exact I. Qed.
Lemma pends_ext (Q : res text -> fs -> Prop) st f g : (forall r a b, same_files a b -> Q r a -> Q r b) -> same_files f g -> pends Q (st, f) -> pends Q (st, g).
Proof.
  intros HQ SF P. remember (st, f) as x eqn:E. revert st f g SF E. induction P as [o r f0 H|x NS H IH]; intros st f g SF E.
  - injection E as <- <-. apply pe_end. eauto.
  - subst x. apply pe_step.
    + intros N. apply NS. intros [s1 f1] M. destruct (pmove_local (fun _ => True) (fun _ => True) st f s1 f1 g (pin_all _)) as (g' & M' & _); auto; [intros p _; symmetry; apply SF|]. eapply N; eauto.
    + intros [s2 g2] M2. destruct (pmove_local (fun _ => True) (fun _ => True) st g s2 g2 f (pin_all _)) as (f2 & M' & A & _); auto; [intros p _; apply SF|].
      eapply IH; eauto. intros p. apply A. auto.
Qed.

(** Steps of a process without a stream *)
Lemma pe_read Q p k f : pends Q ((None, Doing (k (f p))), f) -> pends Q ((None, Doing (WRead p k)), f).
Proof. intros P. apply pe_step; [intros N; eapply N; constructor|]. intros y M. inversion M; subst; auto. Qed.
Lemma pe_create Q p k f : pends Q ((None, Doing k), write f p []) -> pends Q ((None, Doing (WCreate p k)), f).
Proof. intros P. apply pe_step; [intros N; eapply N; constructor|]. intros y M. inversion M; subst; auto. Qed.

Definition by_loader (x y : pstate * fs) : Prop :=
  exists kd n s c f, x = ((Some (kd, n, s), c), f) /\ (forall r, c <> Ended r) /\ ((exists s', step kd n Loader s = Some (Ok s') /\ y = ((Some (kd, n, s'), c), f)) \/
     (exists e, step kd n Loader s = Some (Fail e) /\ y = ((Some (kd, n, s), Ended (Fail e)), f))).
(** (a match instead of an inversion: no axiom about equality is needed) *)
Lemma pmove_any_inv x y : pmove x y ->
  match x with
  | ((o, Doing (WAny oc k)), f) =>
      by_loader x y \/ (exists a, oc (Ok a) /\ y = ((o, Doing (k a)), f)) \/ (exists e, oc (Fail e) /\ y = ((o, Ended (Fail e)), f))
  | _ => True
  end.
Proof.
  intros M. destruct M; auto; try (destruct c as [[]| | |]; auto; left; do 5 eexists; split; [reflexivity|]; split; [assumption|]; eauto; fail); eauto.
Qed.
Lemma pe_any {X} (Q : res text -> fs -> Prop) (o : outcomes X) k f : (exists a, o a) ->
  (forall a, o a -> match a with Ok x => pends Q ((None, Doing (k x)), f) | Fail e => Q (Fail e) f end) ->
  pends Q ((None, Doing (WAny o k)), f).
Proof.
  intros [a HA] H. apply pe_step.
  - intros N. destruct a; eapply N; [eapply p_any|eapply p_any_fail]; eauto.
  - intros y M. apply pmove_any_inv in M as [(kd & n & s & c & f0 & E & _)|[(x & Hx & ->)|(e & He & ->)]].
    + discriminate.
    + exact (H _ Hx).
    + apply pe_end. exact (H _ He).
Qed.
Lemma pe_det {X} (Q : res text -> fs -> Prop) (m : res X) k f : match m with Ok x => pends Q ((None, Doing (k x)), f) | Fail e => Q (Fail e) f end ->
  pends Q ((None, Doing (wdet m k)), f).
Proof. intros H. apply pe_any; [exists m; reflexivity|]. intros a ->. exact H. Qed.
Lemma pe_ret (Q : res text -> fs -> Prop) r f : Q r f -> pends Q ((None, Doing (WRet r)), f).
Proof. intros H. apply pe_step; [intros N; eapply N; constructor|]. intros y M. inversion M; subst. apply pe_end; auto. Qed.
Lemma write_twice f p a b q : write (write f p a) p b q = write f p b q.
Proof. unfold write. destruct (path_eqb q p); auto. Qed.
Lemma pe_append (Q : res text -> fs -> Prop) p k : (forall r a b, same_files a b -> Q r a -> Q r b) -> forall more there f, f p = Some there ->
  pends Q ((None, Doing k), write f p (there ++ more)) -> pends Q ((None, Doing (WAppend p there more k)), f).
Proof.
  intros HQ more. remember (length more) as n eqn:EN. revert more EN. induction n as [n IH] using lt_wf_ind. intros more EN there f HF P.
  apply pe_step.
  - intros N. destruct more as [|x more]; eapply N; [apply p_appended|apply (p_append p there [x] more); discriminate].
  - intros y M. inversion M; subst.
    + apply (IH (length b)); auto.
      * rewrite app_length. destruct a; [congruence|cbn; lia].
      * apply write_same.
      * eapply pends_ext; [exact HQ| |exact P]. intros q. rewrite write_twice, <- app_assoc. reflexivity.
    + eapply pends_ext; [exact HQ| |exact P]. intros q. rewrite app_nil_r. unfold write. destruct (path_eqb q p) eqn:E; auto.
      apply path_eqb_iff in E. subst q. auto.
Qed.
Lemma pe_store (Q : res text -> fs -> Prop) p bytes k f : (forall r a b, same_files a b -> Q r a -> Q r b) ->
  pends Q ((None, Doing k), write f p bytes) -> pends Q ((None, Doing (wstore p bytes k)), f).
Proof.
  intros HQ P. apply pe_create. apply pe_append; auto; [apply write_same|].
  eapply pends_ext; [exact HQ| |exact P]. intros q. rewrite write_twice. reflexivity.
Qed.

(** A process with a stream follows the client of the single command *)
Definition rmatch (r : res text) (f : fs) (r' : res fs) : Prop :=
  match r, r' with Ok t, Ok f' => t = [] /\ same_files f' f | Fail e, Fail e' => e = e' | _, _ => False end.
Fixpoint wmatch (w : work) (f : fs) (c : client fs) : Prop :=
  match w with
  | WRet r => exists r', c = PRet r' /\ rmatch r f r'
  | WRead p k => wmatch (k (f p)) f c
  | WOpen _ _ _ _ => False
  | WSize k => exists k', c = PSize k' /\ forall n, wmatch (k n) f (k' n)
  | WNext k => exists k', c = PNext k' /\ forall x, wmatch (k x) f (k' x)
  | WAny o k => exists k', c = PAny o k' /\ forall x, wmatch (k x) f (k' x)
  | WCreate p k => wmatch k (write f p []) c
  | WAppend p d m k => f p = Some d /\ exists t r c', c = PFiles t r c' /\ wmatch k (write f p (d ++ m)) c'
  end.
Lemma rmatch_ext r f g r' : same_files f g -> rmatch r f r' -> rmatch r g r'.
Proof. intros SF. destruct r, r'; cbn; auto. intros [-> H]. split; auto. intros p. rewrite SF. auto. Qed.
Lemma same_write f g p b : same_files f g -> same_files (write f p b) (write g p b).
Proof. intros H q. unfold write. destruct (path_eqb q p); auto. Qed.
Lemma wmatch_ext w : forall f g c, same_files f g -> wmatch w f c -> wmatch w g c.
Proof.
  induction w as [r|p k IH|kd n p k IH|k IH|k IH|X o k IH|p k IH|p d m k IH]; intros f g c SF H; cbn [wmatch] in *.
  - destruct H as (r' & -> & H). exists r'. split; auto. eapply rmatch_ext; eauto.
  - rewrite (SF p). eapply IH; eauto.
  - exact H.
  - destruct H as (k' & -> & H). exists k'. split; auto. eauto.
  - destruct H as (k' & -> & H). exists k'. split; auto. eauto.
  - destruct H as (k' & -> & H). exists k'. split; auto. eauto.
  - eapply IH; [|exact H]. apply same_write; auto.
  - destruct H as (E & t & r & c' & -> & H). split; [rewrite SF; auto|]. exists t, r, c'. split; auto. eapply IH; [|exact H]. apply same_write; auto.
Qed.
Definition cmatch (c : ProcModel.control) (f : fs) (c' : ClientModel.control fs) : Prop :=
  match c, c' with
  | Doing w, Run p => wmatch w f p
  | ProcModel.InSize k, ClientModel.InSize k' => forall n, wmatch (k n) f (k' n)
  | ProcModel.InNext k, ClientModel.InNext k' => forall n, wmatch (k n) f (k' n)
  | Ended r, Over r' => rmatch r f r'
  | _, _ => False
  end.

Lemma move_any_full {R} kd n (x y : stream * ClientModel.control R) : move kd n x y ->
  match x with
  | (s, Run (PAny o g)) =>
      (exists s', step kd n Loader s = Some (Ok s')) \/ (exists f, step kd n Loader s = Some (Fail f)) \/
      (exists a, o (Ok a)) \/ (exists e, o (Fail e))
  | _ => True
  end.
Proof. intros M. destruct M; auto; try (destruct c as [[]| | |]; eauto; fail); eauto. Qed.
Lemma follows kd n r x : Acc (fun y x => move kd n x y) x ->
  (forall y, moves_to kd n x y -> (forall z, ~ move kd n y z) -> snd y = Over r) ->
  forall c f, cmatch c f (snd x) -> pends (fun r' f' => rmatch r' f' r) ((Some (kd, n, fst x), c), f).
Proof.
  intros A. induction A as [x _ IHA]. intros HS.
  assert (IH : forall y c f, move kd n x y -> cmatch c f (snd y) -> pends (fun r' f' => rmatch r' f' r) ((Some (kd, n, fst y), c), f)).
  { intros y c f M C. apply IHA; auto. intros z MZ. apply HS. eapply mt_step; eauto. }
  clear IHA. assert (HS' : (forall z, ~ move kd n x z) -> snd x = Over r) by (apply HS; constructor). clear HS.
  destruct x as [s cc]. cbn [fst snd] in *.
  assert (LD : forall c f y, cmatch c f cc -> (forall r, c <> Ended r) -> by_loader ((Some (kd, n, s), c), f) y -> pends (fun r' f' => rmatch r' f' r) y).
  { intros c f y C NE (kd' & n' & s0 & c0 & f0 & E & NE0 & [(s' & St & ->)|(e & St & ->)]); injection E as <- <- <- <- <-.
    - apply (IH (s', cc)); auto. apply m_loader; auto. intros r0 ->. destruct c; cbn in C; try contradiction. eapply NE; reflexivity.
    - apply (IH (s, Over (Fail e))); [|reflexivity]. apply m_loader_fail; auto. intros r0 ->. destruct c; cbn in C; try contradiction. eapply NE; reflexivity. }
  assert (LD1 : forall c f s', cmatch c f cc -> (forall r, c <> Ended r) -> step kd n Loader s = Some (Ok s') ->
    pends (fun r' f' => rmatch r' f' r) ((Some (kd, n, s'), c), f)).
  { intros c f s' C NE St. eapply LD; eauto. exists kd, n, s, c, f. repeat split; eauto. }
  assert (LD2 : forall c f e, cmatch c f cc -> (forall r, c <> Ended r) -> step kd n Loader s = Some (Fail e) ->
    pends (fun r' f' => rmatch r' f' r) ((Some (kd, n, s), Ended (Fail e)), f)).
  { intros c f e C NE St. eapply LD; eauto. exists kd, n, s, c, f. repeat split; eauto. }
  intros c f C. destruct c as [w|k|k|r'].
  - revert f C. induction w as [r'|p k IW|kd' n' p k IW|k IW|k IW|X o k IW|p k IW|p d m k IW]; intros f C; pose proof C as C0; destruct cc as [q|q|q|q]; try contradiction; cbn [cmatch wmatch] in C.
    + destruct C as (r'' & -> & RM). apply pe_step; [intros N; eapply N; apply p_end|]. intros y M. inversion M; subst; eauto.
      apply (IH (s, Over r'')); [apply m_end|exact RM].
    + apply pe_step; [intros N; eapply N; apply p_read|]. intros y M. inversion M; subst; eauto.
    + destruct C as (k' & -> & C). apply pe_step; [intros N; eapply N; apply p_size|]. intros y M. inversion M; subst; eauto.
      apply (IH (enter kd Size s, ClientModel.InSize k')); [apply m_size|exact C].
    + destruct C as (k' & -> & C). apply pe_step; [intros N; eapply N; apply p_next|]. intros y M. inversion M; subst; eauto.
      apply (IH (enter kd Next s, ClientModel.InNext k')); [apply m_next|exact C].
    + destruct C as (k' & -> & C). apply pe_step.
      * intros N. assert (ST : forall z, ~ move kd n (s, Run (PAny o k')) z).
        { intros z MZ. apply move_any_full in MZ as [(s' & St)|[(e & St)|[(a & O)|(e & O)]]]; eapply N;
            [eapply p_loader|eapply p_loader_fail|eapply p_any|eapply p_any_fail]; eauto; congruence. }
        specialize (HS' ST). discriminate.
      * intros y M. apply pmove_any_inv in M as [BL|[(a & O & ->)|(e & O & ->)]].
        -- eapply LD; eauto. congruence.
        -- apply (IH (s, Run (k' a))); [apply m_any; auto|apply C].
        -- apply (IH (s, Over (Fail e))); [eapply m_any_fail; eauto|reflexivity].
    + apply pe_step; [intros N; eapply N; apply p_create|]. intros y M. inversion M; subst; eauto.
    + destruct C as (HF & t & r0 & c' & -> & C). clear IW.
      remember (length m) as len eqn:EL. revert m d f C C0 HF EL. induction len as [len IL] using lt_wf_ind. intros m d f C C0 HF EL.
      apply pe_step.
      * intros N. destruct m as [|a m]; eapply N; [apply p_appended|apply (p_append p d [a] m); discriminate].
      * intros y M. inversion M; subst; eauto.
        -- apply (IL (length b)); auto.
           ++ rewrite app_length. destruct a; [congruence|cbn; lia].
           ++ eapply wmatch_ext; [|exact C]. intros q. rewrite write_twice, <- app_assoc. reflexivity.
           ++ cbn [cmatch wmatch]. split; [apply write_same|]. exists t, r0, c'. split; auto.
              eapply wmatch_ext; [|exact C]. intros q. rewrite write_twice, <- app_assoc. reflexivity.
           ++ apply write_same.
        -- apply (IH (s, Run c')); [apply m_files|]. cbn. eapply wmatch_ext; [|exact C]. intros q. rewrite app_nil_r. unfold write.
           destruct (path_eqb q p) eqn:E; auto. apply path_eqb_iff in E. subst q. auto.
  - destruct cc as [q|k'|q|q]; try contradiction. cbn in C. apply pe_step.
    + intros N. assert (ST : forall z, ~ move kd n (s, ClientModel.InSize k') z).
      { intros z MZ. inversion MZ; subst; eapply N; [eapply p_loader|eapply p_loader_fail|eapply p_in_size|eapply p_in_size_fail|eapply p_size_back]; eauto; congruence. }
      specialize (HS' ST). discriminate.
    + intros y M. inversion M; subst.
      * apply (LD1 (ProcModel.InSize k)); auto.
      * eapply (LD2 (ProcModel.InSize k)); eauto.
      * apply (IH (s', ClientModel.InSize k')); [apply m_in_size; auto|exact C].
      * apply (IH (s, Over (Fail e))); [eapply m_in_size_fail; eauto|reflexivity].
      * apply (IH (s, Run (k' m))); [eapply m_size_back; eauto|apply C].
  - destruct cc as [q|q|k'|q]; try contradiction. cbn in C. apply pe_step.
    + intros N. assert (ST : forall z, ~ move kd n (s, ClientModel.InNext k') z).
      { intros z MZ. inversion MZ; subst; eapply N; [eapply p_loader|eapply p_loader_fail|eapply p_in_next|eapply p_in_next_fail|eapply p_next_back]; eauto; congruence. }
      specialize (HS' ST). discriminate.
    + intros y M. inversion M; subst.
      * apply (LD1 (ProcModel.InNext k)); auto.
      * eapply (LD2 (ProcModel.InNext k)); eauto.
      * apply (IH (s', ClientModel.InNext k')); [apply m_in_next; auto|exact C].
      * apply (IH (s, Over (Fail e))); [eapply m_in_next_fail; eauto|reflexivity].
      * apply (IH (s, Run (k' c))); [eapply m_next_back; eauto|apply C].
  - destruct cc as [q|q|q|q]; try contradiction. cbn in C. apply pe_end.
    assert (E : Over q = Over r) by (apply HS'; intros z MZ; inversion MZ; subst; congruence). injection E as <-. exact C.
Qed.
