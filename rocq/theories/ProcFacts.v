(** Processes with separate files do not disturb each other. *)
From Coq Require Import List Arith Bool NArith ZArith Ascii Lia.
Import ListNotations.
From Verif Require Import Base TextModel ParModel StreamModel ClientModel CmdModel CrashModel CmdFacts ProcModel ProcSpec.

Definition agree (P : text -> Prop) (f g : fs) : Prop := forall p, P p -> f p = g p.
Definition pin (R W : text -> Prop) (st : pstate) : Prop :=
  match snd st with
  | Doing w => within R W w
  | InSize k => forall n, within R W (k n)
  | InNext k => forall c, within R W (k c)
  | Ended _ => True
  end.
Definition qin (R W : text -> Prop) (q : process) : Prop :=
  let '(_, st, l) := q in pin R W st /\ Forall (within R W) l.

Lemma agree_write P f g p b : agree P f g -> agree P (write f p b) (write g p b).
Proof. intros A q H. unfold write. destruct (path_eqb q p); auto. Qed.
Lemma write_frame (W : text -> Prop) f p b : W p -> forall q, ~ W q -> write f p b q = f q.
Proof. intros H q N. apply write_other. intros ->. auto. Qed.

Lemma pmove_local R W st f st' f' g : pin R W st -> agree (fun p => R p \/ W p) f g -> pmove (st, f) (st', f') ->
  exists g', pmove (st, g) (st', g') /\ agree (fun p => R p \/ W p) f' g' /\ pin R W st' /\
    (forall p, ~ W p -> f' p = f p).
Proof.
  intros IN AG M. inversion M; subst; unfold pin in IN; cbn [snd within] in IN.
  - exists g. repeat split; auto; try exact IN; try exact I. apply p_loader; auto.
  - exists g. repeat split; auto; try exact IN; try exact I. apply p_loader_fail; auto.
  - exists g. repeat split; auto; try exact IN; try exact I; [|apply IN]. eapply p_open; eauto. rewrite <- AG; auto. left. apply IN.
  - exists g. repeat split; auto; try exact IN; try exact I. eapply p_open_fail; eauto. rewrite <- AG; eauto. left. apply IN.
  - exists g. repeat split; auto; try exact IN; try exact I. eapply p_open_none; eauto. rewrite <- AG; eauto. left. apply IN.
  - exists g. repeat split; auto; try exact IN; try exact I. apply p_size.
  - exists g. repeat split; auto; try exact IN; try exact I. apply p_next.
  - exists g. repeat split; auto; try exact IN; try exact I. apply p_in_size; auto.
  - exists g. repeat split; auto; try exact IN; try exact I. apply p_in_size_fail; auto.
  - exists g. repeat split; auto; try exact IN; try exact I. apply p_in_next; auto.
  - exists g. repeat split; auto; try exact IN; try exact I. apply p_in_next_fail; auto.
  - exists g. repeat split; auto; try exact IN; try exact I; [eapply p_size_back; eauto|]. apply IN.
  - exists g. repeat split; auto; try exact IN; try exact I; [eapply p_next_back; eauto|]. apply IN.
  - exists g. repeat split; auto; try exact IN; try exact I; [eapply p_any; eauto|]. apply IN.
  - exists g. repeat split; auto; try exact IN; try exact I. eapply p_any_fail; eauto.
  - destruct IN as [IR IN]. exists g. repeat split; auto; try exact IN; try exact I; [|apply IN]. rewrite (AG p); [apply p_read|auto].
  - destruct IN as [IW IN]. exists (write g p []). repeat split; auto; try exact IN; try exact I; [apply p_create|apply agree_write; auto|apply write_frame; auto].
  - destruct IN as [IW IN]. exists (write g p (there ++ a)). repeat split; auto; try exact IN; try exact I; [apply p_append; auto|apply agree_write; auto|apply write_frame; auto].
  - destruct IN as [IW IN]. exists g. repeat split; auto; try exact IN; try exact I. apply p_appended.
  - exists g. repeat split; auto; try exact IN; try exact I. apply p_end.
Qed.

Lemma smove_local R W q f q' f' g : qin R W q -> agree (fun p => R p \/ W p) f g -> smove (q, f) (q', f') ->
  exists g', smove (q, g) (q', g') /\ agree (fun p => R p \/ W p) f' g' /\ qin R W q' /\ (forall p, ~ W p -> f' p = f p).
Proof.
  intros IN AG M. inversion M; subst; destruct IN as [I1 I2].
  - destruct (pmove_local _ _ _ _ _ _ g I1 AG H0) as (g' & M' & A' & I' & F'). exists g'. repeat split; auto. constructor; auto.
  - inversion I2; subst. exists g. repeat split; auto. constructor.
Qed.

(** Processes with a directory each *)
Inductive lmove : list (process * fs) -> list (process * fs) -> Prop :=
| l_here x y l : smove x y -> lmove (x :: l) (y :: l)
| l_there x l l' : lmove l l' -> lmove (x :: l) (x :: l').
Lemma lmove_acc l : Forall (Acc (fun y x => smove x y)) l -> Acc (fun y x => lmove x y) l.
Proof.
  induction 1 as [|x l AX _ IHl]; [constructor; intros y M; inversion M|].
  revert x AX. induction IHl as [l _ IHL]. intros x AX. induction AX as [x HX IHX].
  constructor. intros y M. inversion M; subst; auto. apply IHL; auto. constructor; auto.
Qed.

Lemma wmove_nil f y : ~ wmove ([], f) y.
Proof. intros M. inversion M. destruct l1; discriminate. Qed.
Lemma wmove_cons_inv q ps f y : wmove (q :: ps, f) y ->
  (exists q' f', y = (q' :: ps, f') /\ smove (q, f) (q', f')) \/ (exists ps' f', y = (q :: ps', f') /\ wmove (ps, f) (ps', f')).
Proof.
  intros M. remember (q :: ps, f) as x eqn:E. destruct M as [l1 q0 q' l2 f0 f' M].
  destruct l1 as [|z l1]; cbn in E; injection E; intros; subst; [left; do 2 eexists; split; [reflexivity|assumption]|].
  right. exists (l1 ++ q' :: l2), f'. split; auto. constructor; auto.
Qed.
Lemma wmove_here q q' ps f f' : smove (q, f) (q', f') -> wmove (q :: ps, f) (q' :: ps, f').
Proof. intros M. apply (w_one [] q q' ps); auto. Qed.
Lemma wmove_there q ps ps' f f' : wmove (ps, f) (ps', f') -> wmove (q :: ps, f) (q :: ps', f').
Proof. intros M. inversion M; subst. apply (w_one (q :: l1)); auto. Qed.
Lemma single_acc q f : Acc (fun y x => wmove x y) ([q], f) -> Acc (fun y x => smove x y) (q, f).
Proof.
  intros A. remember ([q], f) as x eqn:E. revert q f E. induction A as [x _ IH]. intros q f ->.
  constructor. intros [q' f'] M. apply (IH ([q'], f')); auto. apply wmove_here; auto.
Qed.
Lemma acc_single q f : Acc (fun y x => smove x y) (q, f) -> Acc (fun y x => wmove x y) ([q], f).
Proof.
  intros A. remember (q, f) as x eqn:E. revert q f E. induction A as [x _ IH]. intros q f ->.
  constructor. intros y M. apply wmove_cons_inv in M as [(q' & f' & -> & M)|(ps' & f' & -> & M)].
  - eapply IH; eauto.
  - exfalso. eapply wmove_nil; eauto.
Qed.

Definition access : Type := (text -> Prop) * (text -> Prop).
Definition reads_or_writes (a : access) (p : text) : Prop := fst a p \/ snd a p.
Definition separate (a b : access) : Prop := forall p,
  (snd a p -> ~ reads_or_writes b p) /\ (snd b p -> ~ reads_or_writes a p).
Inductive sim (f : fs) : list access -> list process -> list (process * fs) -> Prop :=
| sim_nil : sim f [] [] []
| sim_cons a q g l ps L : qin (fst a) (snd a) q -> agree (reads_or_writes a) f g -> sim f l ps L -> sim f (a :: l) (q :: ps) ((q, g) :: L).

Lemma sim_frame f f' b l ps L : sim f l ps L -> Forall (separate b) l -> (forall p, ~ snd b p -> f' p = f p) -> sim f' l ps L.
Proof.
  intros S. induction S as [|a q g l ps L Q A S IH]; intros SP FR; constructor; auto.
  - intros p H. rewrite <- (A p H). apply FR. intros HB. inversion SP; subst. exact (proj1 (H2 p) HB H).
  - inversion SP; auto.
Qed.
Lemma sim_step l : ForallOrdPairs separate l -> forall f ps L ps' f', sim f l ps L -> wmove (ps, f) (ps', f') ->
  exists L' a, lmove L L' /\ sim f' l ps' L' /\ In a l /\ forall p, ~ snd a p -> f' p = f p.
Proof.
  induction 1 as [|a l SA SL IH]; intros f ps L ps' f' S M; inversion S as [|a0 q g l0 ps0 L0 Q AG S0]; subst.
  - exfalso. eapply wmove_nil; eauto.
  - apply wmove_cons_inv in M as [(q' & h & E & M)|(ps1 & h & E & M)]; injection E as -> ->.
    + destruct (smove_local _ _ _ _ _ _ g Q AG M) as (g' & M' & A' & Q' & F').
      exists ((q', g') :: L0), a. repeat split; [constructor; auto| |left; auto|auto].
      constructor; auto. eapply sim_frame; eauto.
    + destruct (IH _ _ _ _ _ S0 M) as (L' & b & M' & S' & I' & F'). exists ((q, g) :: L'), b. repeat split; [constructor; auto| |right; auto|auto].
      constructor; auto. intros p HP. rewrite <- (AG p HP). apply F'. intros HB.
      rewrite Forall_forall in SA. exact (proj2 (SA b I' p) HB HP).
Qed.
Lemma sim_acc l : ForallOrdPairs separate l -> forall L, Acc (fun y x => lmove x y) L ->
  forall f ps, sim f l ps L -> Acc (fun y x => wmove x y) (ps, f).
Proof.
  intros SP L A. induction A as [L _ IH]. intros f ps S. constructor. intros [ps' f'] M.
  destruct (sim_step l SP _ _ _ _ _ S M) as (L' & a & M' & S' & _). eapply IH; eauto.
Qed.
Inductive smoves : process * fs -> process * fs -> Prop :=
| sm_refl x : smoves x x
| sm_step x y z : smoves x y -> smove y z -> smoves x z.
Lemma lmove_each L L' L0 : Forall2 smoves L0 L -> lmove L L' -> Forall2 smoves L0 L'.
Proof.
  intros F M. revert L0 F. induction M; intros L0 F; inversion F; subst; constructor; auto; eapply sm_step; eauto.
Qed.
Lemma sim_run l : ForallOrdPairs separate l -> forall x y, wmoves x y -> forall L0 L, Forall2 smoves L0 L -> sim (snd x) l (fst x) L ->
  exists L', Forall2 smoves L0 L' /\ sim (snd y) l (fst y) L' /\
    forall p, (forall a, In a l -> ~ snd a p) -> snd y p = snd x p.
Proof.
  intros SP x y M. induction M as [x|[ps f] [ps' f'] z M _ IH]; intros L0 L F S.
  - exists L. auto.
  - destruct (sim_step l SP _ _ _ _ _ S M) as (L' & a & M' & S' & IA & FR).
    destruct (IH L0 L' (lmove_each _ _ _ F M') S') as (L2 & F2 & S2 & FR2). exists L2. repeat split; auto.
    intros p HP. rewrite FR2; auto.
Qed.
Lemma smoves_single x y : smoves x y -> wmoves ([fst x], snd x) ([fst y], snd y).
Proof.
  intros M. induction M as [x|x y z _ IH M]; [constructor|].
  assert (T : forall a b c, wmoves a b -> wmove b c -> wmoves a c).
  { intros a b c H. induction H; intros HM; [econstructor; [eauto|constructor]|]. econstructor; eauto. }
  eapply T; [exact IH|]. destruct y, z. apply wmove_here; auto.
Qed.
Lemma stuck_each l f ps L : sim f l ps L -> (forall y, ~ wmove (ps, f) y) ->
  Forall (fun x => forall y, ~ smove x y) L.
Proof.
  intros S. induction S as [|a q g l ps L Q A S IH]; intros ST; constructor.
  - intros [q' g'] M. assert (A' : agree (reads_or_writes a) g f) by (intros p H; symmetry; auto).
    destruct (smove_local _ _ _ _ _ _ f Q A' M) as (f' & M' & _). eapply ST. apply wmove_here. exact M'.
  - apply IH. intros [ps' f'] M. eapply ST. apply wmove_there. exact M.
Qed.

Lemma alone_iff l f r g : alone l f r g <->
  Acc (fun y x => smove x y) (begin l, f) /\
  forall q f', smoves (begin l, f) (q, f') -> (forall y, ~ smove (q, f') y) -> stopped q r /\ same_files g f'.
Proof.
  split.
  - intros [A H]. split; [apply single_acc; auto|]. intros q f' M ST.
    destruct (H [q] f') as (q' & E & S & SF).
    + apply (smoves_single (begin l, f) (q, f')); auto.
    + intros y MY. apply wmove_cons_inv in MY as [(q' & h & _ & MY)|(ps' & h & _ & MY)]; [eapply ST; eauto|eapply wmove_nil; eauto].
    + injection E as <-. auto.
  - intros [A H]. split; [apply acc_single; auto|]. intros ps f' M ST.
    assert (X : forall x y, wmoves x y -> forall q, fst x = [q] -> smoves (begin l, f) (q, snd x) -> exists q', fst y = [q'] /\ smoves (begin l, f) (q', snd y)).
    { intros x y MM. induction MM as [x|x y z MM _ IH]; intros q E S; [eauto|]. destruct x as [px fx]. cbn in E. subst px.
      apply wmove_cons_inv in MM as [(q' & h & -> & MY)|(ps' & h & _ & MY)]; [|exfalso; eapply wmove_nil; eauto].
      apply (IH q'); auto. econstructor; eauto. }
    destruct (X _ _ M (begin l) eq_refl ltac:(constructor)) as (q' & E & S). cbn in E, S. subst ps.
    exists q'. split; [reflexivity|]. apply H; auto. intros [q2 f2] MY. eapply ST. apply wmove_here. exact MY.
Qed.

Definition job_access (a : job) : access := (j_reads a, j_writes a).
Theorem together f jobs :
  Forall (fun a => Forall (within (j_reads a) (j_writes a)) (j_script a) /\ alone (j_script a) f (j_result a) (j_files a)) jobs ->
  ForallOrdPairs separate (map job_access jobs) ->
  all_end (map (fun a => begin (j_script a)) jobs) f (fun ps f' =>
    Forall2 (fun a q => stopped q (j_result a)) jobs ps /\
    (forall a p, In a jobs -> j_reads a p \/ j_writes a p -> f' p = j_files a p) /\
    (forall p, (forall a, In a jobs -> ~ j_writes a p) -> f' p = f p)).
Proof.
  intros HJ SP. set (L0 := map (fun a => (begin (j_script a), f)) jobs).
  assert (S0 : sim f (map job_access jobs) (map (fun a => begin (j_script a)) jobs) L0).
  { unfold L0. clear SP. induction HJ as [|a jobs [HA _] _ IH]; cbn [map]; constructor; auto.
    - cbn [job_access fst snd]. destruct (j_script a); cbn; [split; [exact I|constructor]|]. inversion HA; subst. split; auto.
    - intros p _. reflexivity. }
  split.
  - eapply sim_acc; [exact SP| |exact S0]. apply lmove_acc. unfold L0. clear SP S0.
    induction HJ as [|a jobs [_ HA] _ IH]; cbn [map]; constructor; auto. apply alone_iff in HA. apply HA.
  - intros ps f' M ST.
    destruct (sim_run _ SP _ _ M L0 L0) as (L & F & S & FR); auto.
    { clear. induction L0; constructor; auto. constructor. }
    cbn [fst snd] in S, FR. pose proof (stuck_each _ _ _ _ S ST) as STK.
    assert (G : Forall2 (fun a x => stopped (fst x) (j_result a) /\ same_files (j_files a) (snd x)) jobs L).
    { unfold L0 in F. clear - HJ F STK. revert L F STK. induction HJ as [|a jobs [_ HA] _ IH]; intros L F STK; cbn [map] in F; inversion F; subst; constructor.
      - apply alone_iff in HA as [_ HA]. inversion STK; subst. destruct y. apply HA; auto.
      - apply IH; auto. inversion STK; auto. }
    clear - S G FR. split; [|split].
    + clear FR. revert ps L S G. induction jobs as [|a jobs IH]; intros ps L S G; cbn [map] in S; inversion S as [|a0 q g l0 ps0 L1 Q AG S0]; subst; inversion G as [|? ? ? ? G0 G1]; subst; constructor.
      * apply G0.
      * eapply IH; eauto.
    + clear FR. revert ps L S G. induction jobs as [|a jobs IH]; intros ps L S G b p [] HP; cbn [map] in S; inversion S as [|a0 q g l0 ps0 L1 Q AG S0]; subst; inversion G as [|? ? ? ? G0 G1]; subst.
      * destruct G0 as [_ SF]. rewrite (AG p HP). apply SF.
      * eapply IH; eauto.
    + intros p HP. apply FR. intros a IA. apply in_map_iff in IA as (b & <- & IB). apply HP. exact IB.
Qed.
