(** Race-free parallel regions have one outcome, and it is that of [par_for]. *)
From Coq Require Import List Arith Bool NArith ZArith Lia.
Import ListNotations.
From Verif Require Import Base BaseFacts GraphModel TorusModel RunnerModel RunnerFacts ParModel.

Lemma addr_eqb_eq a b : addr_eqb a b = true <-> a = b.
Proof.
  destruct a as [x i], b as [y j]. unfold addr_eqb. cbn [fst snd].
  rewrite andb_true_iff, Nat.eqb_eq. split.
  - intros [H ->]. apply internal_buf_dec_bl in H. now subst.
  - intros [= -> ->]. split; auto. now apply internal_buf_dec_lb.
Qed.

Section General.
Context {V : Type}.
Implicit Types (p : prog V) (m : mem V).

(** Every access of the task is a read in [rd] or a write in [wr]. *)
Fixpoint confined (rd wr : addr -> Prop) p : Prop :=
  match p with
  | Done | Throw _ => True
  | Rd a k => rd a /\ forall v, confined rd wr (k v)
  | Wr a _ k => wr a /\ confined rd wr k
  end.

Lemma store_same m a v : store m a v a = v.
Proof. unfold store. now rewrite (proj2 (addr_eqb_eq a a) eq_refl). Qed.
Lemma store_other m a v b : a <> b -> store m a v b = m b.
Proof. unfold store. destruct (addr_eqb a b) eqn:E; auto. apply addr_eqb_eq in E. congruence. Qed.

Definition agree (fp : addr -> Prop) m1 m2 : Prop := forall a, fp a -> m1 a = m2 a.
Definition same_res (fp : addr -> Prop) (r1 r2 : res (mem V)) : Prop :=
  match r1, r2 with Ok a, Ok b => agree fp a b | Fail f, Fail g => f = g | _, _ => False end.
Lemma same_res_refl fp r : same_res fp r r.
Proof. destruct r; cbn; auto. intros x _. auto. Qed.
Lemma same_res_trans fp r1 r2 r3 : same_res fp r1 r2 -> same_res fp r2 r3 -> same_res fp r1 r3.
Proof.
  destruct r1, r2, r3; cbn; try tauto; try congruence.
  intros H1 H2 x F. now rewrite H1, H2.
Qed.

Lemma solo_agree rd wr p m1 m2 :
  confined rd wr p -> agree (fun a => rd a \/ wr a) m1 m2 ->
  same_res (fun a => rd a \/ wr a) (solo p m1) (solo p m2).
Proof.
  revert m1 m2. induction p as [|f|a k IH|a v k IH]; intros m1 m2 C A; cbn in *.
  - exact A.
  - reflexivity.
  - destruct C as [C1 C2]. rewrite (A a (or_introl C1)). now apply IH.
  - destruct C as [C1 C2]. apply IH; auto. intros b F. unfold store.
    destruct (addr_eqb a b); auto.
Qed.

Lemma act_confined rd wr p m p' m' : confined rd wr p -> act p m p' m' -> confined rd wr p'.
Proof. intros C A. destruct A; cbn in C; destruct C; auto. Qed.
Lemma act_solo p m p' m' : act p m p' m' -> solo p m = solo p' m'.
Proof. intros A. destruct A; reflexivity. Qed.
Lemma act_frame rd wr p m p' m' a : confined rd wr p -> act p m p' m' -> ~ wr a -> m' a = m a.
Proof.
  intros C A N. destruct A as [|b]; auto. cbn in C. apply store_other. intros ->. tauto.
Qed.

Section Race.
Context (rd wr : nat -> addr -> Prop) (n : nat).
Context (no_race : forall i j a, i <> j -> i < n -> j < n -> wr i a -> ~ rd j a /\ ~ wr j a).

Lemma step_keeps ps m ps' m' (P : nat -> res (mem V)) :
  length ps = n ->
  (forall i p, nth_error ps i = Some p -> confined (rd i) (wr i) p) ->
  (forall i p, nth_error ps i = Some p -> same_res (fun a => rd i a \/ wr i a) (solo p m) (P i)) ->
  step (ps, m) (ps', m') ->
  length ps' = n /\
  (forall i p, nth_error ps' i = Some p -> confined (rd i) (wr i) p) /\
  (forall i p, nth_error ps' i = Some p -> same_res (fun a => rd i a \/ wr i a) (solo p m') (P i)) /\
  (forall a, (forall i, i < n -> ~ wr i a) -> m' a = m a).
Proof.
  intros L C S St. inversion St as [l p r m0 p' m0' A E1 E2]. subst m0 m0' ps ps'. clear St.
  assert (Lr : length l < n) by (rewrite app_length in L; cbn in L; lia).
  assert (Np : forall x, nth_error (l ++ x :: r) (length l) = Some x).
  { intros x. rewrite nth_error_app2, Nat.sub_diag by lia. reflexivity. }
  assert (No : forall x y i, i <> length l -> nth_error (l ++ x :: r) i = nth_error (l ++ y :: r) i).
  { intros x y i Hi. destruct (Nat.lt_ge_cases i (length l)).
    - rewrite !nth_error_app1 by lia. reflexivity.
    - rewrite !nth_error_app2 by lia. destruct (i - length l) eqn:Ei; [lia|reflexivity]. }
  assert (Cp := C _ _ (Np p)).
  split; [|split; [|split]].
  - rewrite <- L, !app_length. reflexivity.
  - intros i q Hq. destruct (Nat.eq_dec i (length l)) as [->|Hi].
    + rewrite Np in Hq. injection Hq as <-. eapply act_confined; eauto.
    + rewrite (No p' p i Hi) in Hq. auto.
  - intros i q Hq. destruct (Nat.eq_dec i (length l)) as [->|Hi].
    + rewrite Np in Hq. injection Hq as <-. rewrite <- (act_solo _ _ _ _ A). auto.
    + rewrite (No p' p i Hi) in Hq.
      assert (Li : i < n) by (rewrite <- L; apply nth_error_Some; congruence).
      eapply same_res_trans; [|apply S; eassumption].
      apply (solo_agree (rd i) (wr i)); auto.
      intros a F. eapply act_frame; eauto. intros W.
      destruct (no_race (length l) i a) as [R1 R2]; auto. tauto.
  - intros a N. eapply act_frame; eauto.
Qed.

Lemma steps_keep c c' (P : nat -> res (mem V)) :
  steps c c' ->
  length (fst c) = n ->
  (forall i p, nth_error (fst c) i = Some p -> confined (rd i) (wr i) p) ->
  (forall i p, nth_error (fst c) i = Some p -> same_res (fun a => rd i a \/ wr i a) (solo p (snd c)) (P i)) ->
  length (fst c') = n /\
  (forall i p, nth_error (fst c') i = Some p -> same_res (fun a => rd i a \/ wr i a) (solo p (snd c')) (P i)) /\
  (forall a, (forall i, i < n -> ~ wr i a) -> snd c' a = snd c a).
Proof.
  induction 1 as [c|c c1 c2 S St IH]; intros L C P1.
  - auto.
  - destruct c as [ps m], c1 as [ps1 m1]. cbn [fst snd] in *.
    destruct (step_keeps _ _ _ _ P L C P1 S) as (L1 & C1 & P2 & F).
    destruct (IH L1 C1 P2) as (L2 & P3 & F2).
    split; [auto|]. split; [auto|]. intros a N. rewrite F2 by auto. auto.
Qed.
End Race.

(** Tasks whose writes no other task reads or writes end as they would alone. *)
Lemma race_free (rd wr : nat -> addr -> Prop) (ps : list (prog V)) (m : mem V) ps' m' :
  (forall i p, nth_error ps i = Some p -> confined (rd i) (wr i) p) ->
  (forall i j a, i <> j -> i < length ps -> j < length ps -> wr i a -> ~ rd j a /\ ~ wr j a) ->
  region ps m ps' m' ->
  length ps' = length ps /\
  (forall i p p', nth_error ps i = Some p -> nth_error ps' i = Some p' ->
     match solo p m with
     | Ok mi => p' = Done /\ forall a, wr i a -> m' a = mi a
     | Fail f => p' = Throw f
     end) /\
  (forall a, (forall i, i < length ps -> ~ wr i a) -> m' a = m a).
Proof.
  intros C NR [St En].
  pose (P := fun i => match nth_error ps i with Some p => solo p m | None => Fail FFuel end).
  assert (P0 : forall i p, nth_error ps i = Some p -> same_res (fun a => rd i a \/ wr i a) (solo p m) (P i)).
  { intros i p Hp. unfold P. rewrite Hp. apply same_res_refl. }
  destruct (steps_keep rd wr (length ps) NR _ _ P St eq_refl C P0) as (L & P1 & F).
  cbn [fst snd] in *.
  split; [auto|]. split; [|auto].
  intros i p p' Hp Hp'. specialize (P1 i p' Hp'). unfold P in P1. rewrite Hp in P1.
  assert (E : ended p').
  { rewrite Forall_forall in En. apply En. eapply nth_error_In; eauto. }
  destruct E as [->|[f ->]]; cbn in P1.
  - destruct (solo p m) as [mi|f]; cbn in P1; [|tauto].
    split; auto.
  - destruct (solo p m) as [mi|g]; cbn in P1; [tauto|]. now subst.
Qed.

(** Every schedule comes to an end, and only when all tasks have ended. *)
Definition child (p' p : prog V) : Prop :=
  match p with Done | Throw _ => False | Rd _ k => exists v, p' = k v | Wr _ _ k => p' = k end.
Lemma child_wf : well_founded child.
Proof.
  intros p. induction p as [|f|a k IH|a v k IH]; constructor; intros p' H; cbn in H; try tauto.
  - destruct H as [v ->]. apply IH.
  - now subst.
Qed.
Definition some_child (ps' ps : list (prog V)) : Prop :=
  exists l p p' r, ps = l ++ p :: r /\ ps' = l ++ p' :: r /\ child p' p.
Lemma some_child_wf : well_founded some_child.
Proof.
  intros ps. induction ps as [|p ps IH].
  - constructor. intros ps' (l & p & p' & r & E & _). destruct l; discriminate.
  - revert ps IH. induction (child_wf p) as [p _ IHp]. intros ps IH.
    induction IH as [ps Hps IH]. constructor. intros ps' (l & q & q' & r & E & -> & Ch).
    destruct l as [|x l]; cbn in E; injection E as -> ->.
    + cbn. apply IHp; auto. constructor. auto.
    + cbn. apply IH. exists l, q, q', r. auto.
Qed.
Lemma region_terminates : well_founded (fun c' c : list (prog V) * mem V => step c c').
Proof.
  intros [ps m]. revert m. induction (some_child_wf ps) as [ps _ IH]. intros m.
  constructor. intros [ps' m'] St. apply IH.
  inversion St as [l p r m0 p' m0' A E1 E2]. subst. exists l, p, p', r. split; [auto|]. split; [auto|].
  destruct A; cbn; eauto.
Qed.
Lemma region_progress (ps : list (prog V)) m :
  Forall ended ps \/ exists c, step (ps, m) c.
Proof.
  induction ps as [|p ps IH]; [left; constructor|].
  destruct p as [|f|a k|a v k].
  3: right; eexists; apply (step_at [] (Rd a k) ps); constructor.
  3: right; eexists; apply (step_at [] (Wr a v k) ps); constructor.
  - destruct IH as [IH|[c St]]; [left; constructor; [now left|auto]|].
    right. inversion St as [l p r m0 p' m0' A E1 E2]. subst.
    eexists. apply (step_at (Done :: l) p r). eassumption.
  - destruct IH as [IH|[c St]]; [left; constructor; [right; eauto|auto]|].
    right. inversion St as [l p r m0 p' m0' A E1 E2]. subst.
    eexists. apply (step_at (Throw f :: l) p r). eassumption.
Qed.
Lemma region_exists (ps : list (prog V)) m : exists ps' m', region ps m ps' m'.
Proof.
  pose proof (region_terminates (ps, m)) as A.
  remember (ps, m) as c eqn:E. revert ps m E. induction A as [c _ IH]. intros ps m ->.
  destruct (region_progress ps m) as [En|[[ps1 m1] St]].
  - exists ps, m. split; [constructor|auto].
  - destruct (IH (ps1, m1) St ps1 m1 eq_refl) as (ps' & m' & St' & En).
    exists ps', m'. split; [econstructor; eauto|auto].
Qed.
End General.

(** ** From the interleavings to [par_for] *)
Lemma par_for_inv {A} (body : nat -> res A) t out out' :
  par_for t body out = Ok out' ->
  NoDup t /\ length out' = length out /\
  (forall q, In q t -> q < length out /\ exists v, body q = Ok v /\ nth_error out' q = Some v) /\
  (forall q, ~ In q t -> nth_error out' q = nth_error out q).
Proof.
  unfold par_for. destruct (nodupb t) eqn:ND; [|discriminate]. intros E.
  apply nodupb_spec in ND. split; [auto|]. revert out E.
  induction t as [|x t IH]; intros out E; cbn [foldM] in E.
  - injection E as <-. cbn. intuition.
  - inversion ND as [|? ? NI ND']; subst.
    destruct (body x) as [v|] eqn:Hv; [|discriminate]. cbn [bind] in E.
    destruct (Nat.lt_ge_cases x (length out)) as [Lx|Lx].
    2: { unfold set_at in E. destruct (Nat.ltb_spec x (length out)); [lia|discriminate]. }
    rewrite set_at_lt in E by auto. cbn [bind] in E.
    destruct (IH ND' _ E) as (L & P & Q). rewrite upd_length in *.
    split; [auto|]. split.
    + intros q [->|Hq].
      * split; [auto|]. exists v. split; [auto|]. rewrite Q by auto. now apply upd_eq.
      * auto.
    + intros q Hq. rewrite Q by (intros H; apply Hq; now right).
      apply upd_neq. intros ->. apply Hq. now left.
Qed.

Lemma par_for_fails {A} (body : nat -> res A) t out f :
  NoDup t -> par_for t body out = Fail f ->
  exists q, In q t /\ ((exists e, body q = Fail e) \/ length out <= q).
Proof.
  intros ND E.
  assert (D : (exists q, In q t /\ ((exists e, body q = Fail e) \/ length out <= q)) \/
              forall q, In q t -> q < length out /\ exists v, body q = Ok v).
  { clear E ND. induction t as [|x t IH]; [right; intros q []|].
    destruct (body x) as [v|e] eqn:Ev.
    - destruct (Nat.lt_ge_cases x (length out)) as [Lx|Lx].
      + destruct IH as [(q & Hq & H)|H]; [left; exists q; cbn; tauto|].
        right. intros q [<-|Hq]; eauto.
      + left. exists x. cbn. tauto.
    - left. exists x. split; [now left|]. left; eauto. }
  destruct D as [D|D]; [exact D|].
  destruct (par_for_ok body t out ND) as (o & E' & _).
  - intros q Hq. apply D, Hq.
  - intros q Hq. apply D, Hq.
  - rewrite E in E'. discriminate.
Qed.

Section ParFor.
Context {V A : Type} (rep : A -> V -> Prop).

(** The task of [q] computes [body q] alone and stores it in its own cell of [o]. *)
Definition computes (m : mem V) (o : buf) (n : nat) (q : nat) (p : prog V) (r : res A) : Prop :=
  match r with
  | Ok v => if q <? n then exists mq, solo p m = Ok mq /\ rep v (mq (o, q)) else exists f, solo p m = Fail f
  | Fail _ => exists f, solo p m = Fail f
  end.

Lemma region_par_for (o : buf) (targets : list nat) (task : nat -> prog V) (body : nat -> res A) (out : list A)
    (m : mem V) ps' m' :
  NoDup targets ->
  (forall q, In q targets ->
     confined (fun a => ~ (fst a = o /\ In (snd a) targets /\ snd a <> q)) (fun a => a = (o, q)) (task q)) ->
  (forall q, In q targets -> computes m o (length out) q (task q) (body q)) ->
  (forall i v, nth_error out i = Some v -> rep v (m (o, i))) ->
  region (map task targets) m ps' m' ->
  match par_for targets body out with
  | Ok out' => Forall (fun p => p = Done) ps' /\
               (forall i v, nth_error out' i = Some v -> rep v (m' (o, i)))
  | Fail _ => Exists (fun p => exists f, p = Throw f) ps'
  end /\
  (forall a, (forall q, In q targets -> a <> (o, q)) -> m' a = m a).
Proof.
  intros ND C S H R.
  pose (tg := fun i => nth i targets 0).
  pose (rd := fun i (a : addr) => ~ (fst a = o /\ In (snd a) targets /\ snd a <> tg i)).
  pose (wr := fun i (a : addr) => a = (o, tg i)).
  assert (H1 : forall i p, nth_error (map task targets) i = Some p -> confined (rd i) (wr i) p).
  { intros i p Hp. rewrite nth_error_map in Hp. destruct (nth_error targets i) as [q|] eqn:Eq; [|discriminate].
    injection Hp as <-. unfold rd, wr, tg. rewrite (nth_error_nth _ _ 0 Eq). apply C. eapply nth_error_In; eauto. }
  assert (H2 : forall i j a, i <> j -> i < length (map task targets) -> j < length (map task targets) ->
               wr i a -> ~ rd j a /\ ~ wr j a).
  { rewrite map_length. unfold rd, wr. intros i j a NE Li Lj ->. cbn [fst snd].
    assert (D : tg i <> tg j).
    { intros E. apply NE. unfold tg in E. eapply (proj1 (NoDup_nth targets 0)); eauto. }
    split; [|congruence]. intros N. apply N. split; [auto|]. split; [|auto]. apply nth_In; auto. }
  destruct (race_free rd wr _ _ _ _ H1 H2 R) as (L & P & F). clear H1 H2. unfold wr in P, F. clear rd wr.
  rewrite map_length in L.
  split.
  2: { intros a Ha. apply F. rewrite map_length. intros i Li E. apply (Ha (tg i)); auto. apply nth_In; auto. }
  assert (K : forall q, In q targets -> exists i p', i < length targets /\ tg i = q /\ nth_error ps' i = Some p' /\
     match solo (task q) m with
     | Ok mi => p' = Done /\ m' (o, q) = mi (o, q)
     | Fail f => p' = Throw f
     end).
  { intros q Hq. apply In_nth_error in Hq. destruct Hq as [i Hi].
    assert (Li : i < length targets) by (apply nth_error_Some; congruence).
    destruct (nth_error ps' i) as [p'|] eqn:Ep.
    2: { apply nth_error_None in Ep. lia. }
    exists i, p'. split; [auto|]. split; [unfold tg; now apply nth_error_nth|]. split; [auto|].
    specialize (P i (task q) p'). rewrite nth_error_map, Hi in P. specialize (P eq_refl Ep).
    destruct (solo (task q) m); auto. destruct P as [P1 P2]. split; auto. apply P2.
    unfold tg. now rewrite (nth_error_nth _ _ 0 Hi). }
  destruct (par_for targets body out) as [out'|f] eqn:E.
  - destruct (par_for_inv _ _ _ _ E) as (_ & L' & T1 & T2). split.
    + rewrite Forall_forall. intros p' Hp'. apply In_nth_error in Hp'. destruct Hp' as [i Hi].
      assert (Li : i < length targets) by (rewrite <- L; apply nth_error_Some; congruence).
      destruct (nth_error targets i) as [q|] eqn:Eq.
      2: { apply nth_error_None in Eq. lia. }
      assert (Hq : In q targets) by (eapply nth_error_In; eauto).
      destruct (T1 q Hq) as (Lq & v & Hv & _). specialize (S q Hq). unfold computes in S. rewrite Hv in S.
      destruct (Nat.ltb_spec q (length out)); [|lia]. destruct S as (mq & Sq & _).
      specialize (P i (task q) p'). rewrite nth_error_map, Eq in P. specialize (P eq_refl Hi).
      rewrite Sq in P. tauto.
    + intros i v Hi. destruct (in_dec Nat.eq_dec i targets) as [Hin|Hin].
      * destruct (T1 i Hin) as (Lq & v' & Hv & Hn). assert (v' = v) by congruence. subst v'.
        specialize (S i Hin). unfold computes in S. rewrite Hv in S.
        destruct (Nat.ltb_spec i (length out)); [|lia]. destruct S as (mq & Sq & Rq).
        destruct (K i Hin) as (j & p' & _ & _ & _ & Kj). rewrite Sq in Kj. destruct Kj as [_ ->]. exact Rq.
      * rewrite T2 in Hi by auto. rewrite F; [now apply H|].
        rewrite map_length. intros j Lj [= Ej]. apply Hin. rewrite Ej. apply nth_In; auto.
  - destruct (par_for_fails _ _ _ _ ND E) as (q & Hq & D).
    destruct (K q Hq) as (i & p' & _ & _ & Hp' & Kq). specialize (S q Hq).
    assert (X : exists f, solo (task q) m = Fail f).
    { unfold computes in S. destruct (body q) as [v|e] eqn:Ev; [|exact S].
      destruct (Nat.ltb_spec q (length out)); [|exact S]. destruct D as [[e D]|D]; [discriminate|lia]. }
    destruct X as [g X]. rewrite X in Kq. apply Exists_exists. exists p'. split; [eapply nth_error_In; eauto|eauto].
Qed.
End ParFor.
