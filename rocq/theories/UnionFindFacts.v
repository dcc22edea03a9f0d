(** Correctness of class UnionFind. *)
From Coq Require Import List Arith Bool Lia Permutation.
Import ListNotations.
From Verif Require Import Base BaseFacts GraphModel.

(** [root g x k r]: following parents from [x], the root [r] is met after [k] steps. *)
Inductive rootn (g : list nat) : nat -> nat -> nat -> Prop :=
| rootn_self x : nth_error g x = Some x -> rootn g x 0 x
| rootn_step x y k r : nth_error g x = Some y -> x <> y -> rootn g y k r -> rootn g x (S k) r.

Definition root (g : list nat) (x r : nat) : Prop := exists k, rootn g x k r.

Definition uf_ok (g : list nat) : Prop :=
  forall x, x < length g -> exists r, root g x r.

Lemma rootn_lt g x k r : rootn g x k r -> x < length g /\ r < length g.
Proof. induction 1; split; try tauto; eapply nth_error_lt; eauto. Qed.

Lemma rootn_det g x k r : rootn g x k r -> forall k' r', rootn g x k' r' -> k = k' /\ r = r'.
Proof.
  induction 1; intros k' r' H'; inversion H'; subst; try congruence; auto.
  assert (y = y0) by congruence. subst. destruct (IHrootn _ _ H4). auto.
Qed.

Lemma root_det g x r r' : root g x r -> root g x r' -> r = r'.
Proof. intros (k & H) (k' & H'). eapply rootn_det; eauto. Qed.

Lemma rootn_root g x k r : rootn g x k r -> nth_error g r = Some r.
Proof. induction 1; auto. Qed.

Lemma root_root g x r : root g x r -> nth_error g r = Some r.
Proof. intros (k & H); eapply rootn_root; eauto. Qed.

Lemma root_self g r : nth_error g r = Some r -> root g r r.
Proof. intros; exists 0; constructor; auto. Qed.

(** Path length is bounded by the number of elements. *)
Lemma rootn_bound g x k r : rootn g x k r -> k < length g.
Proof.
  intros H.
  assert (P : exists l, length l = S k /\ NoDup l /\ (forall y, In y l -> exists j, rootn g y j r /\ j <= k)).
  { induction H.
    - exists [x]. split; auto. split; [constructor; auto; constructor|].
      intros y [<-|[]]. exists 0. split; auto. constructor; auto.
    - destruct IHrootn as (l & L & N & P). exists (x :: l). split; [simpl; lia|]. split.
      + constructor; auto. intros Hx. destruct (P x Hx) as (j & Hj & Lj).
        assert (Hx' : rootn g x (S k) r) by (econstructor; eauto).
        destruct (rootn_det _ _ _ _ Hj _ _ Hx'). lia.
      + intros z [<-|Hz].
        * exists (S k). split; auto. econstructor; eauto.
        * destruct (P z Hz) as (j & Hj & Lj). exists j. split; auto. }
  destruct P as (l & L & N & P).
  assert (length l <= length (seq 0 (length g))).
  { apply NoDup_incl_length; auto. intros y Hy. destruct (P y Hy) as (j & Hj & _).
    apply in_seq. split; [lia|]. apply rootn_lt in Hj. tauto. }
  rewrite seq_length in H0. lia.
Qed.

(** Path compression. *)
Lemma compress g x r : uf_ok g -> root g x r -> x <> r ->
  (forall z s, root (upd x r g) z s <-> root g z s).
Proof.
  intros HO Hx Hn.
  assert (Hxl : x < length g) by (destruct Hx as (k & Hk); apply rootn_lt in Hk; tauto).
  assert (Hr : nth_error (upd x r g) r = Some r).
  { rewrite upd_neq by auto. eapply root_root; eauto. }
  assert (F : forall z s, root g z s -> root (upd x r g) z s).
  { intros z s (k & Hk). induction Hk.
    - destruct (Nat.eq_dec x x0) as [->|Hne].
      + exfalso. apply Hn. eapply root_det; [|eauto]. apply root_self; auto.
      + apply root_self. rewrite upd_neq; auto.
    - destruct (Nat.eq_dec x x0) as [->|Hne].
      + assert (r0 = r).
        { eapply root_det; [|eauto]. exists (S k). econstructor; eauto. }
        subst. exists 1. econstructor; [apply upd_eq; auto|auto|constructor; auto].
      + destruct IHHk as (k' & Hk'). exists (S k'). econstructor; eauto. rewrite upd_neq; auto. }
  intros z s. split; [|apply F].
  intros H. assert (Hz : z < length g).
  { destruct H as (k & Hk). apply rootn_lt in Hk. rewrite upd_length in Hk. tauto. }
  destruct (HO z Hz) as (s' & Hs'). assert (s' = s); [|subst; auto].
  eapply root_det; [apply F; eauto|auto].
Qed.

Lemma find_fuel_spec f : forall g x k r, uf_ok g -> rootn g x k r -> k < f ->
  exists g', uf_find_fuel f g x = Ok (g', r) /\ length g' = length g /\ uf_ok g' /\
    forall z s, root g' z s <-> root g z s.
Proof.
  induction f; intros g x k r HO H Hk; [lia|]. cbn [uf_find_fuel].
  destruct H as [x E|x y k r E Hne H].
  - rewrite (proj2 (at_ok g x x) E). cbn [bind]. rewrite Nat.eqb_refl.
    exists g. repeat split; auto.
  - rewrite (proj2 (at_ok g x y) E). cbn [bind].
    destruct (Nat.eqb_spec x y); [contradiction|].
    destruct (IHf g y k r HO H) as (g1 & E1 & L1 & O1 & R1); [lia|]. rewrite E1. cbn [bind].
    rewrite set_at_lt by (rewrite L1; eapply nth_error_lt; eauto). cbn [bind].
    eexists. split; [reflexivity|]. split; [rewrite upd_length; auto|].
    assert (Hx : root g x r) by (exists (S k); econstructor; eauto).
    assert (Hxr : x <> r).
    { intros ->. pose proof (root_root _ _ _ Hx). congruence. }
    assert (C : forall z s, root (upd x r g1) z s <-> root g1 z s).
    { apply compress; auto. apply R1; auto. }
    split.
    + intros z Hz. rewrite upd_length in Hz. destruct (O1 z Hz) as (s & Hs). exists s. apply C; auto.
    + intros z s. rewrite C. apply R1.
Qed.

Lemma find_spec g x r : uf_ok g -> root g x r ->
  exists g', uf_find g x = Ok (g', r) /\ length g' = length g /\ uf_ok g' /\
    forall z s, root g' z s <-> root g z s.
Proof.
  intros HO (k & Hk). unfold uf_find. eapply find_fuel_spec; eauto.
  apply rootn_bound in Hk. lia.
Qed.

Definition same (g : list nat) (x y : nat) : Prop := exists r, root g x r /\ root g y r.

Lemma same_trans g x y z : same g x y -> same g y z -> same g x z.
Proof.
  intros (r & A & B) (s & C & D). assert (r = s) by (eapply root_det; eauto). subst. exists s; auto.
Qed.
Lemma same_sym g x y : same g x y -> same g y x.
Proof. intros (r & A & B). exists r; auto. Qed.

Lemma link g px py : uf_ok g -> nth_error g px = Some px -> nth_error g py = Some py -> px <> py ->
  let g' := upd px py g in
  uf_ok g' /\ forall z s, root g z s -> root g' z (if s =? px then py else s).
Proof.
  intros HO Hpx Hpy Hne g'.
  assert (Lx : px < length g) by (eapply nth_error_lt; eauto).
  assert (Hpy' : nth_error g' py = Some py) by (unfold g'; rewrite upd_neq; auto).
  assert (F : forall z s, root g z s -> root g' z (if s =? px then py else s)).
  { intros z s (k & Hk). induction Hk.
    - destruct (Nat.eqb_spec x px) as [->|Hn].
      + exists 1. econstructor; [apply upd_eq; auto|auto|constructor; auto].
      + apply root_self. unfold g'. rewrite upd_neq; auto.
    - assert (px <> x) by (intros ->; congruence).
      destruct IHHk as (k' & Hk'). exists (S k'). econstructor; eauto.
      unfold g'. rewrite upd_neq; auto. }
  split; auto. intros z Hz. unfold g' in Hz. rewrite upd_length in Hz.
  destruct (HO z Hz) as (s & Hs). eexists; apply F; eauto.
Qed.

Lemma unite_spec g x y : uf_ok g -> x < length g -> y < length g ->
  exists g', uf_unite g x y = Ok g' /\ length g' = length g /\ uf_ok g' /\
    (forall a b, same g a b -> same g' a b) /\ same g' x y /\
    (forall a b, same g' a b -> same g a b \/ (same g a x /\ same g y b) \/ (same g a y /\ same g x b)).
Proof.
  intros HO Hx Hy. unfold uf_unite.
  destruct (HO x Hx) as (px & Rx). destruct (HO y Hy) as (py & Ry).
  destruct (find_spec g x px HO Rx) as (g1 & E1 & L1 & O1 & R1). rewrite E1. cbn [bind].
  destruct (find_spec g1 y py O1 (proj2 (R1 _ _) Ry)) as (g2 & E2 & L2 & O2 & R2). rewrite E2. cbn [bind].
  assert (R : forall z s, root g2 z s <-> root g z s) by (intros; rewrite R2; apply R1).
  assert (S : forall a b, same g2 a b <-> same g a b).
  { intros a b. unfold same. split; intros (r & A & B); exists r; split; apply R; auto. }
  destruct (Nat.eqb_spec px py) as [->|Hne].
  - exists g2. split; auto. split; [lia|]. split; auto. split; [intros; apply S; auto|].
    split; [apply S; exists py; auto|]. intros a b H. left. apply S; auto.
  - assert (Hpx : nth_error g2 px = Some px) by (apply root_root with x, R; auto).
    assert (Hpy : nth_error g2 py = Some py) by (apply root_root with y, R; auto).
    destruct (link g2 px py O2 Hpx Hpy Hne) as [O3 F].
    rewrite set_at_lt by (eapply nth_error_lt; eauto).
    exists (upd px py g2). split; auto. split; [rewrite upd_length; lia|]. split; auto.
    split; [|split].
    + intros a b (r & A & B). exists (if r =? px then py else r). split; apply F, R; auto.
    + exists py. split.
      * pose proof (F x px (proj2 (R _ _) Rx)) as H. rewrite Nat.eqb_refl in H. auto.
      * pose proof (F y py (proj2 (R _ _) Ry)) as H.
        destruct (Nat.eqb_spec py px); [congruence|]. auto.
    + intros a b (r & A & B).
      assert (La : a < length g).
      { destruct A as (k & Hk). apply rootn_lt in Hk. rewrite upd_length in Hk. lia. }
      assert (Lb : b < length g).
      { destruct B as (k & Hk). apply rootn_lt in Hk. rewrite upd_length in Hk. lia. }
      destruct (HO a La) as (ra & Ra). destruct (HO b Lb) as (rb & Rb).
      pose proof (root_det _ _ _ _ A (F a ra (proj2 (R _ _) Ra))) as Ea.
      pose proof (root_det _ _ _ _ B (F b rb (proj2 (R _ _) Rb))) as Eb.
      destruct (Nat.eqb_spec ra px) as [->|Na], (Nat.eqb_spec rb px) as [->|Nb].
      * left. exists px; auto.
      * right. left. split; [exists px; auto|exists py; split; auto; congruence].
      * right. right. split; [exists py; split; auto; congruence|exists px; auto].
      * left. exists ra. split; auto. congruence.
Qed.

Lemma nth_uf_new n x : x < n -> nth_error (uf_new n) x = Some x.
Proof. intros. unfold uf_new. rewrite nth_error_seq by auto. auto. Qed.

Lemma uf_new_ok n : uf_ok (uf_new n).
Proof.
  intros x Hx. unfold uf_new in Hx. rewrite seq_length in Hx. exists x. apply root_self, nth_uf_new; auto.
Qed.

Lemma same_new n a b : same (uf_new n) a b -> a = b.
Proof.
  intros (r & (k & A) & (k' & B)).
  assert (G : forall k x, rootn (uf_new n) x k r -> x = r).
  { induction k0; intros x H; inversion H; subst; auto.
    pose proof (nth_error_lt _ _ _ H1) as L. unfold uf_new in L. rewrite seq_length in L.
    rewrite nth_uf_new in H1 by auto. congruence. }
  rewrite (G _ _ A), (G _ _ B); auto.
Qed.
