(** Facts about the base layer. *)
From Coq Require Import List Arith Bool Lia Permutation.
Import ListNotations.
From Verif Require Import Base.

(** * Outcomes and folds *)
Lemma bind_ok {A B} (m : res A) (k : A -> res B) b :
  bind m k = Ok b <-> exists a, m = Ok a /\ k a = Ok b.
Proof. destruct m; simpl; split; intros H; eauto; try destruct H as (?&?&?); congruence. Qed.

Lemma foldM_app {A S} (f : S -> A -> res S) l1 l2 s :
  foldM f (l1 ++ l2) s = bind (foldM f l1 s) (foldM f l2).
Proof.
  revert s; induction l1; simpl; intros s; [reflexivity|].
  destruct (f s a); simpl; auto.
Qed.

Lemma foldM_ind {A S} (f : S -> A -> res S) (P : list A -> S -> Prop) l s0 :
  P [] s0 ->
  (forall done a rest s, l = done ++ a :: rest -> P done s ->
     exists s', f s a = Ok s' /\ P (done ++ [a]) s') ->
  exists s', foldM f l s0 = Ok s' /\ P l s'.
Proof.
  intros H0 Hs.
  assert (G : forall rest done s, l = done ++ rest -> P done s ->
            exists s', foldM f rest s = Ok s' /\ P l s').
  { induction rest; intros done s E HP; simpl.
    - rewrite app_nil_r in E; subst; eauto.
    - destruct (Hs done a rest s E HP) as (s' & E1 & HP').
      rewrite E1; simpl. apply (IHrest (done ++ [a])).
      + rewrite <- app_assoc; exact E.
      + exact HP'. }
  apply (G l [] s0); auto.
Qed.

(** Partial-correctness version: if the whole fold succeeds, the invariant holds. *)
Lemma foldM_inv {A S} (f : S -> A -> res S) (P : list A -> S -> Prop) l s0 s1 :
  foldM f l s0 = Ok s1 ->
  P [] s0 ->
  (forall done a rest s s', l = done ++ a :: rest -> P done s -> f s a = Ok s' ->
     P (done ++ [a]) s') ->
  P l s1.
Proof.
  intros HF H0 Hs.
  assert (G : forall rest done s, l = done ++ rest -> P done s ->
            foldM f rest s = Ok s1 -> P l s1).
  { induction rest; intros done s E HP; simpl.
    - rewrite app_nil_r in E; subst; intros [= ->]; auto.
    - destruct (f s a) eqn:E1; simpl; [|discriminate]. intros E2.
      apply (IHrest (done ++ [a]) a0); eauto.
      rewrite <- app_assoc; exact E. }
  apply (G l [] s0); auto.
Qed.

Lemma foldM_ext {A S} (f g : S -> A -> res S) l s :
  (forall s a, In a l -> f s a = g s a) -> foldM f l s = foldM g l s.
Proof.
  revert s; induction l; simpl; intros s H; [reflexivity|].
  rewrite (H s a) by auto. destruct (g s a); simpl; auto.
Qed.

(** A fold whose body never fails is an ordinary fold. *)
Lemma foldM_pure {A S} (f : S -> A -> res S) (g : S -> A -> S) l s :
  (forall s a, In a l -> f s a = Ok (g s a)) -> foldM f l s = Ok (fold_left g l s).
Proof.
  revert s; induction l; simpl; intros s H; [reflexivity|].
  rewrite (H s a) by auto. simpl. auto.
Qed.

Lemma mapM_ok {A B} (f : A -> res B) l bs :
  mapM f l = Ok bs <-> Forall2 (fun a b => f a = Ok b) l bs.
Proof.
  revert bs; induction l; simpl; intros bs; split; intros H.
  - injection H as <-; constructor.
  - inversion H; reflexivity.
  - apply bind_ok in H as (b & E1 & H). apply bind_ok in H as (bs' & E2 & H).
    injection H as <-. constructor; auto. apply IHl; auto.
  - inversion H; subst. rewrite H2; simpl. apply IHl in H4. rewrite H4; reflexivity.
Qed.

Lemma mapM_total {A B} (f : A -> res B) l :
  (forall a, In a l -> exists b, f a = Ok b) -> exists bs, mapM f l = Ok bs.
Proof.
  induction l; simpl; intros H; [eauto|].
  destruct (H a) as (b & Hb); auto. rewrite Hb; simpl.
  destruct IHl as (bs & Hbs); auto. rewrite Hbs; simpl; eauto.
Qed.

Lemma mapM_pure {A B} (f : A -> res B) (g : A -> B) l :
  (forall a, In a l -> f a = Ok (g a)) -> mapM f l = Ok (map g l).
Proof.
  induction l; simpl; intros H; [reflexivity|].
  rewrite (H a) by auto; simpl. rewrite IHl by auto. reflexivity.
Qed.

Lemma mapM_nth {A B} (f : A -> res B) l bs i a :
  mapM f l = Ok bs -> nth_error l i = Some a -> exists b, nth_error bs i = Some b /\ f a = Ok b.
Proof.
  intros H; apply mapM_ok in H; revert i; induction H; intros [|i]; simpl; try discriminate.
  - intros [= <-]; eauto.
  - auto.
Qed.

Lemma mapM_length {A B} (f : A -> res B) l bs : mapM f l = Ok bs -> length bs = length l.
Proof. intros H; apply mapM_ok in H; induction H; simpl; auto. Qed.

Lemma Forall2_nth {A B} (R : A -> B -> Prop) l l' :
  Forall2 R l l' <->
  length l = length l' /\ forall i a b, nth_error l i = Some a -> nth_error l' i = Some b -> R a b.
Proof.
  split.
  - intros H; split; [induction H; simpl; auto|].
    induction H; intros [|i] a b; simpl; try discriminate; eauto. congruence.
  - revert l'; induction l; intros [|b l'] [HL H]; simpl in *; try discriminate; constructor.
    + apply (H 0); reflexivity.
    + apply IHl; split; [lia|]. intros i x y; apply (H (S i)).
Qed.

(** * Vectors *)
Lemma at_ok {A} (v : list A) i a : at_ v i = Ok a <-> nth_error v i = Some a.
Proof. unfold at_; destruct (nth_error v i); split; congruence. Qed.

Lemma at_fail {A} (v : list A) i : length v <= i -> at_ v i = Fail FOutOfRange.
Proof. unfold at_; intros H; apply nth_error_None in H; rewrite H; reflexivity. Qed.

Lemma at_lt {A} (v : list A) i : i < length v -> exists a, at_ v i = Ok a /\ nth_error v i = Some a.
Proof.
  intros H. destruct (nth_error v i) eqn:E.
  - exists a; split; auto. apply at_ok; auto.
  - apply nth_error_None in E; lia.
Qed.

Lemma nth_error_lt {A} (v : list A) i a : nth_error v i = Some a -> i < length v.
Proof. intros H; apply nth_error_Some; congruence. Qed.

Lemma upd_length {A} i (a : A) v : length (upd i a v) = length v.
Proof. revert i; induction v; intros [|i]; simpl; auto. Qed.

Lemma upd_eq {A} i (a : A) v : i < length v -> nth_error (upd i a v) i = Some a.
Proof. revert i; induction v; intros [|i]; simpl; try lia; auto. intros; apply IHv; lia. Qed.

Lemma upd_neq {A} i j (a : A) v : i <> j -> nth_error (upd i a v) j = nth_error v j.
Proof.
  revert i j; induction v; intros [|i] [|j]; simpl; try congruence; auto.
Qed.

Lemma upd_nth {A} i j (a : A) v :
  nth_error (upd i a v) j = if (i =? j) && (i <? length v) then Some a else nth_error v j.
Proof.
  destruct (Nat.eqb_spec i j); simpl; [subst|apply upd_neq; auto].
  destruct (Nat.ltb_spec j (length v)); [apply upd_eq; auto|].
  assert (nth_error v j = None) by (apply nth_error_None; lia).
  rewrite H0. apply nth_error_None. rewrite upd_length; lia.
Qed.

Lemma set_at_ok {A} (v : list A) i a v' :
  set_at v i a = Ok v' <-> i < length v /\ v' = upd i a v.
Proof.
  unfold set_at; destruct (Nat.ltb_spec i (length v)); split; intros H'.
  - injection H' as <-; auto.
  - destruct H' as [_ ->]; auto.
  - discriminate.
  - lia.
Qed.

Lemma set_at_lt {A} (v : list A) i a : i < length v -> set_at v i a = Ok (upd i a v).
Proof. intros; apply set_at_ok; auto. Qed.

Lemma nth_error_repeat {A} (x : A) n i : i < n -> nth_error (repeat x n) i = Some x.
Proof. revert i; induction n; intros [|i]; simpl; try lia; auto. intros; apply IHn; lia. Qed.

Lemma nth_error_seq s n i : i < n -> nth_error (seq s n) i = Some (s + i).
Proof.
  revert s i; induction n; intros s [|i]; simpl; try lia; intros.
  - f_equal; lia.
  - rewrite IHn by lia. f_equal; lia.
Qed.

Lemma nth_error_ext {A} (l l' : list A) :
  (forall i, nth_error l i = nth_error l' i) -> l = l'.
Proof.
  revert l'; induction l; intros [|b l'] H; auto.
  - specialize (H 0); discriminate.
  - specialize (H 0); discriminate.
  - f_equal; [specialize (H 0); simpl in H; congruence|].
    apply IHl; intros i; apply (H (S i)).
Qed.

Lemma nth_error_map {A B} (f : A -> B) l i :
  nth_error (map f l) i = option_map f (nth_error l i).
Proof. revert i; induction l; intros [|i]; simpl; auto. Qed.

Lemma seq_split a n b : In b (seq a n) -> seq a n = seq a (b - a) ++ b :: seq (S b) (n - S (b - a)).
Proof.
  intros H; apply in_seq in H.
  replace n with ((b - a) + S (n - S (b - a))) at 1 by lia.
  rewrite seq_app. simpl. do 2 f_equal; [lia|f_equal; lia].
Qed.

Lemma seq_app_inv a n done x rest :
  seq a n = done ++ x :: rest -> done = seq a (length done) /\ x = a + length done /\ length done < n.
Proof.
  revert a n; induction done; intros a' [|n]; simpl; try discriminate.
  - intros [= <- <-]. repeat split; lia.
  - intros [= <- H]. apply IHdone in H as (E & -> & L). repeat split; try lia. f_equal; auto.
Qed.

(** * Sets *)
Lemma smem_In x s : smem x s = true <-> In x s.
Proof.
  unfold smem; rewrite existsb_exists; split.
  - intros (y & H & E); apply Nat.eqb_eq in E; subst; auto.
  - intros H; exists x; split; auto. apply Nat.eqb_refl.
Qed.

Lemma smem_false x s : smem x s = false <-> ~ In x s.
Proof. rewrite <- smem_In. destruct (smem x s); split; congruence. Qed.

Lemma sinsert_In x y s : In y (sinsert x s) <-> y = x \/ In y s.
Proof.
  induction s; simpl; [intuition|].
  destruct (Nat.ltb_spec x a); [simpl; intuition|].
  destruct (Nat.eqb_spec x a); simpl; [subst; intuition|].
  rewrite IHs; intuition.
Qed.

Lemma sinsert_hd x s y : match sinsert x s with [] => True | z :: _ => z = x \/ hd_error s = Some z end
                         /\ (y < x -> (match s with [] => True | z :: _ => y < z end) ->
                             match sinsert x s with [] => True | z :: _ => y < z end).
Proof.
  destruct s; simpl; [auto|].
  destruct (Nat.ltb_spec x n); simpl; [auto|].
  destruct (Nat.eqb_spec x n); simpl; auto.
Qed.

Lemma is_set_sinsert x s : is_set s -> is_set (sinsert x s).
Proof.
  induction s; simpl; [auto|].
  destruct (Nat.ltb_spec x a); [simpl; intuition|].
  destruct (Nat.eqb_spec x a); [auto|].
  simpl. intros [H1 H2]. split; auto.
  destruct (sinsert_hd x s a) as [_ H3]. apply H3; auto; lia.
Qed.

Lemma sinsert_range_In l : forall s x, In x (sinsert_range s l) <-> In x s \/ In x l.
Proof.
  unfold sinsert_range; induction l; simpl; intros s x; [intuition|].
  rewrite IHl, sinsert_In. intuition.
Qed.

Lemma is_set_sinsert_range l : forall s, is_set s -> is_set (sinsert_range s l).
Proof. unfold sinsert_range; induction l; simpl; auto using is_set_sinsert. Qed.

Lemma set_of_In l x : In x (set_of l) <-> In x l.
Proof. unfold set_of; rewrite sinsert_range_In; simpl; intuition. Qed.

Lemma is_set_set_of l : is_set (set_of l).
Proof. apply is_set_sinsert_range; exact I. Qed.

Lemma is_set_lt x s y : is_set (x :: s) -> In y s -> x < y.
Proof.
  revert x; induction s; simpl; [intuition|].
  intros x [H1 H2] [->|H]; auto.
  apply (IHs a) in H; auto. lia.
Qed.

Lemma is_set_tail x s : is_set (x :: s) -> is_set s.
Proof. simpl; tauto. Qed.

Lemma is_set_NoDup s : is_set s -> NoDup s.
Proof.
  induction s; intros H; constructor.
  - intros HI. apply (is_set_lt _ _ _ H) in HI. lia.
  - apply IHs, (is_set_tail _ _ H).
Qed.

Lemma is_set_ext s1 : forall s2, is_set s1 -> is_set s2 ->
  (forall x, In x s1 <-> In x s2) -> s1 = s2.
Proof.
  induction s1 as [|a s1 IH]; intros [|b s2] H1 H2 E; auto.
  - exfalso; apply (E b); simpl; auto.
  - exfalso; apply (E a); simpl; auto.
  - assert (a = b).
    { assert (Ha : In a (b :: s2)) by (apply E; simpl; auto).
      assert (Hb : In b (a :: s1)) by (apply E; simpl; auto).
      destruct Ha as [|Ha]; auto. destruct Hb as [|Hb]; auto.
      apply (is_set_lt _ _ _ H2) in Ha. apply (is_set_lt _ _ _ H1) in Hb. lia. }
    subst. f_equal. apply IH; eauto using is_set_tail.
    intros x; split; intros Hx.
    + assert (In x (b :: s2)) as [->|] by (apply E; simpl; auto); auto.
      exfalso; apply (is_set_lt _ _ _ H1) in Hx; lia.
    + assert (In x (b :: s1)) as [->|] by (apply E; simpl; auto); auto.
      exfalso; apply (is_set_lt _ _ _ H2) in Hx; lia.
Qed.

Lemma is_set_map_seq n : is_set (seq 0 n).
Proof.
  assert (forall k, is_set (seq k n)); auto.
  induction n; intros k; [exact I|].
  change (is_set (k :: seq (S k) n)). split; [|apply IHn]. destruct n; simpl; auto.
Qed.

Lemma is_set_filter f s : is_set s -> is_set (filter f s).
Proof.
  induction s; intros H; [exact I|].
  simpl. destruct (f a); [|apply IHs, (is_set_tail _ _ H)].
  split; [|apply IHs, (is_set_tail _ _ H)].
  destruct (filter f s) eqn:E; auto.
  apply (is_set_lt _ _ _ H). eapply proj1, filter_In. rewrite E. left; reflexivity.
Qed.

Lemma is_setb_spec s : is_setb s = true <-> is_set s.
Proof.
  induction s; simpl; [tauto|]. rewrite andb_true_iff, IHs.
  destruct s; [tauto|]. rewrite Nat.ltb_lt. tauto.
Qed.

Lemma is_set_app_last s x : is_set s -> (forall y, In y s -> y < x) -> sinsert x s = s ++ [x].
Proof.
  induction s; intros H HL; simpl; auto.
  assert (a < x) by (apply HL; simpl; auto).
  destruct (Nat.ltb_spec x a); [lia|]. destruct (Nat.eqb_spec x a); [lia|].
  f_equal. apply IHs; eauto using is_set_tail. intros; apply HL; simpl; auto.
Qed.

(** Counting: the strictly ascending lists over a finite universe. *)
Fixpoint subsets (u : list nat) : list (list nat) :=
  match u with [] => [[]] | x :: u' => subsets u' ++ map (cons x) (subsets u') end.

Lemma subsets_length u : length (subsets u) = 2 ^ length u.
Proof. induction u; simpl; auto. rewrite app_length, map_length, IHu. lia. Qed.

Lemma subsets_In u : is_set u -> forall s, is_set s -> incl s u -> In s (subsets u).
Proof.
  induction u; intros Hu s Hs Hi.
  - destruct s; [left; auto|]. destruct (Hi n); simpl; auto.
  - simpl. apply in_or_app.
    destruct s as [|b s].
    + left. apply IHu; eauto using is_set_tail; try exact I. intros ? [].
    + destruct (Nat.eq_dec a b) as [->|Hn].
      * right. apply in_map. apply IHu; eauto using is_set_tail.
        intros x Hx. destruct (Hi x); simpl; auto. subst.
        apply (is_set_lt _ _ _ Hs) in Hx. lia.
      * left. apply IHu; eauto using is_set_tail.
        intros x Hx. assert (b <= x).
        { destruct Hx as [->|Hx]; auto. apply (is_set_lt _ _ _ Hs) in Hx. lia. }
        destruct (Hi x Hx) as [E|]; auto. subst x. exfalso.
        destruct (Hi b) as [E|Hb]; simpl; auto.
        apply (is_set_lt _ _ _ Hu) in Hb. lia.
Qed.

(** * Loops *)
Lemma iter2_spec {S R} (step : S -> S + R) (I : S -> Prop) (m : S -> nat) (Q : R -> Prop) :
  (forall s, I s -> match step s with inl s' => I s' /\ m s' < m s | inr r => Q r end) ->
  forall k s, I s -> match iter2 k step s with
                     | inl s' => I s' /\ m s' + 2 ^ k <= m s
                     | inr r => Q r end.
Proof.
  intros H; induction k; simpl; intros s Hs.
  - specialize (H s Hs). destruct (step s); auto. intuition lia.
  - specialize (IHk s Hs) as IH. destruct (iter2 k step s) as [s'|r]; auto.
    destruct IH as [H1 L1]. specialize (IHk s' H1). destruct (iter2 k step s'); auto.
    intuition lia.
Qed.

Lemma loop_spec {S R} (step : S -> S + res R) (I : S -> Prop) (m : S -> nat) (Q : res R -> Prop) k s :
  (forall s, I s -> match step s with inl s' => I s' /\ m s' < m s | inr r => Q r end) ->
  I s -> m s < 2 ^ k -> Q (loop k step s).
Proof.
  intros H Hs Hm. unfold loop.
  pose proof (iter2_spec step I m Q H k s Hs) as G.
  destruct (iter2 k step s); auto. destruct G; lia.
Qed.

Lemma pow2_gt n : n < 2 ^ n.
Proof. apply Nat.pow_gt_lin_r; lia. Qed.

Lemma NoDup_incl_len {A} (l l' : list A) : NoDup l -> incl l l' -> length l <= length l'.
Proof. apply NoDup_incl_length. Qed.

Lemma in_split_first {A} (eqd : forall a b : A, {a = b} + {a <> b}) (x : A) l :
  In x l -> exists l1 l2, l = l1 ++ x :: l2 /\ ~ In x l1.
Proof.
  induction l; simpl; [tauto|]. intros H.
  destruct (eqd a x) as [->|Hn]; [exists [], l; auto|].
  destruct H as [|H]; [congruence|].
  destruct (IHl H) as (l1 & l2 & -> & Hni). exists (a :: l1), l2. simpl; intuition.
Qed.

Lemma firstn_seq n a m : firstn n (seq a m) = seq a (min n m).
Proof. revert a m; induction n; intros a [|m]; simpl; auto. f_equal; auto. Qed.
