(** Facts about pipelines of `spec2spec`: how negation, reversal and minimisation of automata
    combine.  The operations are compared as automata, state numbers included. *)
From Coq Require Import List Arith Bool Lia.
Import ListNotations.
From Verif Require Import Base BaseFacts GraphModel Spec GraphFacts FromNfa GraphOps Minimize Quotient Canonical Numbering.
Local Open Scope list_scope.

(** * Negation *)
Lemma negated_full g : wf_graph g -> exists h, negated g = Ok h /\ wf_graph h /\ g_sad h = [] /\ size h = size g /\
  initial_state h = initial_state g /\ (forall q b, nxt h q b = nxt g q b) /\ (forall q, q < size g -> fin h q = negb (fin g q)).
Proof.
  intros W. destruct (negated_correct g W) as (h & E & Wh & Sh & _). exists h. split; auto. split; auto.
  unfold negated in E. rewrite negated_finals in E by auto. cbn [bind] in E. apply graph_new_ok in E as (_ & _ & ->).
  split; [reflexivity|]. split; [exact Sh|]. split; [reflexivity|]. split; [reflexivity|]. intros q Hq. unfold fin at 1. cbn [graph_of g_final].
  apply eq_true_iff_eq. rewrite smem_In, filter_In, in_seq. intuition lia.
Qed.

Lemma run_same g h : (forall q b, nxt h q b = nxt g q b) -> forall w q, run h q w = run g q w.
Proof. intros N. induction w as [|b w IH]; intros q; [reflexivity|]. unfold run in *. cbn [fold_left]. rewrite N. apply IH. Qed.

(** * Removing unreachable states, then merging *)
Lemma removed_sad g h : removed_unreachable g = Ok h -> g_sad h = [].
Proof.
  unfold removed_unreachable. intros E. do 4 (apply bind_ok in E as (? & _ & E)).
  apply graph_new_ok in E as (_ & _ & ->). reflexivity.
Qed.

Lemma nth_error_inj {A} (l : list A) i j x : NoDup l -> nth_error l i = Some x -> nth_error l j = Some x -> i = j.
Proof. intros N H1 H2. rewrite NoDup_nth_error in N. apply N; [eapply nth_error_lt; eauto|congruence]. Qed.

Lemma removed_neg g h g1 : wf_graph g -> negated g = Ok h -> removed_unreachable g = Ok g1 ->
  exists h1, removed_unreachable h = Ok h1 /\ negated g1 = Ok h1.
Proof.
  intros W E E1. destruct (negated_full g W) as (x & Ex & Wh & _ & Sh & Ih & Nh & Fh). rewrite E in Ex. injection Ex as <-.
  destruct (removed_unreachable_correct g W) as (x & R & Ex & W1 & RS & RR & S1 & I1 & N1 & F1). rewrite E1 in Ex. injection Ex as <-.
  destruct (removed_unreachable_correct h Wh) as (h1 & R' & Eh & Wh1 & RS' & RR' & S2 & I2 & N2 & F2).
  destruct (negated_full g1 W1) as (g2 & E2 & W2 & D2 & S3 & I3 & N3 & F3).
  exists h1. split; auto. rewrite E2. f_equal.
  assert (ER : R' = R).
  { apply is_set_ext; auto. intros q. rewrite RR, RR'. unfold reach. rewrite Ih. setoid_rewrite (run_same g h Nh). tauto. }
  subst R'. assert (ND : NoDup R) by (apply is_set_NoDup; auto).
  assert (RL : forall q, In q R -> q < size g) by (intros q Hq; apply reach_lt; auto; apply RR; auto).
  apply graph_same; auto; try congruence.
  - rewrite D2. symmetry. eapply removed_sad; eauto.
  - rewrite I3. eapply nth_error_inj; [exact ND|exact I1|]. rewrite Ih in I2. exact I2.
  - intros i Hi. rewrite S3 in Hi. rewrite F3 by auto. destruct (nth_error R i) as [q|] eqn:Eq; [|apply nth_error_None in Eq; lia].
    rewrite (F1 i q Eq), (F2 i q Eq), Fh; auto. apply RL. eapply nth_error_In; eauto.
  - intros i b Hi. rewrite S3 in Hi. rewrite N3. destruct (nth_error R i) as [q|] eqn:Eq; [|apply nth_error_None in Eq; lia].
    eapply nth_error_inj; [exact ND|apply N1; eauto|]. pose proof (N2 i q b Eq) as X. rewrite Nh in X. exact X.
Qed.

(** The numbering of the classes is determined by the equivalence. *)
Lemma class_unique n (E E' : nat -> nat -> Prop) (c c' : nat -> nat -> Prop) :
  (forall p q, p < n -> q < n -> (E p q <-> E' p q)) ->
  (forall q, q < n -> exists i, c q i) -> (forall q, q < n -> exists i, c' q i) ->
  (forall q i, c q i -> q < n) -> (forall q i, c' q i -> q < n) ->
  (forall q q' i, c q i -> c q' i -> E q q') -> (forall q q' i, c' q i -> c' q' i -> E' q q') ->
  (forall q q' i i', c q i -> c q' i' -> E q q' -> i = i') -> (forall q q' i i', c' q i -> c' q' i' -> E' q q' -> i = i') ->
  (forall q i j, c q i -> j < i -> exists p, p < q /\ c p j) -> (forall q i j, c' q i -> j < i -> exists p, p < q /\ c' p j) ->
  forall q i i', c q i -> c' q i' -> i = i'.
Proof.
  intros EE T T' B B' A1 A1' A2 A2' O O'. induction q as [q IH] using lt_wf_ind. intros i i' H H'.
  destruct (lt_eq_lt_dec i i') as [[L|]|L]; auto; exfalso.
  - destruct (O' q i' i H' L) as (p & Lp & Hp). destruct (T p) as (k & Hk); [apply B in H; lia|].
    pose proof (IH p Lp k i Hk Hp) as ->. assert (i = i'); [|lia].
    apply (A2' p q); auto. apply EE; [apply (B' _ _ Hp)|apply (B' _ _ H')|]. apply (A1 p q i); auto.
  - destruct (O q i i' H L) as (p & Lp & Hp). destruct (T' p) as (k & Hk); [apply B in H; lia|].
    pose proof (IH p Lp i' k Hp Hk) as <-. assert (i = i'); [|lia].
    symmetry. apply (A2 p q); auto. apply EE; [apply (B _ _ Hp)|apply (B _ _ H)|]. apply (A1' p q i'); auto.
Qed.

(** Two automata over the same states, merged: if states are indistinguishable in one exactly when they
    are in the other, the results have the same shape. *)
Lemma grouped_shape g h g1 h1 : wf_graph g -> wf_graph h -> size h = size g ->
  (forall p q, p < size g -> q < size g -> (equiv g p q <-> equiv h p q)) ->
  grouped_nondistinguishable g = Ok g1 -> grouped_nondistinguishable h = Ok h1 ->
  wf_graph g1 /\ wf_graph h1 /\ g_sad g1 = [] /\ g_sad h1 = [] /\ size g1 = size h1 /\
  exists c : nat -> nat -> Prop,
    (forall q, q < size g -> exists i, c q i) /\ (forall i, i < size g1 -> exists q, q < size g /\ c q i) /\
    (forall q i i', c q i -> c q i' -> i = i') /\ (forall q i, c q i -> q < size g /\ i < size g1) /\
    (forall q i j, c q i -> j < i -> exists p, p < q /\ c p j) /\
    c (initial_state g) (initial_state g1) /\ c (initial_state h) (initial_state h1) /\
    (forall q i b, c q i -> c (nxt g q b) (nxt g1 i b)) /\ (forall q i b, c q i -> c (nxt h q b) (nxt h1 i b)) /\
    (forall q i, c q i -> fin g1 i = fin g q) /\ (forall q i, c q i -> fin h1 i = fin h q).
Proof.
  intros W V SZ EQ E1 E2.
  destruct (grouped_full g W) as (x & Ex & W1 & c & C1 & C2 & C3 & C4 & C5 & C6 & C7 & C8 & C9 & C10). rewrite E1 in Ex. injection Ex as <-.
  destruct (grouped_full h V) as (x & Ex & V1 & d & D1 & D2 & D3 & D4 & D5 & D6 & D7 & D8 & D9 & D10). rewrite E2 in Ex. injection Ex as <-.
  rewrite SZ in *.
  assert (U : forall q i i', c q i -> d q i' -> i = i').
  { apply (class_unique (size g) (equiv g) (equiv h) c d); auto.
    - intros q Hq. destruct (C1 q Hq) as (i & _ & Hi). eauto.
    - intros q Hq. destruct (D1 q Hq) as (i & _ & Hi). eauto. }
  assert (CD : forall q i, c q i <-> d q i).
  { intros q i. split; intros H.
    - destruct (D1 q (C3 _ _ H)) as (j & _ & Hj). rewrite (U q i j H Hj). exact Hj.
    - destruct (C1 q (D3 _ _ H)) as (j & _ & Hj). rewrite <- (U q j i Hj H). exact Hj. }
  assert (CL : forall q i, c q i -> i < size g1).
  { intros q i H. destruct (C1 q (C3 _ _ H)) as (j & Lj & Hj). rewrite (C5 q q i j H Hj (equiv_refl g q)). exact Lj. }
  assert (DL : forall q i, d q i -> i < size h1).
  { intros q i H. destruct (D1 q (D3 _ _ H)) as (j & Lj & Hj). rewrite (D5 q q i j H Hj (equiv_refl h q)). exact Lj. }
  split; auto. split; auto. split; auto. split; auto. split.
  { assert (X : forall i, i < size g1 <-> i < size h1).
    { intros i. split; intros H.
      - destruct (C2 i H) as (q & _ & Hq). apply (DL q). apply CD. exact Hq.
      - destruct (D2 i H) as (q & _ & Hq). apply (CL q). apply CD. exact Hq. }
    destruct (lt_eq_lt_dec (size g1) (size h1)) as [[L|]|L]; auto; apply X in L; lia. }
  exists c. split; [intros q Hq; destruct (C1 q Hq) as (i & _ & Hi); eauto|]. split; auto.
  split; [intros q i i' H H'; eapply C5; eauto using equiv_refl|]. split; [intros q i H; split; eauto|]. split; auto. split; auto.
  split; [apply CD; auto|]. split; auto. split; [intros q i b H; apply CD; apply D7; apply CD; auto|].
  split; [intros; symmetry; auto|]. intros q i H. symmetry. apply D8. apply CD. exact H.
Qed.

Lemma grouped_neg g h g1 : wf_graph g -> negated g = Ok h -> grouped_nondistinguishable g = Ok g1 ->
  exists h1, grouped_nondistinguishable h = Ok h1 /\ negated g1 = Ok h1.
Proof.
  intros W E E1. destruct (negated_full g W) as (x & Ex & Wh & _ & Sh & Ih & Nh & Fh). rewrite E in Ex. injection Ex as <-.
  destruct (grouped_full h Wh) as (h1 & E2 & _). exists h1. split; auto.
  assert (EQ : forall p q, p < size g -> q < size g -> (equiv g p q <-> equiv h p q)).
  { intros p q Hp Hq. unfold equiv. split; intros H w; specialize (H w).
    - rewrite !(run_same g h Nh), !Fh by (apply run_lt; auto). congruence.
    - rewrite !(run_same g h Nh), !Fh in H by (apply run_lt; auto).
      destruct (fin g (run g p w)), (fin g (run g q w)); auto. }
  destruct (grouped_shape g h g1 h1 W Wh Sh EQ E1 E2) as (W1 & V1 & D1 & D2 & S1 & c & C1 & C2 & C3 & C4 & C5 & C6 & C7 & C8 & C9 & C10 & C11).
  destruct (negated_full g1 W1) as (g2 & E3 & W2 & D3 & S3 & I3 & N3 & F3). rewrite E3. f_equal.
  apply graph_same; auto; try congruence.
  - rewrite I3. rewrite Ih in C7. eapply C3; eauto.
  - intros i Hi. rewrite S3 in Hi. rewrite F3 by auto. destruct (C2 i Hi) as (q & Hq & Cq).
    rewrite (C10 q i Cq), (C11 q i Cq), Fh; auto.
  - intros i b Hi. rewrite S3 in Hi. rewrite N3. destruct (C2 i Hi) as (q & Hq & Cq).
    eapply C3; [apply (C8 q i b Cq)|]. pose proof (C9 q i b Cq) as X. rewrite Nh in X. exact X.
Qed.

Lemma minimized_neg g h m : wf_graph g -> negated g = Ok h -> minimized g = Ok m ->
  exists k, minimized h = Ok k /\ negated m = Ok k.
Proof.
  intros W E M. unfold minimized in *. apply bind_ok in M as (g1 & E1 & M).
  destruct (removed_neg g h g1 W E E1) as (h1 & E2 & N1). rewrite E2. cbn [bind].
  destruct (removed_unreachable_correct g W) as (x & _ & Ex & W1 & _). rewrite E1 in Ex. injection Ex as <-.
  eapply grouped_neg; eauto.
Qed.

(** * Minimising what is minimal changes nothing *)
Lemma removed_trim g : wf_graph g -> g_sad g = [] -> (forall q, q < size g -> dfa_reaches g q) -> removed_unreachable g = Ok g.
Proof.
  intros W D HR. destruct (removed_unreachable_correct g W) as (h & R & E & Wh & RS & RR & S1 & I1 & N1 & F1).
  rewrite E. f_equal.
  assert (ER : R = seq 0 (size g)).
  { apply is_set_ext; auto; [apply is_set_map_seq|]. intros q. rewrite RR, in_seq. split.
    - intros H. apply reach_lt in H; auto. lia.
    - intros H. apply reaches_reach; auto. apply HR. lia. }
  subst R. rewrite seq_length in S1.
  assert (NE : forall i q, nth_error (seq 0 (size g)) i = Some q -> i = q).
  { intros i q H. pose proof (nth_error_lt _ _ _ H) as L. rewrite seq_length in L. apply (nth_error_nth _ _ 0) in H. rewrite seq_nth in H by auto. lia. }
  assert (NE' : forall i, i < size g -> nth_error (seq 0 (size g)) i = Some i).
  { intros i Hi. destruct (nth_error (seq 0 (size g)) i) as [q|] eqn:X; [f_equal; symmetry; apply NE; exact X|].
    apply nth_error_None in X. rewrite seq_length in X. lia. }
  apply graph_same; auto; try (rewrite D; eapply removed_sad; eauto).
  - rewrite S1. intros q Hq. apply F1. auto.
  - rewrite S1. intros q x Hq. apply NE. apply N1. auto.
Qed.

Lemma grouped_reduced g : wf_graph g -> g_sad g = [] -> (forall p q, p < size g -> q < size g -> p <> q -> dist g p q) ->
  grouped_nondistinguishable g = Ok g.
Proof.
  intros W D HD. destruct (grouped_full g W) as (h & E & V & c & C1 & C2 & C3 & C4 & C5 & C6 & C7 & C8 & C9 & C10).
  rewrite E. f_equal.
  assert (EQ : forall p q, p < size g -> q < size g -> equiv g p q -> p = q).
  { intros p q Hp Hq H. destruct (Nat.eq_dec p q) as [|N]; auto. exfalso. apply (proj1 (equiv_not_dist g p q) H). auto. }
  assert (U : forall q i, c q i -> i = q).
  { intros q i Hc. apply (class_unique (size g) (equiv g) (equiv g) c (fun q i => q = i /\ q < size g)) with (q := q); auto.
    - intros; tauto.
    - intros p Hp. destruct (C1 p Hp) as (j & _ & Hj). eauto.
    - intros p Hp. exists p. auto.
    - intros p j [_ H]; auto.
    - intros p p' j [-> _] [-> _]. apply equiv_refl.
    - intros p p' j j' [-> H1] [-> H2] H. apply EQ; auto.
    - intros p j k [-> H1] H2. exists k. split; auto. split; auto. lia.
    - split; auto. apply (C3 _ _ Hc). }
  assert (CI : forall q, q < size g -> c q q).
  { intros q Hq. destruct (C1 q Hq) as (i & _ & Hi). rewrite (U q i Hi) in Hi. exact Hi. }
  assert (SZ : size h = size g).
  { assert (X : forall i, i < size h <-> i < size g).
    { intros i. split; intros H.
      - destruct (C2 i H) as (q & Hq & Cq). rewrite (U q i Cq). exact Hq.
      - destruct (C1 i H) as (j & Lj & Hj). rewrite <- (U i j Hj). exact Lj. }
    destruct (lt_eq_lt_dec (size h) (size g)) as [[L|]|L]; auto; apply X in L; lia. }
  apply graph_same; auto; try congruence; rewrite ?SZ.
  - intros q Hq. symmetry. apply C8. auto.
  - intros q x Hq. apply U. apply C7. auto.
Qed.

(** * Merging keeps the numbering in the order of first visits *)
Section Flat.
Context {A B : Type} (da : forall x y : A, {x = y} + {x <> y}) (db : forall x y : B, {x = y} + {x <> y}) (f : A -> list B).
Lemma fold_absorb l K : (forall x, In x l -> In x K) -> fold_left (addx db) l K = K.
Proof.
  induction l as [|x l IH]; intros H; cbn [fold_left]; auto. rewrite addx_same by (apply H; simpl; auto).
  apply IH. intros y Hy. apply H. simpl; auto.
Qed.
Lemma dedup_flat_gen l : forall L K,
  fold_left (addx db) (flat_map f (fold_left (addx da) l L)) K = fold_left (addx db) (flat_map f (L ++ l)) K.
Proof.
  induction l as [|x l IH]; intros L K; cbn [fold_left]; [rewrite app_nil_r; auto|].
  rewrite IH. destruct (in_dec da x L) as [H|H].
  - rewrite addx_same by auto. rewrite !flat_map_app, !fold_left_app. cbn [flat_map]. rewrite fold_left_app. f_equal.
    symmetry. apply fold_absorb. intros y Hy. apply fold_addx_In. right. apply in_flat_map. eauto.
  - rewrite addx_new by auto. rewrite <- app_assoc. reflexivity.
Qed.
Lemma dedup_flat l K : fold_left (addx db) (flat_map f (dedup da l)) K = fold_left (addx db) (flat_map f l) K.
Proof. apply (dedup_flat_gen l [] K). Qed.
End Flat.

Lemma flat_map_map {A B C} (f : A -> B) (h : B -> list C) l : flat_map h (map f l) = flat_map (fun x => h (f x)) l.
Proof. induction l; cbn; congruence. Qed.
Lemma flat_map_single {A B} (f : A -> B) l : flat_map (fun x => [f x]) l = map f l.
Proof. induction l; cbn; congruence. Qed.
Lemma map_flat_map {A B C} (f : A -> list B) (h : B -> C) l : map h (flat_map f l) = flat_map (fun x => map h (f x)) l.
Proof. induction l; cbn; auto. rewrite map_app. congruence. Qed.

Lemma choose_list n (c : nat -> nat -> Prop) : (forall q, q < n -> exists i, c q i) ->
  exists F : nat -> nat, forall q, q < n -> c q (F q).
Proof.
  induction n as [|n IH]; intros H; [exists (fun _ => 0); intros; lia|].
  destruct IH as (F & HF); [intros q Hq; apply H; lia|]. destruct (H n) as (i & Hi); [lia|].
  exists (fun q => if q =? n then i else F q). intros q Hq. destruct (Nat.eqb_spec q n) as [->|]; auto. apply HF. lia.
Qed.

Lemma first_order n m (F : nat -> nat) : (forall q, q < n -> F q < m) -> (forall i, i < m -> exists q, q < n /\ F q = i) ->
  (forall q j, q < n -> j < F q -> exists p, p < q /\ F p = j) -> dedup Nat.eq_dec (map F (seq 0 n)) = seq 0 m.
Proof.
  intros HB HS HO.
  assert (G : forall k, k <= n -> exists mk, dedup Nat.eq_dec (map F (seq 0 k)) = seq 0 mk).
  { induction k as [|k IH]; intros Hk; [exists 0; reflexivity|]. destruct IH as (mk & E); [lia|].
    rewrite seq_S, map_app. unfold dedup in *. rewrite fold_left_app, E. cbn [plus map fold_left].
    destruct (lt_dec (F k) mk) as [L|L].
    - exists mk. apply addx_same. apply in_seq. lia.
    - exists (S mk). assert (F k = mk) as ->.
      { apply Nat.le_antisymm; [|lia]. destruct (le_lt_dec (F k) mk) as [|L2]; auto. exfalso.
        destruct (HO k mk ltac:(lia) L2) as (p & Lp & Ep).
        assert (H : In mk (seq 0 mk)); [|apply in_seq in H; lia]. rewrite <- E. apply fold_addx_In. right.
        apply in_map_iff. exists p. split; auto. apply in_seq. lia. }
      rewrite seq_S. apply addx_new. rewrite in_seq. lia. }
  destruct (G n (le_n _)) as (mk & E). rewrite E. f_equal.
  assert (X : forall i, i < mk <-> i < m).
  { intros i. transitivity (In i (seq 0 mk)); [rewrite in_seq; lia|]. rewrite <- E, dedup_In, in_map_iff. split.
    - intros (q & <- & Hq). apply in_seq in Hq. apply HB. lia.
    - intros H. destruct (HS i H) as (q & Hq & Eq). exists q. split; auto. apply in_seq. lia. }
  destruct (lt_eq_lt_dec mk m) as [[L|]|L]; auto; apply X in L; lia.
Qed.

Lemma grouped_numbered g h : wf_graph g -> numbered g -> grouped_nondistinguishable g = Ok h -> numbered h.
Proof.
  intros W [I0 HN] E. destruct (grouped_full g W) as (x & Ex & V & c & C1 & C2 & C3 & C4 & C5 & C6 & C7 & C8 & C9 & C10).
  rewrite E in Ex. injection Ex as <-.
  destruct (choose_list (size g) c) as (F & HF); [intros q Hq; destruct (C1 q Hq) as (i & _ & Hi); eauto|].
  assert (CF : forall q i, c q i -> F q = i) by (intros q i H; eapply (C5 q q); eauto using equiv_refl).
  assert (CL : forall q, q < size g -> F q < size h).
  { intros q Hq. destruct (C1 q Hq) as (j & Lj & Hj). rewrite (CF q j Hj). exact Lj. }
  assert (DM : dedup Nat.eq_dec (map F (seq 0 (size g))) = seq 0 (size h)).
  { apply first_order; auto.
    - intros i Hi. destruct (C2 i Hi) as (q & Hq & Cq). exists q. auto.
    - intros q j Hq Hj. destruct (C9 q (F q) j (HF q Hq) Hj) as (p & Lp & Cp). exists p. split; auto. }
  assert (F0 : F 0 = 0).
  { destruct (Nat.eq_dec (F 0) 0) as [|N]; auto. exfalso. assert (L0 : 0 < size g) by (rewrite <- I0; apply init_lt; auto).
    destruct (C9 0 (F 0) 0 (HF 0 L0)) as (p & Lp & _); lia. }
  split; [rewrite I0 in C6; rewrite <- (CF _ _ C6); exact F0|].
  rewrite <- DM at 1.
  replace (dedup Nat.eq_dec (map F (seq 0 (size g))))
    with (dedup Nat.eq_dec (map F (0 :: flat_map (succs g) (seq 0 (size g))))).
  2:{ rewrite HN at 2. rewrite <- !flat_map_single. unfold dedup at 1 2. rewrite (dedup_flat Nat.eq_dec Nat.eq_dec). reflexivity. }
  assert (EM : map F (0 :: flat_map (succs g) (seq 0 (size g))) = 0 :: flat_map (succs h) (map F (seq 0 (size g)))).
  { cbn [map]. rewrite F0. f_equal. rewrite map_flat_map, flat_map_map.
    assert (X : forall l, (forall q, In q l -> q < size g) -> flat_map (fun x => map F (succs g x)) l = flat_map (fun x => succs h (F x)) l).
    { induction l as [|q l IH]; intros Hl; [reflexivity|]. cbn [flat_map]. rewrite IH by (intros; apply Hl; simpl; auto). f_equal.
      assert (Hq : q < size g) by (apply Hl; simpl; auto).
      unfold succs. cbn [map]. rewrite (CF _ _ (C7 q (F q) false (HF q Hq))), (CF _ _ (C7 q (F q) true (HF q Hq))). reflexivity. }
    apply X. intros q Hq. apply in_seq in Hq. lia. }
  rewrite EM, <- DM. unfold dedup at 1 2. cbn [fold_left].
  symmetry. apply (dedup_flat Nat.eq_dec Nat.eq_dec).
Qed.

(** * Reversal *)
Lemma negated_numbered g h : wf_graph g -> numbered g -> negated g = Ok h -> numbered h.
Proof.
  intros W [I0 HN] E. destruct (negated_full g W) as (x & Ex & Wh & _ & Sh & Ih & Nh & _). rewrite E in Ex. injection Ex as <-.
  split; [congruence|]. rewrite Sh. rewrite HN at 1. f_equal. f_equal.
  apply flat_map_ext. intros q. unfold succs. rewrite !Nh. reflexivity.
Qed.

Lemma rev_numbered g g' : wf_graph g -> reversed g = Ok g' -> numbered g' /\ g_sad g' = [].
Proof.
  intros W E. rewrite reversed_unfold in E by auto. split; [|eapply from_nfa_sad; eauto].
  eapply from_nfa_numbered; eauto. apply wf_graph_iff in W. tauto.
Qed.

Lemma reversed_neg g h r : wf_graph g -> negated g = Ok h -> reversed g = Ok r ->
  exists k, reversed h = Ok k /\ negated r = Ok k.
Proof.
  intros W E ER. destruct (negated_full g W) as (x & Ex & Wh & _ & Sh & Ih & Nh & Fh). rewrite E in Ex. injection Ex as <-.
  destruct (reversed_correct g W) as (x & Ex & Wr & Ar & Rr). rewrite ER in Ex. injection Ex as <-.
  destruct (reversed_correct h Wh) as (k & EK & Wk & Ak & Rk). exists k. split; auto.
  destruct (negated_full r Wr) as (r' & E' & Wr' & D' & S' & I' & N' & F'). rewrite E'. f_equal.
  destruct (rev_numbered g r W ER) as (Nr & Dr). destruct (rev_numbered h k Wh EK) as (Nk & Dk).
  assert (R' : forall q, q < size r' -> dfa_reaches r' q).
  { intros q Hq. rewrite S' in Hq. specialize (Rr q Hq). apply reaches_reach in Rr as (w & Hw); auto. apply reaches_reach; auto.
    exists w. rewrite (run_same r r' N'), I'. exact Hw. }
  apply pattern_same; auto; try congruence.
  - exact (negated_numbered r r' Wr Nr E').
  - intros w. destruct (negated_correct r Wr) as (x & Ex & _ & _ & Ax). rewrite E' in Ex. injection Ex as <-.
    destruct (Ax w) as (b & B1 & B2). rewrite B2. destruct (Ar (rev w)) as (b' & B3 & B4). rewrite rev_involutive in B4.
    destruct (negated_correct g W) as (x & Ex & _ & _ & Ag). rewrite E in Ex. injection Ex as <-.
    destruct (Ag (rev w)) as (c & B5 & B6). destruct (Ak (rev w)) as (c' & B7 & B8). rewrite rev_involutive in B8. congruence.
  - intros u v. rewrite !(run_same r r' N').
    pose proof W as W0. apply wf_graph_iff in W0 as (_ & HF & _ & _ & _ & HS).
    pose proof Wh as W1. apply wf_graph_iff in W1 as (_ & HF' & _ & _ & _ & HS').
    pose proof ER as ER0. pose proof EK as EK0. rewrite reversed_unfold in ER0, EK0 by auto.
    rewrite (from_nfa_pattern _ _ _ _ HS ER0), (from_nfa_pattern _ _ _ _ HS' EK0).
    assert (X : forall w q, (exists i, In i (g_final g) /\ nfa_path (rev_delta g) i w q) <-> q < size g /\ fin g (run g q (rev w)) = true).
    { intros w q. split.
      - intros (i & Hi & P). apply rev_delta_path in P as [Hq <-]; [|auto|apply HF; auto]. split; auto. apply smem_In. exact Hi.
      - intros [Hq Hf]. exists (run g q (rev w)). split; [apply smem_In; exact Hf|]. apply rev_delta_path; auto. apply run_lt; auto. }
    assert (X' : forall w q, (exists i, In i (g_final h) /\ nfa_path (rev_delta h) i w q) <-> q < size g /\ fin g (run g q (rev w)) = false).
    { intros w q. split.
      - intros (i & Hi & P). apply rev_delta_path in P as [Hq <-]; [|auto|apply HF'; auto]. rewrite Sh in Hq. split; auto.
        apply smem_In in Hi. change (fin h (run h q (rev w)) = true) in Hi. rewrite (run_same g h Nh), Fh in Hi by (apply run_lt; auto).
        apply negb_true_iff. exact Hi.
      - intros [Hq Hf]. exists (run h q (rev w)). split.
        + apply smem_In. change (fin h (run h q (rev w)) = true). rewrite (run_same g h Nh), Fh by (apply run_lt; auto). rewrite Hf. reflexivity.
        + apply rev_delta_path; auto; [apply run_lt; auto; lia|]. split; auto. lia. }
    setoid_rewrite X. setoid_rewrite X'. split; intros H q; specialize (H q);
      destruct (fin g (run g q (rev u))), (fin g (run g q (rev v))); intuition congruence.
Qed.

(** * Canonical automata *)
Definition canon (g : Graph) : Prop :=
  wf_graph g /\ g_sad g = [] /\ numbered g /\ (forall q, q < size g -> dfa_reaches g q) /\
  forall p q, p < size g -> q < size g -> p <> q -> dist g p q.

Lemma canon_unique a b : canon a -> canon b -> (forall w, accepts a w = accepts b w) -> a = b.
Proof.
  intros (Wa & Da & Na & Ra & Ia) (Wb & Db & Nb & Rb & Ib) L.
  destruct (unique a b Wa Wb Na Nb Ra Rb Ia Ib L) as (U1 & U2 & U3 & U4). apply graph_same; auto. congruence.
Qed.

Lemma minimized_full g m : wf_graph g -> minimized g = Ok m ->
  wf_graph m /\ g_sad m = [] /\ (forall w, accepts m w = accepts g w) /\ (forall q, q < size m -> dfa_reaches m q) /\
  forall p q, p < size m -> q < size m -> p <> q -> dist m p q.
Proof.
  intros W E. destruct (minimized_correct g W) as (x & Ex & Wm & A & R & D). rewrite E in Ex. injection Ex as <-.
  split; auto. split; [|split; auto; split; auto; intros; apply api_dist_iff; auto].
  unfold minimized in E. apply bind_ok in E as (g1 & E1 & E). destruct (removed_unreachable_correct g W) as (x & _ & Ex & W1 & _).
  rewrite E1 in Ex. injection Ex as <-. destruct (grouped_full g1 W1) as (x & Ex & _ & c & H). rewrite E in Ex. injection Ex as <-. tauto.
Qed.

Lemma minimized_fixed g : wf_graph g -> g_sad g = [] -> (forall q, q < size g -> dfa_reaches g q) ->
  (forall p q, p < size g -> q < size g -> p <> q -> dist g p q) -> minimized g = Ok g.
Proof. intros W D R I. unfold minimized. rewrite removed_trim by auto. cbn [bind]. apply grouped_reduced; auto. Qed.

Lemma minimized_canon g m : wf_graph g -> g_sad g = [] -> numbered g -> (forall q, q < size g -> dfa_reaches g q) ->
  minimized g = Ok m -> canon m.
Proof.
  intros W D N R E. destruct (minimized_full g m W E) as (Wm & Dm & _ & Rm & Im). split; auto. split; auto. split; [|split; auto].
  unfold minimized in E. rewrite removed_trim in E by auto. cbn [bind] in E. exact (grouped_numbered g m W N E).
Qed.

Lemma reversed_canon g r : wf_graph g -> (forall q, q < size g -> dfa_reaches g q) -> reversed g = Ok r -> canon r.
Proof.
  intros W R E. destruct (rev_numbered g r W E) as (N & D). destruct (reversed_correct g W) as (x & Ex & Wr & _ & Rr).
  rewrite E in Ex. injection Ex as <-. split; auto. split; auto. split; auto. split; auto. exact (reversed_dist g r W R E).
Qed.
