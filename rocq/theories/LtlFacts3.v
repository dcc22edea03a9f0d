(** What the states of one monitor edge read. *)
From Coq Require Import List Arith Bool Lia.
Import ListNotations.
From Verif Require Import Base BaseFacts GraphModel Spec LtlModel LtlSpec LtlFacts1 LtlFacts2.

Section Rep.
Context (v2i : list (nat * nat)) (n : nat).
Notation idx v := (find_key Nat.eq_dec v v2i).
Notation lev := (lev v2i n).
Notation ord := (ord v2i n).

(** What is left of a condition when variable i is known. *)
Definition cof (i : nat) (bit : bool) (b : bdd) : bdd :=
  match b with
  | BN v l h => match idx v with
                | Some j => if j =? i then (if bit then h else l) else b
                | None => b
                end
  | _ => b
  end.
Fixpoint cofs (i : nat) (w : list bool) (b : bdd) : bdd :=
  match w with [] => b | x :: w => cofs (S i) w (cof i x b) end.

Definition br (P : State -> bdd -> Prop) (l : list State) (b : bdd) : Prop :=
  if has_true b then exists s, l = [s] /\ P s b else l = [].
(** From state s the last k variables of b are read, then the monitor state dst is entered. *)
Fixpoint rep (D : NFADelta) (lo : nat) (dst : State) (k : nat) (s : State) (b : bdd) : Prop :=
  match k with
  | O => s = dst /\ b = BT
  | S k' => lo <= s /\ exists lbl l0 l1, nth_error D s = Some (lbl, l0, l1) /\
      br (rep D lo dst k') l0 (cof (n - k) false b) /\ br (rep D lo dst k') l1 (cof (n - k) true b)
  end.

Lemma br_mono (P Q : State -> bdd -> Prop) l b : (forall s, P s b -> Q s b) -> br P l b -> br Q l b.
Proof. intros H. unfold br. destruct (has_true b); auto. intros (s & -> & A). eauto. Qed.
Lemma rep_mono D D' lo lo' dst k : lo' <= lo ->
  (forall s, lo <= s -> s < length D -> nth_error D' s = nth_error D s) ->
  forall s b, rep D lo dst k s b -> rep D' lo' dst k s b.
Proof.
  intros HL HR. induction k as [|k IH]; intros s b; cbn [rep]; auto.
  intros (A & lbl & l0 & l1 & E & B0 & B1). split; [lia|]. exists lbl, l0, l1.
  rewrite HR; auto; [|apply nth_error_Some; congruence]. split; auto. split; (eapply br_mono; [|eassumption]); auto.
Qed.

Lemma cof_id i bit b : i < lev b -> cof i bit b = b.
Proof.
  destruct b as [| |v l h]; cbn; auto. destruct (idx v) as [j|]; [|lia]. destruct (Nat.eqb_spec j i); [lia|auto].
Qed.
Lemma cof_has i bit b : has_true (cof i bit b) = true -> has_true b = true.
Proof.
  destruct b as [| |v l h]; cbn; auto. destruct (idx v) as [j|]; auto. destruct (j =? i); auto.
  destruct bit; intros ->; auto using orb_true_r.
Qed.
Lemma cofs_has w : forall i b, has_true (cofs i w b) = true -> has_true b = true.
Proof. induction w as [|x w IH]; intros i b; cbn; auto. intros H. eapply cof_has, IH, H. Qed.
Lemma cof_ord i bit b : ord i b -> ord (S i) (cof i bit b).
Proof.
  destruct b as [| |v l h]; cbn [LtlFacts2.ord cof]; auto. intros (j & E & L & O1 & O2). rewrite E.
  destruct (Nat.eqb_spec j i) as [->|N]; [destruct bit; auto|]. cbn. exists j. split; auto. split; [lia|auto].
Qed.

(** * The result of the search *)
Section Edge.
Context (cond : bdd) (R : list entry) (M : list (bdd * State)).
Hypothesis HN : nodes_of cond R M.
Hypothesis HO : ord 0 cond.
Context (delta0 : NFADelta) (dst : State).
Notation L0 := (length delta0).
Context (vis : list State) (D : NFADelta) (m : list (State * State)) (alt : option State).
Hypothesis HI : einv v2i n cond R delta0 dst [] vis D m alt.

Lemma all_visited b : In b (sub cond) -> has_true b = true -> exists rc, bd R rc = Some b /\ In rc vis.
Proof.
  induction b as [| |v l IHl h IHh]; intros HS HT; [discriminate| |].
  - apply (n_sub _ _ _ HN) in HS as (rc & HB). exists rc. split; auto.
    destruct (e_true _ _ _ _ _ _ _ _ _ _ _ HI rc HB) as [|(i & q & [])]; auto.
  - assert (HS' := HS). apply (n_sub _ _ _ HN) in HS' as (rc & HB). exists rc. split; auto.
    assert (K : forall bit c, child bit (BN v l h) c -> (exists r, bd R r = Some c /\ In r vis) -> In rc vis).
    { intros bit c HC (r & HR & HV). unfold bd in HR. destruct (nth_error R r) as [e|] eqn:E; [|discriminate].
      cbn in HR. injection HR as HE.
      destruct (e_closed _ _ _ _ _ _ _ _ _ _ _ HI bit r e rc HV E) as [|(i & q & [])]; auto.
      apply (n_preds _ _ _ HN bit r e E). exists (BN v l h). rewrite HE. auto. }
    cbn in HT. apply orb_true_iff in HT as [HT|HT].
    + apply (K false l); [reflexivity|]. apply IHl; auto. eapply sub_low; eauto.
    + apply (K true h); [reflexivity|]. apply IHh; auto. eapply sub_high; eauto.
Qed.

Lemma chain_rep b k : has_true b = true -> k + lev b = n -> forall j c t, j <= lev b ->
  chain delta0 D m c j t -> rep D L0 dst k t b -> rep D L0 dst (j + k) c b.
Proof.
  intros HT HK. induction j as [|j IH]; intros c t HJ; cbn [chain Nat.add].
  - intros ->. auto.
  - intros (A & _ & lbl & c' & E & C) HR. cbn [rep]. split; auto. exists lbl, [c'], [c']. split; auto.
    assert (H : rep D L0 dst (j + k) c' b) by (eapply IH; eauto; lia).
    rewrite !cof_id by lia. unfold br. rewrite HT. split; exists c'; auto.
Qed.

Lemma node_rep b : In b (sub cond) -> has_true b = true -> forall rq t, bd R rq = Some b -> In rq vis ->
  st R dst m rq = Some t -> rep D L0 dst (n - lev b) t b.
Proof.
  induction b as [| |v l IHl h IHh]; intros HS HT rq t HB HV HQ; [discriminate| |].
  - cbn [LtlFacts2.lev]. rewrite Nat.sub_diag. cbn. unfold st in HQ. rewrite HB in HQ. split; congruence.
  - assert (O := ord_sub _ _ _ _ _ HO HS). assert (O' := O). cbn [LtlFacts2.ord] in O'. destruct O' as (j & EJ & LJ & OL & OH).
    assert (EL : lev (BN v l h) = j) by (cbn [LtlFacts2.lev]; rewrite EJ; auto). rewrite EL.
    unfold st in HQ. rewrite HB in HQ.
    destruct (c_rows _ _ _ _ _ _ _ _ (e_core _ _ _ _ _ _ _ _ _ _ _ HI) rq t v l h HQ HB) as (lbl & l0 & l1 & ER & S0 & S1).
    rewrite EL in S0, S1.
    destruct (c_map _ _ _ _ _ _ _ _ (e_core _ _ _ _ _ _ _ _ _ _ _ HI) rq t (find_key_in _ _ _ _ HQ)) as (LT & _).
    assert (BR : forall bit c li, child bit (BN v l h) c ->
      (has_true c = true -> forall rq t, bd R rq = Some c -> In rq vis -> st R dst m rq = Some t -> rep D L0 dst (n - lev c) t c) ->
      In c (sub cond) ->
      slot v2i n R delta0 dst (exists b c rc, bd R rq = Some b /\ child bit b c /\ bd R rc = Some c /\ In rc vis) D m li j c ->
      br (rep D L0 dst (n - S j)) li c).
    { intros bit c li HC IH HSC SL. unfold br. destruct (lev_child _ _ _ _ _ _ O HC) as (LC & _). rewrite EL in LC.
      pose proof (lev_le _ _ _ _ (ord_sub _ _ _ _ _ HO HSC)) as LN.
      destruct (has_true c) eqn:HTC.
      - destruct (all_visited c HSC HTC) as (rc & R1 & R2).
        destruct SL as [(_ & rc' & s & t' & B1 & -> & B3 & B4)|(NF & _)].
        2:{ elim NF. exists (BN v l h), c, rc. auto. }
        assert (rc' = rc) by (eapply (n_uniq _ _ _ HN); eauto). subst rc'.
        exists s. split; auto. pose proof (IH eq_refl rc t' B1 R2 B3) as HR.
        replace (n - S j) with ((lev c - S j) + (n - lev c)) by lia. eapply chain_rep; eauto; lia.
      - destruct SL as [((b' & c' & rc & K1 & K2 & K3 & K4) & _)|(_ & E)]; auto. exfalso.
        rewrite HB in K1. injection K1 as <-. assert (c' = c) by (cbn in *; congruence). subst c'.
        destruct (e_vis _ _ _ _ _ _ _ _ _ _ _ HI rc K4) as (b' & q & G1 & G2 & _). rewrite K3 in G1. injection G1 as <-. congruence. }
    replace (n - j) with (S (n - S j)) by lia. cbn [rep]. split; [lia|]. exists lbl, l0, l1. split; auto.
    replace (n - S (n - S j)) with j by lia. cbn [cof]. rewrite EJ, Nat.eqb_refl. split.
    + apply (BR false l l0); auto; [reflexivity| |]; [|eapply sub_low; eauto]. intros. eapply IHl; eauto. eapply sub_low; eauto.
    + apply (BR true h l1); auto; [reflexivity| |]; [|eapply sub_high; eauto]. intros. eapply IHh; eauto. eapply sub_high; eauto.
Qed.

Lemma alt_rep : has_true cond = true -> exists a, alt = Some a /\ rep D L0 dst n a cond.
Proof.
  intros HT. destruct (all_visited cond (sub_self cond) HT) as (rc & B & V).
  assert (rc = 0) by (eapply (n_uniq _ _ _ HN); eauto; apply (n_root _ _ _ HN)). subst rc.
  pose proof (e_alt _ _ _ _ _ _ _ _ _ _ _ HI) as A. pose proof (fun t => node_rep cond (sub_self cond) HT 0 t B V) as NR.
  destruct alt as [a|]; [|contradiction]. destruct A as (_ & t & A1 & A2). exists a. split; auto. specialize (NR t A1). pose proof (lev_le _ _ _ _ HO) as LN.
  replace n with (lev cond + (n - lev cond)) by lia. eapply chain_rep; eauto; lia.
Qed.
End Edge.
End Rep.

(** * All targets exist *)
Definition closed (D : NFADelta) : Prop :=
  forall q lbl l0 l1 s, nth_error D q = Some (lbl, l0, l1) -> In s (l0 ++ l1) -> s < length D.
Lemma closed_app D lbl l0 l1 : closed D -> (forall s, In s (l0 ++ l1) -> s < length D) -> closed (D ++ [(lbl, l0, l1)]).
Proof.
  intros C H q lbl' l0' l1' s E I. rewrite app_length. cbn [length].
  destruct (lt_dec q (length D)).
  - rewrite nth_error_app1 in E by auto. pose proof (C _ _ _ _ _ E I). lia.
  - rewrite nth_error_app2 in E by lia. destruct (q - length D) as [|k]; cbn in E; [|destruct k; discriminate].
    injection E as <- <- <-. pose proof (H _ I). lia.
Qed.
Lemma add_succ_closed bit D q s D' : closed D -> s < length D -> add_succ bit D q s = Ok D' -> closed D' /\ length D' = length D.
Proof.
  intros C H. unfold add_succ. destruct (at_ D q) as [[[lbl l0] l1]|] eqn:E; cbn [bind]; [|discriminate].
  apply at_ok in E. destruct (add_succ_row bit D q s lbl l0 l1 E) as (D2 & EA & L & RW).
  unfold add_succ in EA. rewrite (proj2 (at_ok _ _ _) E) in EA. cbn [bind] in EA. rewrite EA. intros [= <-]. split; auto.
  intros q' lbl' l0' l1' s' E' I. rewrite L. rewrite RW in E'. destruct (q =? q'); [|eapply C; eauto].
  pose proof (C _ _ _ _ s' E) as K. destruct bit; injection E' as <- <- <-; rewrite !in_app_iff in *; cbn in *; intuition (subst; auto).
Qed.
Lemma free_bits_closed k : forall D cq D' c', closed D -> cq < length D -> free_bits k D cq = (D', c') ->
  closed D' /\ length D <= length D' /\ c' < length D'.
Proof.
  induction k as [|k IH]; intros D cq D' c' C H; cbn [free_bits]; [intros [= <- <-]; auto|].
  intros E. apply IH in E as (A & B & G).
  - rewrite app_length in B. cbn in B. split; auto. split; auto. lia.
  - apply closed_app; auto. intros s. cbn. intuition (subst; auto).
  - rewrite app_length. cbn. lia.
Qed.
Section Closed.
Context (v2i : list (nat * nat)) (R : list entry).
Record qok (s : NFADelta * list (State * State) * list (State * nat * State)) : Prop := mkQok {
  k_closed : closed (fst (fst s));
  k_m : forall p q, In (p, q) (snd (fst s)) -> q < length (fst (fst s));
  k_que : forall p i q, In (p, i, q) (snd s) -> q < length (fst (fst s)) }.
Lemma add_parent_closed bit i q s p s' : qok s -> q < length (fst (fst s)) -> add_parent v2i R bit i q s p = Ok s' ->
  qok s' /\ length (fst (fst s)) <= length (fst (fst s')).
Proof.
  destruct s as [[D m] que]. cbn [fst snd]. intros [C KM KQ] Q. cbn [fst snd] in *. unfold add_parent.
  destruct (at_ R p) as [[[a b] n]|]; cbn [bind]; [|discriminate]. destruct n as [| |v low high]; cbn [bind]; try discriminate.
  destruct (at_key Nat.eq_dec v v2i) as [j|]; cbn [bind]; [|discriminate].
  destruct (free_bits (i - (j + 1)) D q) as [D1 cq] eqn:EF. destruct (free_bits_closed _ _ _ _ _ C Q EF) as (C1 & L1 & Q1).
  unfold state_get. destruct (find_key Nat.eq_dec p m) as [next|] eqn:EK.
  - destruct (add_succ bit D1 next cq) as [D2|] eqn:EA; cbn [bind]; [|discriminate]. intros [= <-]. cbn [fst snd].
    destruct (add_succ_closed _ _ _ _ _ C1 Q1 EA) as (C2 & L2). split; [|lia]. constructor; cbn [fst snd]; auto.
    + intros p' q' H. apply KM in H. lia.
    + intros p' i' q' H. rewrite in_app_iff in H. destruct H as [H|[[= <- <- <-]|[]]]; [apply KQ in H; lia|].
      apply find_key_in, KM in EK. lia.
  - destruct (add_succ bit (D1 ++ [(length D1, [], [])]) (length D1) cq) as [D2|] eqn:EA; cbn [bind]; [|discriminate].
    intros [= <-]. cbn [fst snd].
    assert (C1' : closed (D1 ++ [(length D1, [], [])])) by (apply closed_app; auto; intros s []).
    assert (L1' : length (D1 ++ [(length D1, [], [])]) = S (length D1)) by (rewrite app_length; cbn; lia).
    assert (Q1' : cq < length (D1 ++ [(length D1, [], [])])) by lia.
    destruct (add_succ_closed _ _ _ _ _ C1' Q1' EA) as (C2 & L2). split; [|lia]. constructor; cbn [fst snd]; auto.
    + intros p' q' H. rewrite in_app_iff in H. destruct H as [H|[[= <- <-]|[]]]; [apply KM in H|]; lia.
    + intros p' i' q' H. rewrite in_app_iff in H. destruct H as [H|[[= <- <- <-]|[]]]; [apply KQ in H|]; lia.
Qed.
Lemma add_parents_closed bit i q ps : forall s s', qok s -> q < length (fst (fst s)) ->
  foldM (add_parent v2i R bit i q) ps s = Ok s' -> qok s' /\ length (fst (fst s)) <= length (fst (fst s')).
Proof.
  induction ps as [|p ps IH]; intros s s' K Q; cbn [foldM]; [intros [= <-]; auto|].
  destruct (add_parent v2i R bit i q s p) as [s1|] eqn:E; cbn [bind]; [|discriminate].
  destruct (add_parent_closed _ _ _ _ _ _ K Q E) as (K1 & L1). intros H. apply IH in H as (K2 & L2); auto; [|lia]. split; auto. lia.
Qed.
Lemma edge_loop_closed : forall fuel que vis D m alt D' alt', qok (D, m, que) ->
  (forall a, alt = Some a -> a < length D) ->
  edge_loop v2i R fuel que vis D m alt = Ok (D', alt') ->
  closed D' /\ length D <= length D' /\ (forall a, alt' = Some a -> a < length D').
Proof.
  induction fuel as [|fuel IH]; intros que vis D m alt D' alt' K HA.
  { destruct que as [|[[rq i] q] que]; cbn; [intros [= <- <-]; split; [apply K|auto]|discriminate]. }
  destruct que as [|[[rq i] q] que]; cbn [edge_loop]; [intros [= <- <-]; split; [apply K|auto]|].
  assert (Q : q < length D) by (apply (k_que _ K rq i); cbn; auto).
  assert (K' : qok (D, m, que)). { destruct K as [A B C]. constructor; auto. cbn in *. eauto. }
  destruct (in_dec Nat.eq_dec rq vis); [apply IH; auto|].
  destruct (at_ R rq) as [[[q0s q1s] b]|]; cbn [bind]; [|discriminate].
  assert (HA' : forall x, Some q = Some x -> x < length D) by (intros x [= <-]; auto).
  destruct (i =? 0).
  { destruct (match q0s, q1s, alt with [], [], None => true | _, _, _ => false end); cbn [assert_]; [|discriminate]. apply IH; auto. }
  assert (G : forall (ps0 ps1 : list State) s2,
    foldM (add_parent v2i R false i q) ps0 (D, m, que) = Ok s2 ->
    (do '(delta, m, que) <- foldM (add_parent v2i R true i q) ps1 s2; edge_loop v2i R fuel que (rq :: vis) delta m alt) = Ok (D', alt') ->
    closed D' /\ length D <= length D' /\ (forall a, alt' = Some a -> a < length D')).
  { intros ps0 ps1 s2 E2. destruct (add_parents_closed _ _ _ _ _ _ K' Q E2) as (K2 & L2). cbn [fst] in L2.
    destruct (foldM (add_parent v2i R true i q) ps1 s2) as [[[D3 m3] que3]|] eqn:E3; cbn [bind]; [|discriminate].
    assert (Q2 : q < length (fst (fst s2))) by lia.
    destruct (add_parents_closed _ _ _ _ _ _ K2 Q2 E3) as (K3 & L3). cbn [fst] in L3. intros H.
    apply IH in H as (A & B & C); auto; [|intros a Ha; apply HA in Ha; lia]. split; auto. split; auto. lia. }
  destruct q0s as [|p0 t0]; [destruct q1s as [|p1 t1]|].
  - destruct alt; cbn [assert_]; [discriminate|]. destruct (free_bits i D q) as [D1 a] eqn:EF.
    destruct (free_bits_closed _ _ _ _ _ (k_closed _ K) Q EF) as (C1 & L1 & Q1). cbn [fst] in *. intros H.
    apply IH in H as (A & B & C); auto.
    + split; auto. split; [lia|auto].
    + destruct K' as [A B C]. constructor; cbn [fst snd] in *; auto.
      * intros p' q' H'. apply B in H'. lia.
      * intros p' i' q' H'. apply C in H'. lia.
    + intros x [= <-]. auto.
  - destruct (foldM (add_parent v2i R false i q) [] (D, m, que)) as [s2|] eqn:E2; cbn [bind]; [|discriminate]. eapply G; eauto.
  - destruct (foldM (add_parent v2i R false i q) (p0 :: t0) (D, m, que)) as [s2|] eqn:E2; cbn [bind]; [|discriminate]. eapply G; eauto.
Qed.
End Closed.

(** * One edge *)
Definition rows_kept (D D' : NFADelta) (src : State) : Prop :=
  forall q, q <> src -> q < length D -> nth_error D' q = nth_error D q.

Theorem add_edge_ok v2i n ns src D dst cond lbl l0 l1 :
  ord v2i n 0 cond -> has_true cond = true -> ns <= length D -> dst < ns -> src < ns -> closed D ->
  (n = 0 -> exists l, nth_error D dst = Some (l, [], [])) ->
  nth_error D src = Some (lbl, l0, l1) ->
  exists D' a0 a1, add_edge v2i n src D (dst, cond) = Ok D' /\ length D <= length D' /\ closed D' /\ rows_kept D D' src /\
    nth_error D' src = Some (lbl, l0 ++ a0, l1 ++ a1) /\
    match n with
    | O => a0 = [] /\ a1 = []
    | S k => br (rep v2i n D' ns dst k) a0 (cof v2i 0 false cond) /\ br (rep v2i n D' ns dst k) a1 (cof v2i 0 true cond)
    end.
Proof.
  intros HO HT HNS HD HSRC HC HZ ER. unfold add_edge.
  destruct (reversed_bdd_ok cond) as (R & M & E1 & HN). rewrite E1. cbn [bind].
  assert (HTS : In BT (sub cond)).
  { clear -HT. induction cond as [| |v l IHl h IHh]; [discriminate|cbn; auto|]. cbn in HT. apply orb_true_iff in HT as [H|H];
      cbn; right; rewrite in_app_iff; auto. }
  apply (n_sub _ _ _ HN) in HTS as (rt & HB). assert (HK := HB). apply (n_map _ _ _ HN) in HK.
  unfold at_key. rewrite HK. cbn [bind].
  assert (I0 : einv v2i n cond R D dst [(rt, n, dst)] [] D [] None).
  { constructor; cbn; auto.
    - constructor; cbn; try contradiction; try discriminate.
      + rewrite firstn_all. auto.
      + intros bit p (b & c & rc & _ & _ & _ & []).
    - intros rq i q [[= <- <- <-]|[]]. exists BT. split; auto. split; auto. split; auto. unfold st. rewrite HB. auto.
    - contradiction.
    - intros rt' HB'. right. exists n, dst. left. f_equal. f_equal. eapply (n_uniq _ _ _ HN); eauto. }
  destruct (edge_loop_ok v2i n cond R M HN HO D dst (edge_fuel R) _ _ _ _ _ I0) as (D1 & alt & E2 & vis & m & I1).
  { rewrite pending_nil. unfold edge_fuel. cbn. lia. }
  rewrite E2. cbn [bind].
  assert (QK : qok (D, [], [(rt, n, dst)])).
  { constructor; cbn [fst snd]; auto; [intros p q []|]. intros p i q [[= <- <- <-]|[]]. lia. }
  assert (NA : forall a, @None State = Some a -> a < length D) by discriminate.
  destruct (edge_loop_closed v2i R _ _ _ _ _ _ _ _ QK NA E2)
    as (C1 & L1 & A1).
  destruct (alt_rep v2i n cond R M HN HO D dst vis D1 m alt I1 HT) as (a & -> & HR). specialize (A1 a eq_refl).
  destruct (c_ext _ _ _ _ _ _ _ _ (e_core _ _ _ _ _ _ _ _ _ _ _ I1)) as (X1 & _).
  assert (PRE : forall q, q < length D -> nth_error D1 q = nth_error D q).
  { intros q Hq. rewrite <- (nth_firstn D1 (length D) q Hq), X1. reflexivity. }
  assert (ER1 : nth_error D1 src = Some (lbl, l0, l1)) by (rewrite PRE; auto; lia).
  destruct n as [|k].
  - cbn in HR. destruct HR as (-> & _). destruct (HZ eq_refl) as (l & EZ). unfold at_. rewrite PRE, EZ by lia. cbn.
    exists D1, [], []. split; [reflexivity|]. split; auto. split; auto. split; [intros q _ Hq; auto|]. rewrite !app_nil_r. auto.
  - cbn [rep] in HR. destruct HR as (LA & lbl' & m0 & m1 & EA & B0 & B1). rewrite Nat.sub_diag in B0, B1.
    unfold at_. rewrite EA. cbn [bind].
    assert (T : forall li c P, br P li c -> length li <= 1).
    { intros li c P. unfold br. destruct (has_true c); [intros (s & -> & _)|intros ->]; cbn; lia. }
    pose proof (T _ _ _ B0). pose proof (T _ _ _ B1).
    destruct (Nat.leb_spec (length m0) 1); [|lia]. destruct (Nat.leb_spec (length m1) 1); [|lia]. cbn [andb assert_].
    assert (ADD : forall bit li D2 lb k0 k1, closed D2 -> length li <= 1 -> (forall s, In s li -> s < length D2) ->
      nth_error D2 src = Some (lb, k0, k1) ->
      exists D3, (match li with [s] => add_succ bit D2 src s | _ => Ok D2 end) = Ok D3 /\ length D3 = length D2 /\ closed D3 /\
        rows_kept D2 D3 src /\ nth_error D3 src = Some (lb, (if bit then k0 else k0 ++ li), (if bit then k1 ++ li else k1))).
    { intros bit [|s [|s' li]] D2 lb k0 k1 HC2 HL HS E; [| |cbn in HL; lia].
      - exists D2. rewrite !app_nil_r. destruct bit; split; auto; split; auto; split; auto; (split; [intros q _ _; auto|auto]).
      - destruct (add_succ_row bit D2 src s lb k0 k1 E) as (D3 & EA3 & L3 & R3). exists D3. split; auto. split; auto.
        split; [eapply add_succ_closed; eauto; apply HS; cbn; auto|]. split.
        + intros q Hq _. rewrite R3. destruct (Nat.eqb_spec src q); [congruence|auto].
        + rewrite R3, Nat.eqb_refl. destruct bit; reflexivity. }
    assert (IN : forall s, In s (m0 ++ m1) -> s < length D1) by (intros s; apply (C1 a lbl' m0 m1); auto).
    destruct (ADD false m0 D1 lbl l0 l1 C1) as (D2 & -> & L2 & C2 & K2 & E3); auto.
    { intros s Hs. apply IN, in_or_app. auto. }
    cbn [bind].
    destruct (ADD true m1 D2 lbl (l0 ++ m0) l1 C2) as (D3 & -> & L3 & C3 & K3 & E4); auto.
    { intros s Hs. rewrite L2. apply IN, in_or_app. auto. }
    exists D3, m0, m1. split; [reflexivity|]. split; [lia|]. split; auto. split.
    { intros q Hq HL. rewrite K3, K2 by (auto; lia). auto. }
    split; auto.
    assert (MONO : forall s b, rep v2i (S k) D1 (length D) dst k s b -> rep v2i (S k) D3 ns dst k s b).
    { apply rep_mono; auto. intros s G1 G2. rewrite K3, K2 by (auto; lia). auto. }
    split; (eapply br_mono; [|eassumption]); auto.
Qed.
