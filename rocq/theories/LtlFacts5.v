(** An automaton is returned only when every tested variable is one of p0 .. p<n-1>. *)
From Coq Require Import List Arith Bool Lia.
Import ListNotations.
From Verif Require Import Base BaseFacts GraphModel LtlModel LtlSpec LtlFacts1 LtlFacts2 LtlFacts3.

Lemma can_hold_iff b : can_hold b <-> has_true b = true.
Proof.
  induction b as [| |v l IHl h IHh]; cbn.
  - split; [intros H; inversion H|discriminate].
  - split; auto. constructor.
  - rewrite orb_true_iff, <- IHl, <- IHh. split; [intros H; inversion H; subst; auto|intros [|]; [apply hold_low|apply hold_high]; auto].
Qed.
Lemma tests_sub b v : tests b v -> exists l h, In (BN v l h) (sub b) /\ has_true (BN v l h) = true.
Proof.
  induction 1 as [v l h H|v l h u H (l' & h' & A & B)|v l h u H (l' & h' & A & B)].
  - exists l, h. split; [apply sub_self|apply can_hold_iff; auto].
  - exists l', h'. split; auto. cbn. right. rewrite in_app_iff. auto.
  - exists l', h'. split; auto. cbn. right. rewrite in_app_iff. auto.
Qed.
Lemma var2idx_lt M n : forall v i, find_key Nat.eq_dec v (var2idx M n) = Some i -> i < n /\ m_var M i = Some v.
Proof.
  induction n as [|k IH]; intros v i; [cbn; discriminate|]. unfold var2idx in *. rewrite seq_S, fold_left_app. cbn [fold_left Nat.add].
  set (m := fold_left _ (seq 0 k) []) in *. destruct (m_var M k) as [u|] eqn:EK.
  - destruct (find_key Nat.eq_dec u m) eqn:EF.
    + intros H. apply IH in H as (A & B). split; [lia|auto].
    + rewrite find_key_app. destruct (find_key Nat.eq_dec v m) eqn:EV.
      * intros [= <-]. apply IH in EV as (A & B). split; [lia|auto].
      * cbn. destruct (Nat.eq_dec v u) as [->|]; [intros [= <-]; auto|discriminate].
  - intros H. apply IH in H as (A & B). split; [lia|auto].
Qed.

Section Known.
Context (v2i : list (nat * nat)) (cond : bdd) (R : list entry) (M : list (bdd * State)).
Hypothesis HN : nodes_of cond R M.
Definition indexed (p : State) : Prop :=
  forall v l h, bd R p = Some (BN v l h) -> exists i, find_key Nat.eq_dec v v2i = Some i.
Definition entries (que : list (State * nat * State)) : list State := map (fun e => fst (fst e)) que.
Record kinv (que : list (State * nat * State)) (vis : list State) : Prop := mkKinv {
  k_closed : forall bit rq e p, In rq vis -> nth_error R rq = Some e -> In p (preds bit e) -> In p vis \/ In p (entries que);
  k_known : forall p, In p vis \/ In p (entries que) -> indexed p }.

Lemma add_parents_known bit i q ps : forall D m que D' m' que',
  foldM (add_parent v2i R bit i q) ps (D, m, que) = Ok (D', m', que') ->
  entries que' = entries que ++ ps /\ forall p, In p ps -> indexed p.
Proof.
  induction ps as [|p ps IH]; intros D m que D' m' que'; cbn [foldM].
  - intros [= <- <- <-]. rewrite app_nil_r. split; auto. intros p [].
  - destruct (add_parent v2i R bit i q (D, m, que) p) as [[[D0 m0] que0]|] eqn:E0; cbn [bind]; [|discriminate]. intros H. revert E0.
    unfold add_parent, at_. destruct (nth_error R p) as [[[a b] n]|] eqn:EP; cbn [bind]; [|discriminate].
    destruct n as [| |v low high]; cbn [bind]; try discriminate.
    unfold at_key. destruct (find_key Nat.eq_dec v v2i) as [j|] eqn:EJ; cbn [bind]; [|discriminate].
    destruct (free_bits (i - (j + 1)) D q) as [D1 cq]. destruct (state_get p D1 m) as [[next D2] m2].
    destruct (add_succ bit D2 next cq) as [D3|]; cbn [bind]; [|discriminate]. intros [= -> -> <-].
    apply IH in H as (A & B). split.
    + rewrite A. unfold entries. rewrite map_app, <- app_assoc. reflexivity.
    + intros p' [<-|I]; auto. intros v' l' h' E. unfold bd in E. rewrite EP in E. cbn in E. injection E as <- <- <-. eauto.
Qed.
Lemma edge_loop_known : forall fuel que vis D m alt r, kinv que vis -> edge_loop v2i R fuel que vis D m alt = Ok r ->
  exists vis', kinv [] vis' /\ forall p, In p vis \/ In p (entries que) -> In p vis'.
Proof.
  induction fuel as [|fuel IH]; intros que vis D m alt r K.
  { destruct que as [|[[rq i] q] que]; cbn; [|discriminate]. intros _. exists vis. split; auto. intros p [|[]]; auto. }
  destruct que as [|[[rq i] q] que]; cbn [edge_loop].
  { intros _. exists vis. split; auto. intros p [|[]]; auto. }
  destruct (in_dec Nat.eq_dec rq vis) as [V|V].
  { intros H. apply IH in H as (vis' & A & B).
    - exists vis'. split; auto. intros p [|[<-|]]; auto.
    - destruct K as [K1 K2]. constructor.
      + intros bit r' e p H1 H2 H3. destruct (K1 bit r' e p H1 H2 H3) as [|[<-|]]; auto.
      + intros p [|]; apply K2; cbn; auto. }
  destruct (at_ R rq) as [[[q0s q1s] b]|] eqn:EA; cbn [bind]; [|discriminate]. apply at_ok in EA.
  assert (ROOT : q0s = [] -> q1s = [] -> kinv que (rq :: vis)).
  { intros -> ->. destruct K as [K1 K2]. constructor.
    - intros bit r' e p [<-|H1] H2 H3.
      + rewrite EA in H2. injection H2 as <-. destruct bit; destruct H3.
      + destruct (K1 bit r' e p H1 H2 H3) as [|[<-|]]; cbn; auto.
    - intros p [[<-|]|]; apply K2; cbn; auto. }
  assert (OUT : forall vis', (forall p, In p (rq :: vis) \/ In p (entries que) -> In p vis') ->
    forall p, In p vis \/ In p (entries ((rq, i, q) :: que)) -> In p vis').
  { intros vis' H p [I|[<-|I]]; apply H; cbn; auto. }
  destruct (i =? 0).
  { destruct q0s; [|discriminate]. destruct q1s; [|discriminate]. destruct alt; [discriminate|]. cbn [assert_].
    intros H. apply IH in H as (vis' & A & B); eauto. }
  destruct (match q0s, q1s with [], [] => true | _, _ => false end) eqn:EB.
  { destruct q0s; [|discriminate]. destruct q1s; [|discriminate]. destruct alt; [discriminate|]. cbn [assert_].
    destruct (free_bits i D q). intros H. apply IH in H as (vis' & A & B); eauto. }
  intros H.
  assert (H' : (do s <- foldM (add_parent v2i R false i q) q0s (D, m, que);
    do '(delta, m, que) <- foldM (add_parent v2i R true i q) q1s s;
    edge_loop v2i R fuel que (rq :: vis) delta m alt) = Ok r).
  { destruct q0s; [destruct q1s; [discriminate|]|]; exact H. }
  clear H. destruct (foldM (add_parent v2i R false i q) q0s (D, m, que)) as [[[D1 m1] que1]|] eqn:E1; cbn [bind] in H'; [|discriminate].
  destruct (foldM (add_parent v2i R true i q) q1s (D1, m1, que1)) as [[[D2 m2] que2]|] eqn:E2; cbn [bind] in H'; [|discriminate].
  apply add_parents_known in E1 as (Q1 & I1). apply add_parents_known in E2 as (Q2 & I2). rewrite Q1 in Q2.
  apply IH in H' as (vis' & A & B).
  - exists vis'. split; auto. apply OUT. intros p [P|P]; apply B; auto. right. rewrite Q2, !in_app_iff. auto.
  - destruct K as [K1 K2]. constructor; rewrite Q2.
    + intros bit r' e p [<-|H1] H2 H3; rewrite !in_app_iff.
      * rewrite EA in H2. injection H2 as <-. destruct bit; cbn in H3; auto.
      * destruct (K1 bit r' e p H1 H2 H3) as [|[<-|]]; cbn; auto.
    + intros p. rewrite !in_app_iff. intros [[<-|P]|[[P|P]|P]]; auto; apply K2; cbn; auto.
Qed.
Lemma known_all vis rt : kinv [] vis -> bd R rt = Some BT -> In rt vis ->
  forall b, In b (sub cond) -> has_true b = true -> exists rc, bd R rc = Some b /\ In rc vis.
Proof.
  intros K HT HV. induction b as [| |v l IHl h IHh]; intros HS HB; [discriminate|eauto|].
  assert (HS' := HS). apply (n_sub _ _ _ HN) in HS' as (rc & EB). exists rc. split; auto.
  assert (G : forall bit c, child bit (BN v l h) c -> (exists r, bd R r = Some c /\ In r vis) -> In rc vis).
  { intros bit c HC (r & HR & V). unfold bd in HR. destruct (nth_error R r) as [e|] eqn:E; [|discriminate].
    cbn in HR. injection HR as HE. destruct (k_closed _ _ K bit r e rc V E) as [|[]]; auto.
    apply (n_preds _ _ _ HN bit r e E). exists (BN v l h). rewrite HE. auto. }
  cbn in HB. apply orb_true_iff in HB as [HB|HB].
  - apply (G false l); [reflexivity|]. apply IHl; auto. eapply sub_low; eauto.
  - apply (G true h); [reflexivity|]. apply IHh; auto. eapply sub_high; eauto.
Qed.
End Known.

Lemma add_edge_known v2i n src D dst c D' : add_edge v2i n src D (dst, c) = Ok D' ->
  can_hold c /\ forall v, tests c v -> exists i, find_key Nat.eq_dec v v2i = Some i.
Proof.
  unfold add_edge. destruct (reversed_bdd_ok c) as (R & M & -> & HN). cbn [bind]. unfold at_key.
  destruct (find_key bdd_eq_dec BT M) as [rt|] eqn:ET; cbn [bind]; [|discriminate]. apply (n_map _ _ _ HN) in ET.
  destruct (edge_loop v2i R (edge_fuel R) [(rt, n, dst)] [] D [] None) as [r|] eqn:EL; cbn [bind]; [|discriminate]. intros _.
  assert (K0 : kinv v2i R [(rt, n, dst)] []).
  { constructor; [intros ? ? ? ? []|]. intros p [[]|[<-|[]]] v l h E. cbn in E. congruence. }
  destruct (edge_loop_known v2i R _ _ _ _ _ _ _ K0 EL) as (vis & K & I).
  assert (HV : In rt vis) by (apply I; cbn; auto).
  split.
  - assert (HS : In BT (sub c)) by (apply (n_sub _ _ _ HN); eauto). apply can_hold_iff. revert HS. clear.
    induction c as [| |v l IHl h IHh]; cbn; auto; [intros [|[]]; discriminate|]. intros [|H]; [discriminate|].
    rewrite in_app_iff in H. apply orb_true_iff. destruct H; auto.
  - intros v H. apply tests_sub in H as (l & h & A & B).
    destruct (known_all v2i c R M HN vis rt K ET HV (BN v l h) A B) as (rc & E & V).
    apply (k_known _ _ _ _ K rc (or_introl V) v l h E).
Qed.

Theorem tuple_known M n all t : ltl_to_nfa_tuple M n all = Ok t ->
  forall q q' c, q < m_ns M -> In (q', c) (m_out M q) ->
    can_hold c /\ forall v, tests c v -> exists i, i < n /\ m_var M i = Some v.
Proof.
  unfold ltl_to_nfa_tuple. intros H q q' c HQ HE.
  destruct (foldM _ (seq 0 (m_ns M)) _) as [D|] eqn:E; cbn [bind] in H; [|discriminate]. clear H.
  set (good := fun c => can_hold c /\ forall v, tests c v -> exists i, i < n /\ m_var M i = Some v).
  assert (G : forall x, In x (seq 0 (m_ns M)) -> forall q' c, In (q', c) (m_out M x) -> good c).
  { refine (foldM_inv _ (fun srcs _ => forall x, In x srcs -> forall q' c, In (q', c) (m_out M x) -> good c) _ _ _ E _ _).
    { intros x []. }
    intros done src rest s s' _ IH EF x I. rewrite in_app_iff in I. destruct I as [I|[<-|[]]]; [exact (IH x I)|].
    refine (foldM_inv _ (fun es _ => forall q' c, In (q', c) es -> good c) _ _ _ EF _ _).
    { intros ? ? []. }
    intros es [d k] more D1 D2 _ IH' EA d' k' I. rewrite in_app_iff in I. destruct I as [I|[[= <- <-]|[]]]; [eapply IH'; eauto|].
    apply add_edge_known in EA as (A & B). split; auto. intros v T. destruct (B v T) as (i & Hi). exists i. apply var2idx_lt. auto. }
  apply (G q ltac:(apply in_seq; lia) q' c HE).
Qed.
