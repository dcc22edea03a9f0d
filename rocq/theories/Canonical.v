(** Facts behind C63: the subset construction numbers its states in the order of discovery, a
    reversed automaton has no two equivalent states, and those two facts determine an automaton. *)
From Coq Require Import List Arith Bool NArith Lia.
Import ListNotations.
From Verif Require Import Base BaseFacts GraphModel Spec GraphFacts FromNfa GraphOps Minimize Quotient
  TextModel.
Local Open Scope list_scope.

(** * First occurrences *)
Section Dedup.
Context {A : Type} (dec : forall x y : A, {x = y} + {x <> y}).

Definition addx (K : list A) (k : A) : list A := if in_dec dec k K then K else K ++ [k].
Definition dedup (l : list A) : list A := fold_left addx l [].

Lemma addx_In K k x : In x (addx K k) <-> In x K \/ x = k.
Proof.
  unfold addx; destruct in_dec; [split; auto; intros [|]; subst; auto|].
  rewrite in_app_iff. simpl. intuition.
Qed.
Lemma fold_addx_In l : forall K x, In x (fold_left addx l K) <-> In x K \/ In x l.
Proof.
  induction l as [|k l IH]; intros K x; cbn [fold_left In]; [tauto|].
  rewrite IH, addx_In. intuition.
Qed.
Lemma dedup_In l x : In x (dedup l) <-> In x l.
Proof. unfold dedup. rewrite fold_addx_In. simpl. tauto. Qed.
Lemma fold_addx_prefix l : forall K, exists r, fold_left addx l K = K ++ r.
Proof.
  induction l as [|k l IH]; intros K; cbn [fold_left]; [exists []; rewrite app_nil_r; auto|].
  destruct (IH (addx K k)) as (r & ->). unfold addx. destruct in_dec; [eauto|].
  exists (k :: r). rewrite <- app_assoc. reflexivity.
Qed.
Lemma dedup_app l l' : exists r, dedup (l ++ l') = dedup l ++ r.
Proof. unfold dedup. rewrite fold_left_app. apply fold_addx_prefix. Qed.
Lemma addx_same K k : In k K -> addx K k = K.
Proof. intros; unfold addx; destruct in_dec; tauto. Qed.
Lemma addx_new K k : ~ In k K -> addx K k = K ++ [k].
Proof. intros; unfold addx; destruct in_dec; tauto. Qed.
End Dedup.

(** Related lists have related first occurrences, when the relation is one to one. *)
Section Rel.
Context {A B : Type} (da : forall x y : A, {x = y} + {x <> y}) (db : forall x y : B, {x = y} + {x <> y}).
Context (R : A -> B -> Prop).
Context (R1 : forall a a' b, R a b -> R a' b -> a = a').
Context (R2 : forall a b b', R a b -> R a b' -> b = b').

Lemma Forall2_In_rel K L a b : Forall2 R K L -> R a b -> (In a K <-> In b L).
Proof.
  intros F H. induction F as [|x y K L Hxy F IH]; simpl; [tauto|]. rewrite IH.
  split; intros [<-|]; auto; left.
  - eapply R2; eauto.
  - eapply R1; eauto.
Qed.
Lemma addx_rel K L a b : Forall2 R K L -> R a b -> Forall2 R (addx da K a) (addx db L b).
Proof.
  intros F H. pose proof (Forall2_In_rel K L a b F H) as I. unfold addx.
  destruct in_dec, in_dec; try tauto. apply Forall2_app; auto.
Qed.
Lemma dedup_rel l l' : Forall2 R l l' -> Forall2 R (dedup da l) (dedup db l').
Proof.
  unfold dedup. assert (G : forall K L, Forall2 R K L -> Forall2 R l l' ->
    Forall2 R (fold_left (addx da) l K) (fold_left (addx db) l' L)); [|auto].
  intros K L FK F. revert K L FK. induction F; intros K L FK; cbn [fold_left]; auto.
  apply IHF. apply addx_rel; auto.
Qed.
End Rel.

(** * The order in which from_nfa finds its states *)
Definition sdec := list_eq_dec Nat.eq_dec.
Definition both (dn : NFADelta) (S : list nat) : list (list nat) := [ssucc dn S false; ssucc dn S true].

Lemma add_key_addx K k : add_key K k = addx sdec K k.
Proof. reflexivity. Qed.

Definition order (q0n : list nat) (dn : NFADelta) (s : subset_st) : Prop :=
  let P := q0n :: flat_map (both dn) (ss_vis s) in
  fold_left (addx sdec) (ss_que s) (ss_vis s) = dedup sdec P /\
  match ss_vis s with
  | [] => ss_que s = [q0n] /\ map fst (ss_map s) = []
  | _ => map fst (ss_map s) = dedup sdec P
  end.

Lemma map_fst_imap K : map fst (imap K) = K.
Proof.
  unfold imap. generalize 0 as i. induction K as [|k K IH]; intros i; cbn; f_equal; auto.
Qed.

(** One iteration: the invariant of FromNfa.v together with the order. *)
Lemma step_order q0n Fn dn s s' K :
  (exists U, inv q0n Fn dn U s K) -> order q0n dn s -> from_nfa_step Fn dn s = inl s' -> order q0n dn s'.
Proof.
  intros (U & I) (O1 & O2) E. unfold from_nfa_step in E.
  destruct (ss_que s) as [|qs que] eqn:Eq; [discriminate|].
  destruct (existsb (subset_eqb qs) (ss_vis s)) eqn:Ev.
  - assert (Hv : In qs (ss_vis s)).
    { apply existsb_exists in Ev as (x & Hx & Ex). apply subset_eqb_eq in Ex. subst; auto. }
    injection E as <-. unfold order. cbn [ss_map ss_vis ss_que].
    cbn [fold_left] in O1. rewrite addx_same in O1 by auto. split; auto.
    destruct (ss_vis s); [destruct Hv|auto].
  - assert (Hv : ~ In qs (ss_vis s)).
    { intros Hv. assert (existsb (subset_eqb qs) (ss_vis s) = true); [|congruence].
      apply existsb_exists. exists qs; split; auto. apply subset_eqb_eq; auto. }
    destruct (rows_ok_dec dn qs) as [Hr|Hr].
    2:{ rewrite subset_succ_bad in E by auto. discriminate. }
    rewrite subset_succ_ok in E by auto. cbn [bind] in E.
    pose proof (iv_map _ _ _ _ _ _ I) as EM. rewrite EM in E, O2. rewrite map_fst_imap in O2.
    destruct (get_or_create_spec K (ss_df s) qs (iv_nd _ _ _ _ _ _ I) (iv_len _ _ _ _ _ _ I)) as (i & -> & Hi) in E.
    set (K1 := add_key K qs) in *.
    assert (N1 : NoDup K1) by (apply add_key_NoDup, (iv_nd _ _ _ _ _ _ I)).
    assert (L1 : length (blank (ss_df s) (length K1)) = length K1).
    { apply blank_length. rewrite (iv_len _ _ _ _ _ _ I). apply add_key_length. }
    destruct (get_or_create_spec K1 _ (ssucc dn qs false) N1 L1) as (i0 & -> & Hi0) in E.
    set (K2 := add_key K1 (ssucc dn qs false)) in *.
    assert (N2 : NoDup K2) by (apply add_key_NoDup, N1).
    assert (L2 : length (blank (blank (ss_df s) (length K1)) (length K2)) = length K2).
    { apply blank_length. rewrite L1. apply add_key_length. }
    destruct (get_or_create_spec K2 _ (ssucc dn qs true) N2 L2) as (i1 & -> & Hi1) in E.
    set (K3 := add_key K2 (ssucc dn qs true)) in *.
    unfold cont in E. destruct set_at as [df4|] in E; [|discriminate].
    cbn [bind] in E. injection E as <-.
    unfold order. cbn [ss_map ss_vis ss_que]. rewrite map_fst_imap.
    cbn [fold_left] in O1. rewrite addx_new in O1 by auto.
    rewrite flat_map_app. cbn [flat_map]. rewrite app_nil_r.
    assert (D : dedup sdec (q0n :: flat_map (both dn) (ss_vis s) ++ both dn qs) =
                fold_left (addx sdec) (both dn qs) (dedup sdec (q0n :: flat_map (both dn) (ss_vis s)))).
    { unfold dedup. rewrite app_comm_cons, fold_left_app. reflexivity. }
    rewrite D. split.
    + rewrite fold_left_app, O1. reflexivity.
    + assert (G : K3 = fold_left (addx sdec) (both dn qs) (dedup sdec (q0n :: flat_map (both dn) (ss_vis s)))).
      { unfold K3, K2, K1. change add_key with (addx sdec). destruct (ss_vis s) eqn:EV.
        - destruct O2 as [O2 O3]. injection O2 as -> ->. rewrite O3. reflexivity.
        - rewrite <- EV in *.  rewrite (addx_same sdec K qs).
          { rewrite <- O2. reflexivity. }
          rewrite O2, <- O1. apply fold_addx_In. left. apply in_or_app; simpl; auto. }
      destruct (ss_vis s ++ [qs]) eqn:EV; [destruct (ss_vis s); discriminate|exact G].
Qed.

Lemma iter2_inv {S R} (step : S -> S + R) (J : S -> Prop) (Q : R -> Prop) :
  (forall s s', J s -> step s = inl s' -> J s') -> (forall s r, J s -> step s = inr r -> Q r) ->
  forall k s, J s -> match iter2 k step s with inl s' => J s' | inr r => Q r end.
Proof.
  intros H1 H2. induction k as [|k IH]; intros s Hs; cbn [iter2].
  - destruct (step s) eqn:E; eauto.
  - specialize (IH s Hs) as G. destruct (iter2 k step s); auto. apply IH; auto.
Qed.

Lemma Forall2_left_unique {A B} (R : A -> B -> Prop) (R1 : forall a a' b, R a b -> R a' b -> a = a') l :
  forall L l', Forall2 R l L -> Forall2 R l' L -> l = l'.
Proof.
  induction l as [|x l IH]; intros L l' F F'; inversion F; subst; inversion F'; subst; auto.
  f_equal; eauto.
Qed.
Lemma app_inv_length {A} (a b c d : list A) : a ++ b = c ++ d -> length a = length c -> a = c.
Proof.
  revert c. induction a as [|x a IH]; intros [|y c] E H; cbn in *; try discriminate; auto.
  injection E as -> E. f_equal. eauto.
Qed.

(** * The numbering of the result *)
Definition succs (g : Graph) (q : nat) : list nat := [nxt g q false; nxt g q true].
Definition numbered (g : Graph) : Prop :=
  initial_state g = 0 /\ seq 0 (size g) = dedup Nat.eq_dec (0 :: flat_map (succs g) (seq 0 (size g))).

Lemma from_nfa_order q0n Fn dn s : is_set q0n ->
  loop (nfa_fuel q0n dn) (from_nfa_step Fn dn) (mkSub [] [] [] [] [q0n]) = Ok s ->
  exists K U, inv q0n Fn dn U s K /\ ss_que s = [] /\
    K = dedup sdec (q0n :: flat_map (both dn) K).
Proof.
  intros HS. pose proof (from_nfa_loop q0n Fn dn HS) as G. cbn zeta in G.
  set (U := set_of (q0n ++ flat_map (fun '(_, a, b) => a ++ b) dn)) in *.
  intros E. rewrite E in G. destruct G as (Hq & K & I).
  exists K, U. split; auto. split; auto.
  pose proof (iter2_inv (from_nfa_step Fn dn)
    (fun s => (exists K, inv q0n Fn dn U s K) /\ order q0n dn s)
    (fun r => forall s, r = Ok s -> order q0n dn s)) as J.
  assert (O : order q0n dn s).
  { unfold loop in E.
    specialize (J ltac:(
      intros s1 s2 [I1 O1] E1; split;
      [assert (T := step_inv q0n Fn dn U (is_set_set_of _)); specialize (T ltac:(
         intros q b q' Eq; apply set_of_In, in_or_app; right; eapply edge_universe; eauto) s1 I1);
       rewrite E1 in T; apply T
      |destruct I1 as (K1 & I1); eapply step_order; eauto])).
    specialize (J ltac:(
      intros s1 r [_ O1] E1 s2 ->; unfold from_nfa_step in E1;
      destruct (ss_que s1); [congruence|];
      destruct existsb; [discriminate|];
      unfold cont in E1; destruct bind in E1; discriminate)).
    specialize (J (nfa_fuel q0n dn) (mkSub [] [] [] [] [q0n])).
    destruct (iter2 (nfa_fuel q0n dn) (from_nfa_step Fn dn) (mkSub [] [] [] [] [q0n])) as [s1|r]; [discriminate|].
    apply J; auto. split.
    2:{ split; cbn; auto. }
    exists []. constructor; cbn [ss_map ss_df ss_vis ss_que ss_Ff]; auto.
    + constructor.
    + constructor.
    + intros S [].
    + intros S [[]|[<-|[]]]. split; [split; auto|exists []; reflexivity].
      intros x Hx. apply set_of_In, in_or_app; auto.
    + simpl; auto.
    + intros S i [].
    + intros S [|i] _ H; discriminate.
    + simpl; auto.
    + intros i. split; [intros []|]. intros (S & H & _). destruct i; discriminate.
    + right. split; eauto. }
  destruct O as (O1 & O2). rewrite Hq in O1, O2. cbn [fold_left] in O1.
  rewrite (iv_map _ _ _ _ _ _ I), map_fst_imap in O2.
  destruct (ss_vis s) as [|v vs] eqn:EV; [destruct O2; discriminate|].
  rewrite <- EV in *. rewrite <- O1 in O2. rewrite O2. exact O1.
Qed.

Lemma from_nfa_numbered q0n Fn dn g : is_set q0n -> from_nfa q0n Fn dn = Ok g -> numbered g.
Proof.
  intros HS E. pose proof (from_nfa_spec q0n Fn dn HS) as G. rewrite E in G.
  destruct G as (_ & W & H0 & _). split; auto.
  unfold from_nfa in E. apply bind_ok in E as (s & EL & E).
  destruct (from_nfa_order q0n Fn dn s HS EL) as (K & U & I & Hq & HK).
  pose proof (fin_q0 _ _ _ _ _ _ I Hq) as K0. pose proof (iv_nd _ _ _ _ _ _ I) as HN.
  rewrite (iv_map _ _ _ _ _ _ I) in E. unfold get_or_create_state in E.
  rewrite (assoc_imap K q0n 0 HN K0) in E.
  destruct (fin_force _ _ _ _ _ _ I Hq) as (d & Hd & Ld & Rd). rewrite Hd in E. cbn [bind] in E.
  apply graph_new_ok in E as (_ & _ & ->). unfold size. cbn [graph_of g_delta]. rewrite Ld.
  pose (R := fun (i : nat) (S : list nat) => nth_error K i = Some S).
  assert (R1 : forall i j S, R i S -> R j S -> i = j).
  { unfold R. intros i j S A B. rewrite NoDup_nth_error in HN. apply HN; [eapply nth_error_lt; eauto|congruence]. }
  assert (R2 : forall i S T, R i S -> R i T -> S = T) by (unfold R; intros; congruence).
  assert (FK : Forall2 R (seq 0 (length K)) K).
  { unfold R. clear. assert (G : forall L P, Forall2 (fun (i : nat) (S : list nat) => nth_error (P ++ L) i = Some S) (seq (length P) (length L)) L).
    { induction L as [|k L IH]; intros P; cbn [length seq]; constructor.
      - rewrite nth_error_app2, Nat.sub_diag by lia. reflexivity.
      - specialize (IH (P ++ [k])). rewrite app_length, <- app_assoc in IH. cbn [length app] in IH.
        rewrite Nat.add_1_r in IH. exact IH. }
    exact (G K []). }
  assert (FD : Forall2 R (0 :: flat_map (succs (graph_of 0 (ss_Ff s) d)) (seq 0 (length K))) (q0n :: flat_map (both dn) K)).
  { constructor; [exact K0|]. clear HK. revert FK. generalize (seq 0 (length K)) as l.
    assert (G : forall L l, Forall2 R l L -> Forall2 R (flat_map (succs (graph_of 0 (ss_Ff s) d)) l) (flat_map (both dn) L)).
    { induction 1 as [|i S l L HR F IH]; cbn [flat_map]; [constructor|].
      unfold succs, both at 1. cbn [app]. destruct (Rd i S HR) as (i0 & i1 & Ei & E0 & E1).
      unfold nxt. cbn [graph_of g_delta]. rewrite Ei. cbn. repeat constructor; auto. }
    intros l F. apply G; auto. }
  assert (FE := dedup_rel Nat.eq_dec sdec R R1 R2 _ _ FD). rewrite <- HK in FE.
  exact (Forall2_left_unique R R1 _ _ _ FK FE).
Qed.

(** * A reversed automaton has no two equivalent states *)
Lemma reversed_unfold g : wf_graph g ->
  reversed g = from_nfa (g_final g) [initial_state g] (rev_delta g).
Proof.
  intros W. unfold reversed.
  rewrite (mapM_pure _ (fun q => (q, filter (fun p => nxt g p false =? q) (seq 0 (size g)),
                    filter (fun p => nxt g p true =? q) (seq 0 (size g))))).
  2:{ intros q Hq. apply in_seq in Hq. rewrite !prev_states_wf by (auto; lia). reflexivity. }
  reflexivity.
Qed.

Lemma forallb_false {A} (f : A -> bool) l : forallb f l = false -> exists x, In x l /\ f x = false.
Proof.
  induction l as [|a l IH]; cbn [forallb]; [discriminate|]. destruct (f a) eqn:E; cbn [andb].
  - intros H. destruct (IH H) as (x & ? & ?). exists x. simpl; auto.
  - intros _. exists a. simpl; auto.
Qed.

Lemma sets_differ (S T : list nat) : is_set S -> is_set T -> S <> T ->
  exists q, (In q S /\ ~ In q T) \/ (In q T /\ ~ In q S).
Proof.
  intros HS HT N.
  destruct (forallb (fun q => smem q T) S) eqn:A; [destruct (forallb (fun q => smem q S) T) eqn:B|].
  - exfalso. apply N. rewrite forallb_forall in A, B. apply is_set_ext; auto.
    intros x; split; intros Hx; apply smem_In; auto.
  - apply forallb_false in B as (x & Hx & E). exists x. right. split; auto.
    intros C. apply smem_In in C. congruence.
  - apply forallb_false in A as (x & Hx & E). exists x. left. split; auto.
    intros C. apply smem_In in C. congruence.
Qed.

Lemma reversed_dist g g' : wf_graph g -> (forall q, q < size g -> dfa_reaches g q) ->
  reversed g = Ok g' -> forall p q, p < size g' -> q < size g' -> p <> q -> dist g' p q.
Proof.
  intros W HR E. rewrite reversed_unfold in E by auto.
  pose proof W as W0. apply wf_graph_iff in W0 as (_ & HF & _ & _ & HI & HS).
  pose proof (from_nfa_spec _ [initial_state g] (rev_delta g) HS) as G. rewrite E in G.
  destruct G as (_ & W' & H0 & K & HN & HL & HK & H).
  pose proof (from_nfa_run _ _ _ _ _ W' H0 HK H) as RR.
  assert (Sub : forall S w x, S = sdelta (rev_delta g) (g_final g) w -> In x S -> x < size g).
  { intros S w x -> Hx. apply sdelta_In in Hx as (y & Hy & P). apply rev_delta_path in P; [tauto|auto|].
    apply HF; auto. }
  (* the state with the set S accepts the mirror image of u iff u leads to a member of S *)
  assert (Acc : forall p S u, nth_error K p = Some S ->
            (fin g' (run g' p (rev u)) = true <-> In (run g (initial_state g) u) S)).
  { intros p S u EK. pose proof (RR (rev u) p S EK) as R1. destruct (H _ _ R1) as (_ & F & _). rewrite F.
    destruct (H _ _ EK) as ((w & HSw) & _). split.
    - intros (x & Hx & [<-|[]]). apply sdelta_In in Hx as (y & Hy & P).
      apply rev_delta_path in P; [|auto|eapply Sub; eauto]. rewrite rev_involutive in P.
      destruct P as [_ ->]. exact Hy.
    - intros Hy. exists (initial_state g). split; [|simpl; auto]. apply sdelta_In. eexists. split; [exact Hy|].
      apply rev_delta_path; [auto|eapply Sub; eauto|]. rewrite rev_involutive. auto using init_lt. }
  intros p q Hp Hq Npq.
  rewrite <- HL in Hp, Hq.
  destruct (nth_error K p) as [S|] eqn:EP; [|apply nth_error_None in EP; lia].
  destruct (nth_error K q) as [T|] eqn:EQ; [|apply nth_error_None in EQ; lia].
  assert (NST : S <> T).
  { intros ->. apply Npq. rewrite NoDup_nth_error in HN. apply HN; auto. congruence. }
  destruct (H _ _ EP) as ((u1 & HS1) & _). destruct (H _ _ EQ) as ((u2 & HS2) & _).
  destruct (sets_differ S T) as (x & Hx); [rewrite HS1; apply sdelta_is_set; auto
                                          |rewrite HS2; apply sdelta_is_set; auto|auto|].
  assert (Hl : x < size g) by (destruct Hx as [[Hx _]|[Hx _]]; [exact (Sub S u1 x HS1 Hx)|exact (Sub T u2 x HS2 Hx)]).
  specialize (HR x Hl). apply reaches_reach in HR as (u & Hu); auto.
  exists (rev u). pose proof (Acc p S u EP) as A1. pose proof (Acc q T u EQ) as A2. rewrite Hu in A1, A2.
  destruct (fin g' (run g' p (rev u))), (fin g' (run g' q (rev u))); intros C; try discriminate;
    destruct Hx as [[X1 X2]|[X1 X2]]; intuition.
Qed.

(** * Numbering, reachability and distinguishability determine the automaton *)
Section Unique.
Context (a b : Graph) (Wa : wf_graph a) (Wb : wf_graph b).
Context (Na : numbered a) (Nb : numbered b).
Context (Ra : forall q, q < size a -> dfa_reaches a q) (Rb : forall q, q < size b -> dfa_reaches b q).
Context (Da : forall p q, p < size a -> q < size a -> p <> q -> dist a p q).
Context (Db : forall p q, p < size b -> q < size b -> p <> q -> dist b p q).
Context (L : forall w, accepts a w = accepts b w).

Let R (p q : nat) : Prop := p < size a /\ q < size b /\ forall w, fin a (run a p w) = fin b (run b q w).

Lemma R_left p p' q : R p q -> R p' q -> p = p'.
Proof.
  intros (H1 & _ & H2) (H3 & _ & H4). destruct (Nat.eq_dec p p') as [|N]; auto. exfalso.
  destruct (Da p p' H1 H3 N) as (w & Hw). apply Hw. rewrite H2, H4. reflexivity.
Qed.
Lemma R_right p q q' : R p q -> R p q' -> q = q'.
Proof.
  intros (_ & H1 & H2) (_ & H3 & H4). destruct (Nat.eq_dec q q') as [|N]; auto. exfalso.
  destruct (Db q q' H1 H3 N) as (w & Hw). apply Hw. rewrite <- H2, <- H4. reflexivity.
Qed.
Lemma R_init : R 0 0.
Proof.
  destruct Na as [Ia _], Nb as [Ib _].
  split; [rewrite <- Ia; apply init_lt; auto|]. split; [rewrite <- Ib; apply init_lt; auto|].
  intros w. specialize (L w). rewrite !accepts_run in L by auto. rewrite Ia, Ib in L. congruence.
Qed.
Lemma R_nxt p q x : R p q -> R (nxt a p x) (nxt b q x).
Proof.
  intros (H1 & H2 & H3). split; [apply nxt_lt; auto|]. split; [apply nxt_lt; auto|].
  intros w. apply (H3 (x :: w)).
Qed.

Lemma closed_all g n : wf_graph g -> numbered g -> (forall q, q < size g -> dfa_reaches g q) ->
  0 < n -> (forall q x, q < n -> nxt g q x < n) -> size g <= n.
Proof.
  intros W [I0 _] HR Hn HC. destruct (le_lt_dec (size g) n) as [|Hl]; auto. exfalso.
  specialize (HR n Hl). apply reaches_reach in HR as (w & Hw); auto.
  assert (G : forall w q, q < n -> run g q w < n).
  { clear Hw w. induction w as [|x w IH]; intros q Hq; cbn; auto. apply IH, HC, Hq. }
  specialize (G w (initial_state g)). rewrite Hw, I0 in G. lia.
Qed.

Lemma firsts g n : numbered g -> n <= size g ->
  exists m, dedup Nat.eq_dec (0 :: flat_map (succs g) (seq 0 n)) = seq 0 m /\ m <= size g.
Proof.
  intros [_ Hg] Hn. replace (size g) with (n + (size g - n)) in Hg at 2 by lia.
  rewrite seq_app, flat_map_app, app_comm_cons in Hg.
  destruct (dedup_app Nat.eq_dec (0 :: flat_map (succs g) (seq 0 n))
             (flat_map (succs g) (seq (0 + n) (size g - n)))) as (r & Hr).
  rewrite Hr in Hg. exists (length (dedup Nat.eq_dec (0 :: flat_map (succs g) (seq 0 n)))).
  assert (LE : length (dedup Nat.eq_dec (0 :: flat_map (succs g) (seq 0 n))) <= size g).
  { rewrite <- (seq_length (size g) 0), Hg, app_length. lia. }
  split; auto.
  set (l := dedup Nat.eq_dec (0 :: flat_map (succs g) (seq 0 n))) in *.
  replace (size g) with (length l + (size g - length l)) in Hg by lia. rewrite seq_app in Hg.
  apply app_inv_length in Hg; [symmetry; exact Hg|rewrite seq_length; auto].
Qed.

Lemma Forall2_seq m m' : Forall2 R (seq 0 m) (seq 0 m') -> m = m' /\ forall k, k < m -> R k k.
Proof.
  intros F. assert (E : m = m').
  { assert (E : length (seq 0 m) = length (seq 0 m')) by (induction F; cbn; auto). rewrite !seq_length in E. exact E. }
  split; auto. subst m'. intros k Hk.
  assert (G : forall n s, Forall2 R (seq s n) (seq s n) -> forall i, i < n -> R (s + i) (s + i)).
  { clear. induction n as [|n IH]; intros s F i Hi; [lia|]. cbn [seq] in F. inversion F; subst.
    destruct i as [|i]; [rewrite Nat.add_0_r; auto|]. rewrite Nat.add_succ_r, <- Nat.add_succ_l.
    apply IH; auto. lia. }
  exact (G m 0 F k Hk).
Qed.

Lemma unique_steps n :
  (n <= size a /\ n <= size b /\ forall k, k < n -> R k k) \/
  (size a = size b /\ forall k, k < size a -> R k k).
Proof.
  induction n as [|n IH]; [left; split; [lia|split; [lia|intros; lia]]|].
  destruct IH as [(H1 & H2 & H3)|]; [|auto].
  destruct (firsts a n Na H1) as (m & Em & Lm). destruct (firsts b n Nb H2) as (m' & Em' & Lm').
  assert (F : Forall2 R (0 :: flat_map (succs a) (seq 0 n)) (0 :: flat_map (succs b) (seq 0 n))).
  { constructor; [apply R_init|].
    assert (G : forall l, (forall k, In k l -> R k k) -> Forall2 R (flat_map (succs a) l) (flat_map (succs b) l)).
    { induction l as [|k l IHl]; intros Hl; cbn [flat_map]; [constructor|].
      unfold succs at 1 3. cbn [app]. constructor; [apply R_nxt, Hl; simpl; auto|].
      constructor; [apply R_nxt, Hl; simpl; auto|]. apply IHl. intros; apply Hl; simpl; auto. }
    apply G. intros k Hk. apply in_seq in Hk. apply H3. lia. }
  apply (dedup_rel Nat.eq_dec Nat.eq_dec R R_left R_right) in F. rewrite Em, Em' in F.
  apply Forall2_seq in F as [<- HR].
  assert (Hm : 0 < m).
  { assert (I0 : In 0 (seq 0 m)) by (rewrite <- Em; apply dedup_In; simpl; auto). apply in_seq in I0. lia. }
  destruct (le_lt_dec m n) as [Hle|Hlt].
  - right.
    assert (C : forall g, dedup Nat.eq_dec (0 :: flat_map (succs g) (seq 0 n)) = seq 0 m ->
                forall q x, q < n -> nxt g q x < n).
    { intros g E q x Hq. assert (I0 : In (nxt g q x) (seq 0 m)).
      { rewrite <- E. apply dedup_In. right. apply in_flat_map. exists q. split; [apply in_seq; lia|].
        destruct x; simpl; auto. }
      apply in_seq in I0. lia. }
    assert (Sa := closed_all a n Wa Na Ra ltac:(lia) (C a Em)).
    assert (Sb := closed_all b n Wb Nb Rb ltac:(lia) (C b Em')).
    split; [lia|]. intros k Hk. apply H3. lia.
  - left. split; [lia|]. split; [lia|]. intros k Hk. apply HR. lia.
Qed.

Lemma unique : size a = size b /\ initial_state a = initial_state b /\
  (forall q, q < size a -> fin a q = fin b q) /\ forall q x, q < size a -> nxt a q x = nxt b q x.
Proof.
  destruct (unique_steps (S (size a))) as [(H & _)|[ES HR]]; [lia|].
  split; auto. split; [destruct Na, Nb; congruence|]. split.
  - intros q Hq. apply (HR q Hq) with (w := []).
  - intros q x Hq. specialize (HR q Hq) as H1. apply (R_nxt q q x) in H1.
    assert (Hl : nxt a q x < size a) by apply H1. specialize (HR _ Hl) as H2. eapply R_right; eauto.
Qed.
End Unique.

(** What dump prints depends only on the states, the initial state, the final states and the
    transitions. *)
Lemma dump_same a b : wf_graph a -> wf_graph b -> size a = size b -> initial_state a = initial_state b ->
  (forall q, q < size a -> fin a q = fin b q) -> (forall q x, q < size a -> nxt a q x = nxt b q x) ->
  dump a = dump b.
Proof.
  intros Wa Wb ES EI EF EN. unfold dump, all_states. rewrite <- ES.
  assert (G : forall l, (forall q, In q l -> q < size a) -> mapM (dump_row a) l = mapM (dump_row b) l).
  { induction l as [|q l IH]; intros Hl; [reflexivity|]. cbn [mapM].
    assert (Hq : q < size a) by (apply Hl; simpl; auto).
    assert (E : dump_row a q = dump_row b q).
    { unfold dump_row. rewrite !next_state_nxt, !is_final_fin by (auto; lia).
      rewrite EF, !EN by auto. rewrite EI. reflexivity. }
    rewrite E, IH; [reflexivity|]. intros; apply Hl; simpl; auto. }
  rewrite G; [reflexivity|]. intros q Hq. apply in_seq in Hq. lia.
Qed.
