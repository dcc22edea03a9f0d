(** Facts about the second half of ltl_to_nfa_tuple: the states of one monitor edge. *)
From Coq Require Import List Arith Bool Lia.
Import ListNotations.
From Verif Require Import Base BaseFacts GraphModel LtlModel LtlSpec LtlFacts1.

Fixpoint has_true (b : bdd) : bool :=
  match b with BF => false | BT => true | BN _ l h => has_true l || has_true h end.

Section Edge.
Context (v2i : list (nat * nat)) (n : nat).
Notation idx v := (find_key Nat.eq_dec v v2i).

(** Ordered with respect to var2idx. *)
Fixpoint ord (i : nat) (b : bdd) : Prop :=
  match b with
  | BN v l h => exists j, idx v = Some j /\ i <= j < n /\ ord (S j) l /\ ord (S j) h
  | _ => True
  end.
Definition lev (b : bdd) : nat :=
  match b with BN v _ _ => match idx v with Some j => j | None => 0 end | _ => n end.
Lemma ord_le i j b : i <= j -> ord j b -> ord i b.
Proof. destruct b; cbn; auto. intros H (k & A & B & C). exists k. split; auto. split; [lia|auto]. Qed.
Lemma ord_sub b : forall i c, ord i b -> In c (sub b) -> ord 0 c.
Proof.
  induction b as [| |v l IHl h IHh]; intros i c O I; cbn in I; destruct I as [<-|I]; cbn; auto; try (destruct I; fail).
  - apply (ord_le 0 i (BN v l h)); [lia|exact O].
  - destruct O as (j & _ & _ & O1 & O2). rewrite in_app_iff in I. destruct I; eauto.
Qed.
Lemma lev_child bit p c i : ord i p -> child bit p c -> lev p < lev c /\ lev p < n.
Proof.
  destruct p as [| |v l h]; cbn [child]; try contradiction. intros (j & E & L & O1 & O2) ->. cbn [lev]. rewrite E. split; [|lia].
  assert (O : ord (S j) (if bit then h else l)) by (destruct bit; auto). revert O.
  destruct (if bit then h else l) as [| |v' l' h']; cbn; try lia. intros (k & -> & K & _). lia.
Qed.
Lemma lev_le i b : ord i b -> lev b <= n.
Proof. destruct b; cbn; try lia. intros (j & -> & L & _). lia. Qed.

Context (cond : bdd) (R : list entry) (M : list (bdd * State)).
Hypothesis HN : nodes_of cond R M.
Hypothesis HO : ord 0 cond.
Context (delta0 : NFADelta) (dst : State).
Notation L0 := (length delta0).

Definition st (m : list (State * State)) (rq : State) : option State :=
  match bd R rq with
  | Some BT => Some dst
  | Some (BN _ _ _) => find_key Nat.eq_dec rq m
  | _ => None
  end.
Fixpoint chain (D : NFADelta) (m : list (State * State)) (c : State) (k : nat) (t : State) : Prop :=
  match k with
  | O => c = t
  | S k' => L0 <= c /\ ~ In c (map snd m) /\ exists lbl c', nth_error D c = Some (lbl, [c'], [c']) /\ chain D m c' k' t
  end.
Definition slot (filled : Prop) (D : NFADelta) (m : list (State * State)) (l : list State) (i : nat) (c : bdd) : Prop :=
  (filled /\ exists rc s t, bd R rc = Some c /\ l = [s] /\ st m rc = Some t /\ chain D m s (lev c - S i) t) \/
  (~ filled /\ l = []).

(** The states and rows; [filled bit p]: the successor of node p for [bit] has been entered. *)
Record cinv (filled : bool -> State -> Prop) (D : NFADelta) (m : list (State * State)) : Prop := mkCinv {
  c_ext : firstn L0 D = delta0 /\ L0 <= length D;
  c_map : forall p s, In (p, s) m -> L0 <= s < length D /\ find_key Nat.eq_dec p m = Some s;
  c_inj : forall p p' s, In (p, s) m -> In (p', s) m -> p = p';
  c_node : forall p s, In (p, s) m -> exists v l h, bd R p = Some (BN v l h);
  c_fill : forall bit p, filled bit p -> exists s, find_key Nat.eq_dec p m = Some s;
  c_rows : forall p s v l h, find_key Nat.eq_dec p m = Some s -> bd R p = Some (BN v l h) ->
      exists lbl l0 l1, nth_error D s = Some (lbl, l0, l1) /\
        slot (filled false p) D m l0 (lev (BN v l h)) l /\ slot (filled true p) D m l1 (lev (BN v l h)) h }.

(** The states that are no node states keep their rows. *)
Record later (D : NFADelta) (m : list (State * State)) (D' : NFADelta) (m' : list (State * State)) : Prop := mkLater {
  l_len : length D <= length D';
  l_rows : forall c, c < length D -> ~ In c (map snd m) -> nth_error D' c = nth_error D c /\ ~ In c (map snd m');
  l_find : forall p s, find_key Nat.eq_dec p m = Some s -> find_key Nat.eq_dec p m' = Some s }.
Lemma later_refl D m : later D m D m.
Proof. constructor; auto. Qed.
Lemma later_trans D1 m1 D2 m2 D3 m3 : later D1 m1 D2 m2 -> later D2 m2 D3 m3 -> later D1 m1 D3 m3.
Proof.
  intros [A B C] [A' B' C']. constructor; [lia| |auto]. intros c H1 H2. destruct (B c H1 H2) as (E & N).
  destruct (B' c ltac:(lia) N) as (E' & N'). split; auto. congruence.
Qed.
Lemma chain_later D m D' m' : later D m D' m' -> forall k c t, chain D m c k t -> chain D' m' c k t.
Proof.
  intros LT. induction k as [|k IH]; intros c t; cbn [chain]; auto.
  intros (A & B & lbl & c' & E & C). destruct (l_rows _ _ _ _ LT c) as (E' & B'); auto.
  { apply nth_error_Some. congruence. }
  split; auto. split; auto. exists lbl, c'. rewrite E'. auto.
Qed.
Lemma st_later D m D' m' rq t : later D m D' m' -> st m rq = Some t -> st m' rq = Some t.
Proof. intros LT. unfold st. destruct (bd R rq) as [[| |]|]; auto. apply LT. Qed.
Lemma slot_later (F F' : Prop) D m D' m' l i c : (F <-> F') -> later D m D' m' -> slot F D m l i c -> slot F' D' m' l i c.
Proof.
  intros HF LT [(A & rc & s & t & E1 & E2 & E3 & E4)|(A & E)]; [left|right; tauto].
  split; [tauto|]. exists rc, s, t. split; auto. split; auto. split; [eapply st_later; eauto|eapply chain_later; eauto].
Qed.

Lemma find_in p s (m : list (State * State)) : find_key Nat.eq_dec p m = Some s -> In s (map snd m).
Proof. intros H. apply find_key_in in H. apply (in_map snd) in H. exact H. Qed.
Lemma firstn_app_le {A} k (l r : list A) : k <= length l -> firstn k (l ++ r) = firstn k l.
Proof. intros H. rewrite firstn_app. replace (k - length l) with 0 by lia. rewrite firstn_O, app_nil_r. reflexivity. Qed.

Lemma later_app filled D m X : cinv filled D m -> later D m (D ++ X) m.
Proof.
  intros _. constructor; auto; [rewrite app_length; lia|]. intros c H N. rewrite nth_error_app1 by auto. auto.
Qed.
Lemma cinv_app filled D m X : cinv filled D m -> cinv filled (D ++ X) m.
Proof.
  intros I. pose proof (later_app filled D m X I) as LT. destruct I as [E MP IJ ND FL RW]. constructor; auto.
  - destruct E as (E1 & E2). split; [rewrite firstn_app_le; auto|rewrite app_length; lia].
  - intros p s H. destruct (MP p s H) as (A & B). split; auto. rewrite app_length. lia.
  - intros p s v l h H1 H2. destruct (RW p s v l h H1 H2) as (lbl & l0 & l1 & A & B & C).
    exists lbl, l0, l1. split.
    + rewrite nth_error_app1; auto. apply nth_error_Some. congruence.
    + split; eapply slot_later; eauto; tauto.
Qed.

Lemma free_bits_ok filled m : forall k D cq D' c', cinv filled D m -> free_bits k D cq = (D', c') ->
  cinv filled D' m /\ later D m D' m /\ (exists X, D' = D ++ X) /\
  forall j t, chain D m cq j t -> chain D' m c' (j + k) t.
Proof.
  induction k as [|k IH]; intros D cq D' c' I; cbn [free_bits].
  - intros [= <- <-]. split; auto. split; [apply later_refl|]. split; [exists []; rewrite app_nil_r; auto|].
    intros j t. rewrite Nat.add_0_r. auto.
  - intros E. pose proof (cinv_app filled D m [(length D, [cq], [cq])] I) as I1.
    pose proof (later_app filled D m [(length D, [cq], [cq])] I) as LT.
    destruct (IH _ _ _ _ I1 E) as (A & B & (X & ->) & C). split; auto. split; [eapply later_trans; eauto|].
    split; [exists ([(length D, [cq], [cq])] ++ X); rewrite app_assoc; auto|].
    intros j t H. replace (j + S k) with (S j + k) by lia. apply C. cbn [chain]. split; [apply I|].
    split. { intros K. apply in_map_iff in K as ((p, s) & K1 & K2). cbn in K1. subst s.
      destruct (c_map _ _ _ I p _ K2) as (K3 & _). lia. }
    exists (length D), cq. split; [rewrite nth_error_app2, Nat.sub_diag by lia; reflexivity|].
    eapply chain_later; eauto.
Qed.

(** Entering a successor of a node state. *)
Lemma add_succ_row bit D q s lbl l0 l1 : nth_error D q = Some (lbl, l0, l1) ->
  exists D', add_succ bit D q s = Ok D' /\ length D' = length D /\
    (forall c, nth_error D' c = if q =? c then Some (if bit then (lbl, l0, l1 ++ [s]) else (lbl, l0 ++ [s], l1)) else nth_error D c).
Proof.
  intros E. unfold add_succ, at_, set_at. rewrite E. cbn [bind].
  assert (L : q < length D) by (apply nth_error_Some; congruence). destruct (Nat.ltb_spec q (length D)); [|lia].
  eexists. split; [reflexivity|]. split; [apply upd_len|]. intros c. rewrite upd_nth.
  destruct (Nat.ltb_spec q (length D)); [reflexivity|lia].
Qed.
Lemma nth_firstn {A} (l : list A) k i : i < k -> nth_error (firstn k l) i = nth_error l i.
Proof. revert k l. induction i as [|i IH]; intros [|k] [|x l] H; cbn; auto; try lia. apply IH. lia. Qed.
Lemma firstn_eq {A} (l l' : list A) k : length l' = length l -> (forall i, i < k -> nth_error l' i = nth_error l i) -> firstn k l' = firstn k l.
Proof.
  revert l l'. induction k as [|k IH]; intros [|x l] [|x' l'] HL H; cbn in *; try discriminate; auto.
  pose proof (H 0 ltac:(lia)) as H0. cbn in H0. injection H0 as ->. f_equal. apply IH; [lia|]. intros i Hi. apply (H (S i)). lia.
Qed.

Definition plus (filled : bool -> State -> Prop) (bit : bool) (p : State) : bool -> State -> Prop :=
  fun bit' p' => filled bit' p' \/ (bit' = bit /\ p' = p).

Lemma add_parent_ok filled D m que bit cur c cur_q p b :
  cinv filled D m -> bd R cur = Some c -> st m cur = Some cur_q ->
  bd R p = Some b -> child bit b c -> ~ filled bit p ->
  exists D' m' next, add_parent v2i R bit (lev c) cur_q (D, m, que) p = Ok (D', m', que ++ [(p, lev b, next)]) /\
    cinv (plus filled bit p) D' m' /\ later D m D' m' /\ find_key Nat.eq_dec p m' = Some next.
Proof.
  intros I HC HQ HP CH NF. unfold add_parent.
  assert (HB := HP). unfold bd in HB. unfold at_. destruct (nth_error R p) as [[[q0s q1s] b']|] eqn:EP; [|discriminate].
  cbn in HB. injection HB as ->. cbn [bind].
  assert (OP : ord 0 b). { eapply ord_sub; [exact HO|]. apply (n_sub _ _ _ HN). eauto. }
  destruct b as [| |v low high]; try contradiction. cbn [bind].
  assert (OP' := OP). cbn [ord] in OP'. destruct OP' as (j & EJ & LJ & _).
  unfold at_key. rewrite EJ. cbn [bind].
  assert (EL : lev (BN v low high) = j) by (cbn [lev]; rewrite EJ; auto).
  destruct (free_bits (lev c - (j + 1)) D cur_q) as [D1 cq] eqn:EF.
  destruct (free_bits_ok filled m _ _ _ _ _ I EF) as (I1 & LT1 & (X & EX) & CHN).
  assert (CQ : chain D1 m cq (lev c - S j) cur_q).
  { specialize (CHN 0 cur_q). cbn [plus Nat.add] in CHN. replace (lev c - S j) with (lev c - (j + 1)) by lia. apply CHN. reflexivity. }
  unfold state_get. destruct (find_key Nat.eq_dec p m) as [next|] eqn:EK.
  - (* the node has a state *)
    destruct (c_rows _ _ _ I1 p next v low high EK HP) as (lbl & l0 & l1 & ER & S0 & S1).
    destruct (add_succ_row bit D1 next cq lbl l0 l1 ER) as (D2 & EA & L2 & R2). rewrite EA. cbn [bind].
    exists D2, m, next. split; [rewrite EL; reflexivity|].
    assert (NI : In next (map snd m)) by (eapply find_in; eauto).
    assert (LT2 : later D1 m D2 m).
    { constructor; [lia| |auto]. intros c0 _ NC. rewrite R2. destruct (Nat.eqb_spec next c0) as [->|]; auto; contradiction. }
    split; [|split; [eapply later_trans; eauto|auto]].
    destruct (c_map _ _ _ I1 p next (find_key_in _ _ _ _ EK)) as (LN & _).
    destruct I1 as [E MP IJ ND FL RW]. constructor; auto.
    + destruct E as (E1 & E2). split; [|lia]. transitivity (firstn L0 D1); [|exact E1]. apply firstn_eq; auto. intros i Hi. rewrite R2.
      destruct (Nat.eqb_spec next i); [lia|auto].
    + intros p' s' H. destruct (MP p' s' H). split; auto. lia.
    + intros bit' p' [H|(-> & ->)]; eauto.
    + intros p' s' v' l' h' H1 H2. destruct (Nat.eq_dec p' p) as [->|NP].
      * rewrite EK in H1. injection H1 as <-. rewrite HP in H2. injection H2 as <- <- <-.
        assert (NEW : forall l, slot (filled bit p) D1 m l j c -> slot (plus filled bit p bit p) D2 m (l ++ [cq]) j c).
        { intros l [(F & _)|(_ & ->)]; [contradiction|]. left. split; [right; auto|]. exists cur, cq, cur_q.
          split; auto. split; auto. split; auto. eapply chain_later; eauto. }
        assert (OLD : forall bit' l d, bit' <> bit -> slot (filled bit' p) D1 m l j d -> slot (plus filled bit p bit' p) D2 m l j d).
        { intros bit' l d NB. apply slot_later; auto. unfold plus. intuition congruence. }
        rewrite EL in *. rewrite R2, Nat.eqb_refl. cbn [child] in CH. subst c. destruct bit.
        -- exists lbl, l0, (l1 ++ [cq]). split; [reflexivity|]. split; [apply OLD; [discriminate|exact S0]|apply NEW; exact S1].
        -- exists lbl, (l0 ++ [cq]), l1. split; [reflexivity|]. split; [apply NEW; exact S0|apply OLD; [discriminate|exact S1]].
      * destruct (RW p' s' v' l' h' H1 H2) as (lbl' & l0' & l1' & A & B & C). exists lbl', l0', l1'. split.
        -- rewrite R2. destruct (Nat.eqb_spec next s') as [->|]; auto. elim NP.
           apply (IJ p' p s'); apply find_key_in with (dec := Nat.eq_dec); auto.
        -- split; (eapply slot_later; [|exact LT2|eassumption]); unfold plus; intuition congruence.
  - (* a new state *)
    set (D2 := D1 ++ [(length D1, [], [])]). set (m' := m ++ [(p, length D1)]).
    assert (ER : nth_error D2 (length D1) = Some (length D1, [], [])).
    { unfold D2. rewrite nth_error_app2, Nat.sub_diag by lia. reflexivity. }
    destruct (add_succ_row bit D2 (length D1) cq _ _ _ ER) as (D3 & EA & L3 & R3). rewrite EA. cbn [bind].
    assert (L2 : length D2 = S (length D1)) by (unfold D2; rewrite app_length; cbn; lia).
    exists D3, m', (length D1). split; [rewrite EL; reflexivity|].
    assert (FP : find_key Nat.eq_dec p m' = Some (length D1)).
    { unfold m'. rewrite find_key_app, EK. cbn. destruct (Nat.eq_dec p p); congruence. }
    assert (FO : forall p' s', find_key Nat.eq_dec p' m = Some s' -> find_key Nat.eq_dec p' m' = Some s').
    { intros p' s' H. unfold m'. rewrite find_key_app, H. reflexivity. }
    assert (LT2 : later D1 m D3 m').
    { constructor; auto; [lia|]. intros c0 Hc NC. rewrite R3. destruct (Nat.eqb_spec (length D1) c0); [lia|].
      unfold D2. rewrite nth_error_app1 by auto. split; auto. unfold m'. rewrite map_app, in_app_iff. cbn. intuition lia. }
    split; [|split; [eapply later_trans; eauto|auto]].
    destruct I1 as [E MP IJ ND FL RW].
    assert (FI : forall bit', ~ filled bit' p) by (intros bit' H; destruct (FL _ _ H); congruence).
    constructor.
    + destruct E as (E1 & E2). split; [|lia]. transitivity (firstn L0 D2).
      * apply firstn_eq; auto. intros i Hi. rewrite R3. destruct (Nat.eqb_spec (length D1) i); [lia|auto].
      * unfold D2. rewrite firstn_app_le; auto.
    + intros p' s' H. unfold m' in H. rewrite in_app_iff in H. destruct H as [H|[[= <- <-]|[]]].
      * destruct (MP p' s' H) as (A & B). split; [lia|auto].
      * split; [lia|auto].
    + intros p1 p2 s'. unfold m'. rewrite !in_app_iff. cbn [In].
      intros [H1|[[= <- <-]|[]]] [H2|[H2|[]]]; try injection H2; intros; subst; auto.
      * eapply IJ; eauto.
      * destruct (MP _ _ H1). lia.
      * destruct (MP _ _ H2). lia.
    + intros p' s' H. unfold m' in H. rewrite in_app_iff in H. destruct H as [H|[[= <- <-]|[]]]; eauto.
    + intros bit' p' [H|(-> & ->)]; eauto. destruct (FL _ _ H). eauto.
    + intros p' s' v' l' h' H1 H2. destruct (Nat.eq_dec p' p) as [->|NP].
      * rewrite FP in H1. injection H1 as <-. rewrite HP in H2. injection H2 as <- <- <-. rewrite EL.
        assert (NEW : slot (plus filled bit p bit p) D3 m' [cq] j c).
        { left. split; [right; auto|]. exists cur, cq, cur_q. split; auto. split; auto.
          split; [eapply st_later; [exact LT2|auto]|eapply chain_later; eauto]. }
        assert (OLD : forall bit' d, bit' <> bit -> slot (plus filled bit p bit' p) D3 m' [] j d).
        { intros bit' d NB. right. split; auto. intros [K|(K & _)]; [elim (FI _ K)|congruence]. }
        rewrite R3, Nat.eqb_refl. cbn [child] in CH. subst c. destruct bit; cbn [app]; do 3 eexists; (split; [reflexivity|]); split; auto; apply OLD; discriminate.
      * assert (H1' : find_key Nat.eq_dec p' m = Some s').
        { unfold m' in H1. rewrite find_key_app in H1. destruct (find_key Nat.eq_dec p' m); auto. cbn in H1.
          destruct (Nat.eq_dec p' p); congruence. }
        destruct (RW p' s' v' l' h' H1' H2) as (lbl' & l0' & l1' & A & B & C). exists lbl', l0', l1'.
        assert (s' < length D1) by (apply nth_error_Some; congruence). split.
        -- rewrite R3. destruct (Nat.eqb_spec (length D1) s'); [lia|]. unfold D2. rewrite nth_error_app1; auto.
        -- split; (eapply slot_later; [|exact LT2|eassumption]); unfold plus; intuition congruence.
Qed.

Lemma cinv_iff F F' D m : (forall bit p, F bit p <-> F' bit p) -> cinv F D m -> cinv F' D m.
Proof.
  intros H [E MP IJ ND FL RW]. constructor; auto.
  - intros bit p K. apply H in K. eauto.
  - intros p s v l h H1 H2. destruct (RW p s v l h H1 H2) as (lbl & l0 & l1 & A & B & C). exists lbl, l0, l1. split; auto.
    split; eapply slot_later; eauto using later_refl.
Qed.

Lemma add_parents_ok bit cur c cur_q : forall ps filled D m que,
  cinv filled D m -> bd R cur = Some c -> st m cur = Some cur_q -> NoDup ps ->
  (forall p, In p ps -> exists b, bd R p = Some b /\ child bit b c /\ ~ filled bit p) ->
  exists D' m' new, foldM (add_parent v2i R bit (lev c) cur_q) ps (D, m, que) = Ok (D', m', que ++ new) /\
    cinv (fun bit' p' => filled bit' p' \/ (bit' = bit /\ In p' ps)) D' m' /\ later D m D' m' /\
    length new = length ps /\
    (forall p, In p ps -> exists i q, In (p, i, q) new) /\
    (forall p i q, In (p, i, q) new -> In p ps /\ find_key Nat.eq_dec p m' = Some q /\ exists b, bd R p = Some b /\ i = lev b).
Proof.
  induction ps as [|p ps IH]; intros filled D m que I HC HQ ND HP; cbn [foldM].
  - exists D, m, []. rewrite app_nil_r. split; [reflexivity|]. split; [eapply cinv_iff; [|exact I]; cbn; tauto|].
    split; [apply later_refl|]. split; [reflexivity|]. split; intros; contradiction.
  - apply NoDup_cons_iff in ND as (NP & ND). destruct (HP p (or_introl eq_refl)) as (b & B1 & B2 & B3).
    destruct (add_parent_ok filled D m que bit cur c cur_q p b I HC HQ B1 B2 B3) as (D1 & m1 & next & E1 & I1 & LT1 & FN).
    rewrite E1. cbn [bind].
    destruct (IH (plus filled bit p) D1 m1 (que ++ [(p, lev b, next)]) I1 HC) as (D2 & m2 & new & E2 & I2 & LT2 & LN & IN1 & IN2); auto.
    { eapply st_later; eauto. }
    { intros p' H. destruct (HP p' (or_intror H)) as (b' & C1 & C2 & C3). exists b'. split; auto. split; auto.
      intros [K|(_ & ->)]; contradiction. }
    exists D2, m2, ((p, lev b, next) :: new). rewrite E2, <- app_assoc. split; [reflexivity|].
    split; [eapply cinv_iff; [|exact I2]; unfold plus; cbn; intuition congruence|].
    split; [eapply later_trans; eauto|]. split; [cbn; lia|]. split.
    + intros p' [<-|H]; [exists (lev b), next; cbn; auto|]. destruct (IN1 _ H) as (i & q & K). exists i, q. cbn. auto.
    + intros p' i q [[= <- <- <-]|H].
      * split; [cbn; auto|]. split; [apply LT2; auto|eauto].
      * destruct (IN2 _ _ _ H) as (A & B). split; [cbn; auto|auto].
Qed.

(** * The search *)
Definition deg (rq : State) : nat :=
  match nth_error R rq with Some e => length (fst (fst e)) + length (snd (fst e)) | None => 0 end.
Definition pending (vis : list State) : nat :=
  list_sum (map (fun i => if in_dec Nat.eq_dec i vis then 0 else deg i) (seq 0 (length R))).
Lemma pending_nil : pending [] = list_sum (map (fun e => length (fst (fst e)) + length (snd (fst e))) R).
Proof.
  unfold pending, deg.
  assert (H : forall (g : entry -> nat) l, map (fun i => match nth_error l i with Some e => g e | None => 0 end) (seq 0 (length l)) = map g l).
  { intros g l. induction l as [|x l IH]; cbn [length seq map]; auto. cbn [nth_error]. f_equal. rewrite <- seq_shift, map_map. apply IH. }
  f_equal. etransitivity; [|exact (H (fun e => length (fst (fst e)) + length (snd (fst e))) R)]. apply map_ext. reflexivity.
Qed.
Lemma pending_visit rq vis : rq < length R -> ~ In rq vis -> pending (rq :: vis) + deg rq = pending vis.
Proof.
  intros H N. unfold pending.
  assert (G : forall a k, list_sum (map (fun i => if in_dec Nat.eq_dec i (rq :: vis) then 0 else deg i) (seq a k))
                + (if (a <=? rq) && (rq <? a + k) then deg rq else 0)
              = list_sum (map (fun i => if in_dec Nat.eq_dec i vis then 0 else deg i) (seq a k))).
  { intros a k. revert a. induction k as [|k IH]; intros a; cbn [seq map list_sum fold_right].
    - destruct (Nat.leb_spec a rq), (Nat.ltb_spec rq (a + 0)); cbn; lia.
    - specialize (IH (S a)). fold (list_sum (map (fun i => if in_dec Nat.eq_dec i (rq :: vis) then 0 else deg i) (seq (S a) k))).
      fold (list_sum (map (fun i => if in_dec Nat.eq_dec i vis then 0 else deg i) (seq (S a) k))). rewrite <- IH.
      destruct (Nat.eq_dec rq a) as [<-|NA].
      + destruct (in_dec Nat.eq_dec rq (rq :: vis)) as [_|K]; [|elim K; cbn; auto].
        destruct (in_dec Nat.eq_dec rq vis); [contradiction|].
        destruct (Nat.leb_spec rq rq), (Nat.ltb_spec rq (rq + S k)), (Nat.leb_spec (S rq) rq); cbn [andb]; lia.
      + assert (EI : (if in_dec Nat.eq_dec a (rq :: vis) then 0 else deg a) = (if in_dec Nat.eq_dec a vis then 0 else deg a)).
        { destruct (in_dec Nat.eq_dec a (rq :: vis)) as [[K|K]|K], (in_dec Nat.eq_dec a vis); try contradiction; auto.
          elim K. cbn. auto. }
        rewrite EI. destruct (Nat.leb_spec a rq), (Nat.ltb_spec rq (a + S k)), (Nat.leb_spec (S a) rq), (Nat.ltb_spec rq (S a + k)); cbn [andb]; lia. }
  specialize (G 0 (length R)). cbn [Nat.leb Nat.add] in G. destruct (Nat.ltb_spec rq (length R)); [exact G|lia].
Qed.

Record einv (que : list (State * nat * State)) (vis : list State) (D : NFADelta) (m : list (State * State))
    (alt : option State) : Prop := mkEinv {
  e_core : cinv (fun bit p => exists b c rc, bd R p = Some b /\ child bit b c /\ bd R rc = Some c /\ In rc vis) D m;
  e_que : forall rq i q, In (rq, i, q) que -> exists b, bd R rq = Some b /\ has_true b = true /\ i = lev b /\ st m rq = Some q;
  e_vis : forall rq, In rq vis -> exists b q, bd R rq = Some b /\ has_true b = true /\ st m rq = Some q;
  e_closed : forall bit rq e p, In rq vis -> nth_error R rq = Some e -> In p (preds bit e) ->
      In p vis \/ exists i q, In (p, i, q) que;
  e_true : forall rt, bd R rt = Some BT -> In rt vis \/ exists i q, In (rt, i, q) que;
  e_alt : match alt with
          | None => ~ In 0 vis
          | Some a => In 0 vis /\ exists t, st m 0 = Some t /\ chain D m a (lev cond) t
          end }.

Lemma only_root rq e : nth_error R rq = Some e -> preds false e = [] -> preds true e = [] -> rq = 0 /\ snd e = cond.
Proof.
  intros E P0 P1. assert (B : bd R rq = Some (snd e)) by (unfold bd; rewrite E; auto).
  assert (S : In (snd e) (sub cond)) by (apply (n_sub _ _ _ HN); eauto).
  destruct (sub_parent cond _ S) as [EQ|(v & l & h & I & H)].
  - split; auto. eapply (n_uniq _ _ _ HN); [exact B|]. rewrite EQ. apply (n_root _ _ _ HN).
  - exfalso. apply (n_sub _ _ _ HN) in I as (p & BP). destruct H as [H|H].
    + destruct (n_preds _ _ _ HN false rq e E) as (_ & Q). assert (In p (preds false e)) by (apply Q; exists (BN v l h); cbn; auto).
      rewrite P0 in *. contradiction.
    + destruct (n_preds _ _ _ HN true rq e E) as (_ & Q). assert (In p (preds true e)) by (apply Q; exists (BN v l h); cbn; auto).
      rewrite P1 in *. contradiction.
Qed.
Lemma root_no_preds bit e p : nth_error R 0 = Some e -> ~ In p (preds bit e).
Proof.
  intros E I. destruct (n_preds _ _ _ HN bit 0 e E) as (_ & Q). apply Q in I as (b & B & C).
  assert (EC : snd e = cond). { pose proof (n_root _ _ _ HN) as K. unfold bd in K. rewrite E in K. cbn in K. congruence. }
  assert (S : In b (sub cond)) by (apply (n_sub _ _ _ HN); eauto). apply sub_nodes in S. rewrite EC in C.
  destruct b as [| |v l h]; try contradiction. cbn in C. cbn [bdd_nodes] in S. destruct bit; subst; lia.
Qed.

Lemma has_true_parent bit b c : child bit b c -> has_true c = true -> has_true b = true.
Proof. destruct b; cbn; try contradiction. intros -> H. destruct bit; rewrite H; auto using orb_true_r. Qed.

Lemma edge_loop_ok : forall fuel que vis D m alt, einv que vis D m alt ->
  length que + pending vis <= fuel ->
  exists D' alt', edge_loop v2i R fuel que vis D m alt = Ok (D', alt') /\ exists vis' m', einv [] vis' D' m' alt'.
Proof.
  induction fuel as [|fuel IH]; intros que vis D m alt I HF.
  { destruct que; [|cbn in HF; lia]. exists D, alt. split; [reflexivity|eauto]. }
  destruct que as [|[[rq i] q] que]; [exists D, alt; split; [reflexivity|eauto]|]. cbn [edge_loop].
  destruct (in_dec Nat.eq_dec rq vis) as [IV|NV].
  { apply IH; [|cbn in HF; lia]. destruct I. constructor; auto.
    - intros rq' i' q' H. apply e_que0. cbn. auto.
    - intros bit rq' e p H1 H2 H3. destruct (e_closed0 bit rq' e p H1 H2 H3) as [|(i' & q' & [[= <- <- <-]|K])]; eauto.
    - intros rt H. destruct (e_true0 rt H) as [|(i' & q' & [[= <- <- <-]|K])]; eauto. }
  destruct (e_que _ _ _ _ _ I rq i q (or_introl eq_refl)) as (b & HB & HT & -> & HQ).
  assert (LR : rq < length R) by (eapply bd_some; eauto).
  pose proof (pending_visit rq vis LR NV) as HPV.
  unfold at_. assert (HB' := HB). unfold bd in HB'. destruct (nth_error R rq) as [e|] eqn:EE; [|discriminate].
  destruct e as [[q0s q1s] b']. cbn in HB'. injection HB' as ->. cbn [bind].
  assert (HD : deg rq = length q0s + length q1s) by (unfold deg; rewrite EE; reflexivity).
  assert (OB : ord 0 b) by (eapply ord_sub; [exact HO|]; apply (n_sub _ _ _ HN); eauto).
  assert (P0 : forall p, In p q0s <-> exists n, bd R p = Some n /\ child false n b) by apply (n_preds _ _ _ HN false rq _ EE).
  assert (P1 : forall p, In p q1s <-> exists n, bd R p = Some n /\ child true n b) by apply (n_preds _ _ _ HN true rq _ EE).
  assert (N0 : NoDup q0s) by apply (n_preds _ _ _ HN false rq _ EE).
  assert (N1 : NoDup q1s) by apply (n_preds _ _ _ HN true rq _ EE).
  assert (OP : forall p n, bd R p = Some n -> ord 0 n).
  { intros p n0 H. eapply ord_sub; [exact HO|]. apply (n_sub _ _ _ HN). eauto. }
  (* the root *)
  assert (ROOT : q0s = [] -> q1s = [] -> forall D1 a, later D m D1 m -> cinv (fun bit p => exists b c rc, bd R p = Some b /\ child bit b c /\ bd R rc = Some c /\ In rc vis) D1 m ->
      chain D1 m a (lev b) q -> alt = None /\ einv que (rq :: vis) D1 m (Some a)).
  { intros -> -> D1 a LT C1 CH. destruct (only_root rq _ EE eq_refl eq_refl) as (-> & EC). cbn in EC. subst b.
    assert (AN : alt = None). { destruct alt as [a'|]; auto. destruct (e_alt _ _ _ _ _ I) as (K & _). contradiction. }
    split; auto. destruct I. constructor.
    - eapply cinv_iff; [|exact C1]. intros bit p. split.
      + intros (b & c & rc & A & B & C & E). exists b, c, rc. cbn. auto.
      + intros (b & c & rc & A & B & C & [<-|E]); [|exists b, c, rc; auto]. exfalso.
        rewrite HB in C. injection C as <-. destruct bit; [apply (proj2 (P1 p)); eauto|apply (proj2 (P0 p)); eauto].
    - intros rq' i' q' H. apply e_que0. cbn. auto.
    - intros rq' [<-|H]; eauto.
    - intros bit rq' e p [<-|H1] H2 H3.
      + rewrite EE in H2. injection H2 as <-. destruct bit; destruct H3.
      + destruct (e_closed0 bit rq' e p H1 H2 H3) as [|(i' & q' & [[= <- <- <-]|K])]; cbn; eauto.
    - intros rt H. destruct (e_true0 rt H) as [|(i' & q' & [[= <- <- <-]|K])]; cbn; eauto.
    - cbn. split; auto. exists q. auto. }
  destruct (Nat.eqb_spec (lev b) 0) as [LZ|LZ].
  { assert (E0 : q0s = []). { destruct q0s as [|p ?]; auto. exfalso. destruct (proj1 (P0 p)) as (x & A & B); [cbn; auto|].
      destruct (lev_child _ _ _ _ (OP _ _ A) B). lia. }
    assert (E1 : q1s = []). { destruct q1s as [|p ?]; auto. exfalso. destruct (proj1 (P1 p)) as (x & A & B); [cbn; auto|].
      destruct (lev_child _ _ _ _ (OP _ _ A) B). lia. }
    destruct (ROOT E0 E1 D q (later_refl _ _) (e_core _ _ _ _ _ I)) as (-> & IE). { rewrite LZ. reflexivity. }
    subst q0s q1s. cbn [assert_]. apply IH; [exact IE|]. cbn [length] in *. lia. }
  assert (CASE : (q0s = [] /\ q1s = []) \/ ~ (q0s = [] /\ q1s = [])) by (destruct q0s, q1s; intuition discriminate).
  destruct CASE as [(E0 & E1)|NE].
  { destruct (free_bits (lev b) D q) as [D1 a] eqn:EF.
    destruct (free_bits_ok _ m _ _ _ _ _ (e_core _ _ _ _ _ I) EF) as (C1 & LT & _ & CH).
    destruct (ROOT E0 E1 D1 a LT C1) as (-> & IE). { apply (CH 0 q). reflexivity. }
    subst q0s q1s. cbn [assert_]. apply IH; [exact IE|]. cbn [length] in *. lia. }
  assert (NR : rq <> 0).
  { intros ->. destruct q0s as [|p l]; [destruct q1s as [|p l]; [elim NE; auto|]|].
    - elim (root_no_preds true _ p EE). cbn. auto.
    - elim (root_no_preds false _ p EE). cbn. auto. }
  set (F := fun bit p => exists b c rc, bd R p = Some b /\ child bit b c /\ bd R rc = Some c /\ In rc vis).
  assert (NF : forall bit p x, bd R p = Some x -> child bit x b -> ~ F bit p).
  { intros bit p x A B (b' & c & rc & A' & B' & C & V). rewrite A in A'. injection A' as <-.
    assert (c = b) by (destruct x; cbn in *; try contradiction; congruence). subst c.
    assert (rc = rq) by (eapply (n_uniq _ _ _ HN); eauto). subst. contradiction. }
  destruct (add_parents_ok false rq b q q0s F D m que (e_core _ _ _ _ _ I) HB HQ N0) as (D1 & m1 & new0 & E1 & C1 & LT1 & LN1 & IN1 & OUT1).
  { intros p Hp. apply P0 in Hp as (x & A & B). exists x. split; auto. split; auto. eapply NF; eauto. }
  destruct (add_parents_ok true rq b q q1s _ D1 m1 (que ++ new0) C1 HB (st_later _ _ _ _ _ _ LT1 HQ) N1) as (D2 & m2 & new1 & E2 & C2 & LT2 & LN2 & IN2 & OUT2).
  { intros p Hp. apply P1 in Hp as (x & A & B). exists x. split; auto. split; auto. intros [K|(K & _)]; [|discriminate].
    eapply NF; eauto. }
  match goal with |- context [match q0s with [] => _ | _ => _ end] =>
    replace (match q0s with
             | [] => match q1s with [] => _ | _ => _ end
             | _ => _
             end) with (edge_loop v2i R fuel ((que ++ new0) ++ new1) (rq :: vis) D2 m2 alt) end.
  2:{ destruct q0s as [|p0 t0]; [destruct q1s as [|p1 t1]; [elim NE; auto|]|]; rewrite E1; cbn [bind]; rewrite E2; reflexivity. }
  apply IH. 2:{ rewrite !app_length. cbn [length] in *. lia. }
  assert (LT : later D m D2 m2) by (eapply later_trans; eauto).
  destruct I. constructor.
  - eapply cinv_iff; [|exact C2]. intros bit p. cbn beta. split.
    + intros [[(b' & c & rc & K1 & K2 & K3 & K4)|(-> & K)]|(-> & K)].
      * exists b', c, rc. cbn. auto.
      * apply P0 in K as (x & A & B). exists x, b, rq. cbn. auto.
      * apply P1 in K as (x & A & B). exists x, b, rq. cbn. auto.
    + intros (b' & c & rc & K1 & K2 & K3 & [<-|K4]); [|left; left; exists b', c, rc; auto].
      rewrite HB in K3. injection K3 as <-. destruct bit.
      * right. split; auto. apply P1. eauto.
      * left. right. split; auto. apply P0. eauto.
  - intros rq' i' q' H. rewrite !in_app_iff in H. destruct H as [[H|H]|H].
    + destruct (e_que0 rq' i' q' (or_intror H)) as (b' & A & B & C & E). exists b'. split; auto. split; auto. split; auto.
      eapply st_later; eauto.
    + destruct (OUT1 _ _ _ H) as (K1 & K2 & b' & K3 & K4). apply P0 in K1 as (x & A & B). rewrite K3 in A. injection A as <-.
      exists b'. split; auto. split; [eapply has_true_parent; eauto|]. split; auto. unfold st. rewrite K3.
      destruct b'; try contradiction. apply LT2. auto.
    + destruct (OUT2 _ _ _ H) as (K1 & K2 & b' & K3 & K4). apply P1 in K1 as (x & A & B). rewrite K3 in A. injection A as <-.
      exists b'. split; auto. split; [eapply has_true_parent; eauto|]. split; auto. unfold st. rewrite K3.
      destruct b'; try contradiction. auto.
  - intros rq' [<-|H].
    + exists b, q. split; auto. split; auto. eapply st_later; eauto.
    + destruct (e_vis0 _ H) as (b' & q' & A & B & C). exists b', q'. split; auto. split; auto. eapply st_later; eauto.
  - intros bit rq' e p [<-|H1] H2 H3.
    + rewrite EE in H2. injection H2 as <-. right. destruct bit; cbn in H3.
      * destruct (IN2 _ H3) as (i' & q' & K). exists i', q'. rewrite !in_app_iff. auto.
      * destruct (IN1 _ H3) as (i' & q' & K). exists i', q'. rewrite !in_app_iff. auto.
    + destruct (e_closed0 bit rq' e p H1 H2 H3) as [|(i' & q' & [[= <- <- <-]|K])]; cbn; auto.
      right. exists i', q'. rewrite !in_app_iff. auto.
  - intros rt H. destruct (e_true0 rt H) as [|(i' & q' & [[= <- <- <-]|K])]; cbn; auto.
    right. exists i', q'. rewrite !in_app_iff. auto.
  - destruct alt as [a|].
    + destruct e_alt0 as (A & t & B & C). split; [cbn; auto|]. exists t. split; [eapply st_later; eauto|eapply chain_later; eauto].
    + cbn. intros [K|K]; auto.
Qed.
End Edge.
