(** Facts about the first half of ltl_to_nfa_tuple: the nodes of a condition with their parents. *)
From Coq Require Import List Arith Bool Lia.
Import ListNotations.
From Verif Require Import Base BaseFacts GraphModel LtlModel LtlSpec.

(** * Keyed maps *)
Section Keys.
Context {K V : Type} (dec : forall a b : K, {a = b} + {a <> b}).
Lemma find_key_in k (m : list (K * V)) v : find_key dec k m = Some v -> In (k, v) m.
Proof.
  induction m as [|[k' v'] m IH]; cbn; [discriminate|]. destruct (dec k k') as [->|]; [intros [= ->]; auto|auto].
Qed.
Lemma find_key_none k (m : list (K * V)) : find_key dec k m = None <-> ~ In k (map fst m).
Proof.
  induction m as [|[k' v'] m IH]; cbn; [tauto|]. destruct (dec k k') as [->|N]; [split; [discriminate|tauto]|].
  rewrite IH. intuition congruence.
Qed.
Lemma find_key_app k (m m' : list (K * V)) :
  find_key dec k (m ++ m') = match find_key dec k m with Some v => Some v | None => find_key dec k m' end.
Proof. induction m as [|[k' v'] m IH]; cbn; auto. destruct (dec k k'); auto. Qed.
End Keys.

Lemma upd_nth {A} (v : list A) i a j : nth_error (upd i a v) j = if i =? j then (if i <? length v then Some a else None) else nth_error v j.
Proof.
  revert i j. induction v as [|x v IH]; intros i j.
  - cbn [upd length]. destruct i, j; cbn; auto. destruct (i =? j); reflexivity.
  - destruct i, j; cbn; auto. rewrite IH. reflexivity.
Qed.
Lemma upd_len {A} (v : list A) i a : length (upd i a v) = length v.
Proof. revert i. induction v as [|x v IH]; intros [|i]; cbn; auto. Qed.

(** * Subterms *)
Fixpoint sub (b : bdd) : list bdd :=
  b :: match b with BN _ l h => sub l ++ sub h | _ => [] end.
Lemma sub_self b : In b (sub b).
Proof. destruct b; cbn; auto. Qed.
Lemma sub_trans b : forall c, In c (sub b) -> forall d, In d (sub c) -> In d (sub b).
Proof.
  induction b as [| |v l IHl h IHh]; intros c Hc d Hd; cbn in Hc.
  - destruct Hc as [<-|[]]; auto.
  - destruct Hc as [<-|[]]; auto.
  - destruct Hc as [<-|Hc]; auto. cbn. right. rewrite in_app_iff in *. destruct Hc; eauto.
Qed.
Lemma sub_low b v l h : In (BN v l h) (sub b) -> In l (sub b).
Proof. intros H. eapply sub_trans; eauto. cbn. right. rewrite in_app_iff. left. apply sub_self. Qed.
Lemma sub_high b v l h : In (BN v l h) (sub b) -> In h (sub b).
Proof. intros H. eapply sub_trans; eauto. cbn. right. rewrite in_app_iff. right. apply sub_self. Qed.
Lemma sub_nodes b c : In c (sub b) -> bdd_nodes c <= bdd_nodes b.
Proof.
  induction b as [| |v l IHl h IHh]; cbn [sub]; intros [<-|H]; auto; try (destruct H; fail).
  cbn [bdd_nodes]. rewrite in_app_iff in H. destruct H as [H|H]; [apply IHl in H|apply IHh in H]; lia.
Qed.
Lemma sub_length b : length (sub b) = bdd_nodes b.
Proof. induction b; cbn; auto. rewrite app_length. lia. Qed.
(** Everything below the root has a parent below the root. *)
Lemma sub_parent b : forall c, In c (sub b) -> c = b \/
  exists v l h, In (BN v l h) (sub b) /\ (c = l \/ c = h).
Proof.
  induction b as [| |v l IHl h IHh]; intros c Hc; cbn in Hc.
  - destruct Hc as [<-|[]]; auto.
  - destruct Hc as [<-|[]]; auto.
  - destruct Hc as [<-|Hc]; auto. right. rewrite in_app_iff in Hc. destruct Hc as [Hc|Hc].
    + destruct (IHl _ Hc) as [->|(v' & l' & h' & H & E)].
      * exists v, l, h. split; [apply sub_self|auto].
      * exists v', l', h'. split; auto. cbn. right. rewrite in_app_iff. auto.
    + destruct (IHh _ Hc) as [->|(v' & l' & h' & H & E)].
      * exists v, l, h. split; [apply sub_self|auto].
      * exists v', l', h'. split; auto. cbn. right. rewrite in_app_iff. auto.
Qed.

(** * The first search *)
Definition bd (R : list entry) (i : nat) : option bdd := option_map snd (nth_error R i).
Definition child (bit : bool) (n c : bdd) : Prop :=
  match n with BN _ l h => c = (if bit then h else l) | _ => False end.
Definition preds (bit : bool) (e : entry) : list State := if bit then snd (fst e) else fst (fst e).

(** What the search computes. *)
Record nodes_of (cond : bdd) (R : list entry) (M : list (bdd * State)) : Prop := mkNodes {
  n_root : bd R 0 = Some cond;
  n_uniq : forall i j b, bd R i = Some b -> bd R j = Some b -> i = j;
  n_sub : forall b, (exists i, bd R i = Some b) <-> In b (sub cond);
  n_map : forall b i, find_key bdd_eq_dec b M = Some i <-> bd R i = Some b;
  n_preds : forall bit i e, nth_error R i = Some e -> NoDup (preds bit e) /\
      forall p, In p (preds bit e) <-> exists n, bd R p = Some n /\ child bit n (snd e) }.

Section Search.
Context (cond : bdd).
Record binv (que visited : list bdd) (R : list entry) (M : list (bdd * State)) : Prop := mkBinv {
  i_root : bd R 0 = Some cond;
  i_uniq : forall i j b, bd R i = Some b -> bd R j = Some b -> i = j;
  i_sub : forall b i, bd R i = Some b -> In b (sub cond);
  i_map : forall b i, find_key bdd_eq_dec b M = Some i <-> bd R i = Some b;
  i_known : forall b i, bd R i = Some b -> In b que \/ In b visited;
  i_todo : forall b, In b que \/ In b visited -> exists i, bd R i = Some b;
  i_children : forall bit b c, In b visited -> child bit b c -> In c que \/ In c visited;
  i_nodup : NoDup visited;
  i_preds : forall bit i e, nth_error R i = Some e -> NoDup (preds bit e) /\
      forall p, In p (preds bit e) <-> exists n, In n visited /\ bd R p = Some n /\ child bit n (snd e) }.

Definition known (R : list entry) (M : list (bdd * State)) : Prop :=
  (forall i j b, bd R i = Some b -> bd R j = Some b -> i = j) /\
  (forall b i, find_key bdd_eq_dec b M = Some i <-> bd R i = Some b).

Lemma bd_app R e i : bd (R ++ [e]) i = if i =? length R then Some (snd e) else bd R i.
Proof.
  unfold bd. destruct (Nat.eqb_spec i (length R)) as [->|N].
  - rewrite nth_error_app2, Nat.sub_diag by lia. reflexivity.
  - destruct (lt_dec i (length R)).
    + rewrite nth_error_app1 by lia. reflexivity.
    + rewrite nth_error_app2 by lia. rewrite (proj2 (nth_error_None R i)) by lia.
      destruct (i - length R) as [|k] eqn:E; [lia|]. cbn. destruct k; reflexivity.
Qed.
Lemma bd_some R i b : bd R i = Some b -> i < length R.
Proof. unfold bd. intros H. apply nth_error_Some. destruct (nth_error R i); discriminate. Qed.

Lemma node_get_spec b R M q R' M' : known R M -> node_get b R M = (q, R', M') ->
  known R' M' /\ bd R' q = Some b /\
  ((R' = R) \/ (R' = R ++ [([], [], b)] /\ (forall i, bd R i <> Some b))).
Proof.
  intros (U & F). unfold node_get. destruct (find_key bdd_eq_dec b M) eqn:E; intros [= <- <- <-].
  - split; [split; auto|]. split; [apply F; auto|auto].
  - assert (NB : forall i, bd R i <> Some b) by (intros i H; apply F in H; congruence).
    split; [|split; [rewrite bd_app, Nat.eqb_refl; auto|auto]]. split.
    + intros i j c. rewrite !bd_app. cbn [snd].
      destruct (Nat.eqb_spec i (length R)), (Nat.eqb_spec j (length R)); subst; auto; try lia.
      * intros [= <-] H. elim (NB _ H).
      * intros H [= <-]. elim (NB _ H).
      * apply U.
    + intros c i. rewrite find_key_app, bd_app. cbn [find_key snd].
      destruct (find_key bdd_eq_dec c M) as [k|] eqn:EC.
      * assert (EK := EC). apply F in EK. pose proof (bd_some _ _ _ EK) as LK.
        destruct (Nat.eqb_spec i (length R)) as [->|NI].
        -- split; [intros [= ->]; lia|]. intros [= <-]. congruence.
        -- rewrite <- EC. apply F.
      * destruct (bdd_eq_dec c b) as [->|NC].
        -- destruct (Nat.eqb_spec i (length R)) as [->|NI]; [tauto|]. split; [intros [= <-]; lia|]. intros H. elim (NB _ H).
        -- destruct (Nat.eqb_spec i (length R)) as [->|NI]; [split; [discriminate|intros [= K]; congruence]|].
           rewrite <- F. rewrite EC. tauto.
Qed.

(** One step of adding a parent. *)
Lemma add_pred_ok bit R c p b : bd R c = Some b -> exists R', add_pred bit R c p = Ok R' /\
  length R' = length R /\ (forall i, bd R' i = bd R i) /\
  forall i e', nth_error R' i = Some e' ->
    exists e, nth_error R i = Some e /\ snd e' = snd e /\
      (forall bit', preds bit' e' = preds bit' e ++ (if (i =? c) && Bool.eqb bit bit' then [p] else [])).
Proof.
  intros H. unfold add_pred, at_, set_at. unfold bd in H. destruct (nth_error R c) as [[[q0 q1] b']|] eqn:E; [|discriminate].
  cbn in H. injection H as ->. cbn [bind].
  assert (L : c < length R) by (apply nth_error_Some; congruence). destruct (Nat.ltb_spec c (length R)); [|lia].
  eexists. split; [reflexivity|]. split; [apply upd_len|]. split.
  - intros i. unfold bd. rewrite upd_nth. destruct (Nat.eqb_spec c i) as [->|]; auto.
    destruct (Nat.ltb_spec i (length R)); [|lia]. rewrite E. destruct bit; reflexivity.
  - intros i e'. rewrite upd_nth. rewrite (Nat.eqb_sym i c). destruct (Nat.eqb_spec c i) as [->|NE].
    + destruct (Nat.ltb_spec i (length R)); [|lia]. intros [= <-]. eexists. split; [exact E|].
      destruct bit; (split; [reflexivity|]); intros []; cbn; rewrite ?app_nil_r; reflexivity.
    + intros H1. exists e'. split; auto. split; auto. intros bit'. cbn. rewrite app_nil_r. reflexivity.
Qed.


Definition unseen (visited : list bdd) : nat := length (filter (fun b => if in_dec bdd_eq_dec b visited then false else true) (nodup bdd_eq_dec (sub cond))).
Lemma filter_len {A} (f : A -> bool) l : length (filter f l) <= length l.
Proof. induction l as [|x l IH]; cbn; auto. destruct (f x); cbn; lia. Qed.
Lemma unseen_le : unseen [] <= bdd_nodes cond.
Proof.
  unfold unseen. rewrite <- sub_length. etransitivity; [|apply NoDup_incl_length with (l := nodup bdd_eq_dec (sub cond))].
  - apply filter_len.
  - apply NoDup_nodup.
  - intros x. rewrite nodup_In. auto.
Qed.
Lemma filter_drop {A} (dec : forall a b : A, {a = b} + {a <> b}) (x : A) vis l : NoDup l -> In x l -> ~ In x vis ->
  S (length (filter (fun b => if in_dec dec b (x :: vis) then false else true) l)) =
  length (filter (fun b => if in_dec dec b vis then false else true) l).
Proof.
  induction l as [|y l IH]; intros ND I NV; [destruct I|]. apply NoDup_cons_iff in ND as (NY & ND). destruct I as [->|I].
  - cbn [filter]. destruct (in_dec dec x (x :: vis)) as [_|N]; [|elim N; cbn; auto].
    destruct (in_dec dec x vis); [contradiction|]. cbn [length]. f_equal. f_equal. apply filter_ext_in. intros z Hz.
    destruct (in_dec dec z (x :: vis)) as [[->|H]|H], (in_dec dec z vis); auto; try contradiction. elim H; cbn; auto.
  - specialize (IH ND I NV). cbn [filter]. destruct (in_dec dec y (x :: vis)) as [[->|H]|H], (in_dec dec y vis); try contradiction; auto.
    + elim H; cbn; auto.
    + cbn [length]. lia.
Qed.
Lemma unseen_visit x visited : In x (sub cond) -> ~ In x visited -> S (unseen (x :: visited)) = unseen visited.
Proof. intros H N. apply filter_drop; auto; [apply NoDup_nodup|]. apply nodup_In. exact H. Qed.

Lemma bdd_loop_ok : forall fuel que visited R M, binv que visited R M ->
  length que + 2 * unseen visited <= fuel ->
  exists R' M', bdd_loop fuel que visited R M = Ok (R', M') /\ exists visited', binv [] visited' R' M'.
Proof.
  induction fuel as [|fuel IH]; intros que visited R M I HF.
  { destruct que; [|cbn in HF; lia]. exists R, M. split; [reflexivity|eauto]. }
  destruct que as [|node que]; [exists R, M; split; [reflexivity|eauto]|]. cbn [bdd_loop].
  destruct (in_dec bdd_eq_dec node visited) as [IV|NV].
  { apply IH; [|cbn in HF; lia]. destruct I. constructor; auto.
    - intros b i H. destruct (i_known0 b i H) as [[->|]|]; auto.
    - intros b [H|H]; apply i_todo0; cbn; auto.
    - intros bit b c H1 H2. destruct (i_children0 bit b c H1 H2) as [[->|]|]; auto. }
  assert (HI : exists i, bd R i = Some node) by (apply (i_todo _ _ _ _ I); cbn; auto).
  destruct HI as (iq & HI). pose proof (i_sub _ _ _ _ I _ _ HI) as HS.
  pose proof (unseen_visit node visited HS NV) as HU.
  assert (Hleaf : (forall bit c, ~ child bit node c) -> binv que (node :: visited) R M).
  { intros NC. destruct I. constructor; auto.
    - intros b i H. destruct (i_known0 b i H) as [[->|]|]; cbn; auto.
    - intros b [H|[H|H]]; apply i_todo0; cbn; auto.
    - intros bit b c [<-|H1] H2; [elim (NC _ _ H2)|]. destruct (i_children0 bit b c H1 H2) as [[->|]|]; cbn; auto.
    - constructor; auto.
    - intros bit i e H. destruct (i_preds0 bit i e H) as (P1 & P2). split; auto. intros p. rewrite P2. split.
      + intros (n & A & B & C). exists n. cbn. auto.
      + intros (n & [<-|A] & B & C); [elim (NC _ _ C)|]. exists n. auto. }
  destruct node as [| |v low high].
  { apply IH; [apply Hleaf; intros ? ? []|cbn in HF; lia]. }
  { apply IH; [apply Hleaf; intros ? ? []|cbn in HF; lia]. }
  clear Hleaf. set (node := BN v low high) in *.
  unfold at_key. rewrite (proj2 (i_map _ _ _ _ I node iq) HI). cbn [bind].
  destruct (node_get low R M) as [[q0 R1] M1] eqn:E1.
  destruct (node_get_spec low R M q0 R1 M1 (conj (i_uniq _ _ _ _ I) (i_map _ _ _ _ I)) E1) as (K1 & B0 & D1).
  destruct (node_get high R1 M1) as [[q1 R2] M2] eqn:E2.
  destruct (node_get_spec high R1 M1 q1 R2 M2 K1 E2) as (K2 & B1 & D2).
  assert (X1 : forall i b, bd R i = Some b -> bd R1 i = Some b).
  { intros i b H. destruct D1 as [->|(-> & _)]; auto. rewrite bd_app. pose proof (bd_some _ _ _ H).
    destruct (Nat.eqb_spec i (length R)); [lia|auto]. }
  assert (X2 : forall i b, bd R1 i = Some b -> bd R2 i = Some b).
  { intros i b H. destruct D2 as [->|(-> & _)]; auto. rewrite bd_app. pose proof (bd_some _ _ _ H).
    destruct (Nat.eqb_spec i (length R1)); [lia|auto]. }
  (* entries of R2 are entries of R, or new and without predecessors *)
  assert (Y1 : forall i e, nth_error R1 i = Some e -> nth_error R i = Some e \/ (e = ([], [], low) /\ length R <= i /\ forall j, bd R j <> Some low)).
  { intros i e H. destruct D1 as [->|(-> & NB)]; auto. destruct (lt_dec i (length R)).
    - rewrite nth_error_app1 in H by lia. auto.
    - right. rewrite nth_error_app2 in H by lia. destruct (i - length R) as [|k]; cbn in H; [injection H as <-|destruct k; discriminate].
      split; auto. split; [lia|auto]. }
  assert (Y2 : forall i e, nth_error R2 i = Some e -> nth_error R i = Some e \/
            (exists c, e = ([], [], c) /\ (c = low \/ c = high) /\ forall j, bd R j <> Some c)).
  { intros i e H. assert (H' : nth_error R1 i = Some e \/ (e = ([], [], high) /\ forall j, bd R1 j <> Some high)).
    { destruct D2 as [->|(-> & NB)]; auto. destruct (lt_dec i (length R1)).
      - rewrite nth_error_app1 in H by lia. auto.
      - right. rewrite nth_error_app2 in H by lia. destruct (i - length R1) as [|k]; cbn in H; [injection H as <-|destruct k; discriminate]. auto. }
    destruct H' as [H'|(-> & NB)].
    - destruct (Y1 _ _ H') as [|(-> & _ & NB)]; auto. right. exists low. auto.
    - right. exists high. split; auto. split; auto. intros j Hj. apply X1 in Hj. elim (NB _ Hj). }
  assert (Z2 : forall i b, bd R2 i = Some b -> bd R i = Some b \/ ((b = low \/ b = high) /\ forall j, bd R j <> Some b)).
  { intros i b H. unfold bd in H. destruct (nth_error R2 i) as [e|] eqn:E; [|discriminate]. cbn in H. injection H as <-.
    destruct (Y2 _ _ E) as [H|(c & -> & H & NB)].
    - left. unfold bd. rewrite H. reflexivity.
    - right. auto. }
  destruct (add_pred_ok false R2 q0 iq low (X2 _ _ B0)) as (R3 & -> & L3 & F3 & G3). cbn [bind].
  destruct (add_pred_ok true R3 q1 iq high) as (R4 & -> & L4 & F4 & G4). { rewrite F3. exact B1. } cbn [bind].
  apply IH; [|rewrite app_length; cbn [length] in *; lia].
  destruct K2 as (U2 & M2').
  assert (F : forall i, bd R4 i = bd R2 i) by (intros; rewrite F4, F3; reflexivity).
  destruct I. constructor; try setoid_rewrite F.
  - apply X2, X1. exact i_root0.
  - exact U2.
  - intros b i H. destruct (Z2 _ _ H) as [H'|([->| ->] & _)]; [eauto|eapply sub_low; eauto|eapply sub_high; eauto].
  - exact M2'.
  - intros b i H. rewrite in_app_iff. destruct (Z2 _ _ H) as [H'|([->| ->] & _)]; cbn; auto.
    destruct (i_known0 _ _ H') as [[<-|]|]; cbn; auto.
  - intros b H. rewrite in_app_iff in H.
    assert (C : In b (node :: que) \/ In b visited \/ b = low \/ b = high) by (cbn in *; intuition).
    destruct C as [C|[C|[->| ->]]].
    + destruct (i_todo0 b (or_introl C)) as (i & Hi). exists i. auto.
    + destruct (i_todo0 b (or_intror C)) as (i & Hi). exists i. auto.
    + eauto.
    + eauto.
  - intros bit b c [<-|H1] H2; rewrite in_app_iff.
    + cbn in H2. subst c. destruct bit; cbn; auto.
    + destruct (i_children0 bit b c H1 H2) as [[->|]|]; cbn; auto.
  - constructor; auto.
  - intros bit i e H. destruct (G4 _ _ H) as (e3 & H3 & S3 & P3). destruct (G3 _ _ H3) as (e2 & H2 & S2 & P2).
    assert (EB : bd R2 i = Some (snd e)) by (unfold bd; rewrite H2, S3, S2; reflexivity).
    assert (EQ0 : (i =? q0) = true <-> snd e = low).
    { rewrite Nat.eqb_eq. split; [intros ->; rewrite (X2 _ _ B0) in EB; congruence|]. intros EL. rewrite EL in EB. eapply U2; eauto. }
    assert (EQ1 : (i =? q1) = true <-> snd e = high).
    { rewrite Nat.eqb_eq. split; [intros ->; congruence|]. intros EL. rewrite EL in EB. eapply U2; eauto. }
    rewrite P3, P2.
    assert (EP : preds bit e2 ++ (if (i =? q0) && Bool.eqb false bit then [iq] else []) ++ (if (i =? q1) && Bool.eqb true bit then [iq] else [])
                 = preds bit e2 ++ (if (if bit then i =? q1 else i =? q0) then [iq] else [])).
    { destruct bit; cbn; rewrite ?andb_false_r, ?andb_true_r, ?app_nil_r; reflexivity. }
    rewrite <- app_assoc, EP. clear EP.
    assert (CH : (if bit then i =? q1 else i =? q0) = true <-> child bit node (snd e)).
    { destruct bit; cbn; [rewrite EQ1|rewrite EQ0]; tauto. }
    (* the old predecessors *)
    assert (OLD : NoDup (preds bit e2) /\ forall p, In p (preds bit e2) <-> exists n, In n visited /\ bd R2 p = Some n /\ child bit n (snd e)).
    { destruct (Y2 _ _ H2) as [HR|(c & -> & HC & NB)].
      - destruct (i_preds0 bit i e2 HR) as (N2 & Q2). split; auto. intros p. rewrite Q2, S3, S2. split.
        + intros (n & A & B & C). exists n. auto.
        + intros (n & A & B & C). exists n. split; auto. split; auto.
          destruct (Z2 _ _ B) as [B'|(_ & NB)]; auto. destruct (i_todo0 n (or_intror A)) as (j & Hj). elim (NB _ Hj).
      - split; [destruct bit; constructor|]. intros p. split; [destruct bit; intros []|].
        intros (n & A & B & C). exfalso. rewrite S3, S2 in C. cbn in C.
        destruct (i_children0 bit n c A C) as [K|K].
        + destruct (i_todo0 c (or_introl K)) as (j & Hj). elim (NB _ Hj).
        + destruct (i_todo0 c (or_intror K)) as (j & Hj). elim (NB _ Hj). }
    destruct OLD as (ON & OP).
    assert (NQ : ~ In iq (preds bit e2)).
    { intros K. apply OP in K as (n & A & B & _). rewrite (X2 _ _ (X1 _ _ HI)) in B. injection B as <-. contradiction. }
    destruct (if bit then i =? q1 else i =? q0) eqn:EC.
    + split.
      { apply NoDup_rev in ON. rewrite <- (rev_involutive (preds bit e2 ++ _)). apply NoDup_rev. rewrite rev_app_distr. cbn.
        constructor; auto. rewrite <- in_rev. auto. }
      intros p. rewrite in_app_iff, OP. cbn [In]. split.
      * intros [(n & A & B & C)|[<-|[]]]; [exists n; auto|]. exists node. split; auto. split; auto. apply CH. reflexivity.
      * intros (n & [<-|A] & B & C); [|left; exists n; auto]. right. left. eapply U2; eauto.
    + rewrite app_nil_r. split; auto. intros p. rewrite OP. split.
      * intros (n & A & B & C). exists n. cbn. auto.
      * intros (n & [<-|A] & B & C); [|exists n; auto]. apply CH in C. discriminate.
Qed.
End Search.

Theorem reversed_bdd_ok cond : exists R M, reversed_bdd cond = Ok (R, M) /\ nodes_of cond R M.
Proof.
  destruct (bdd_loop_ok cond (S (2 * bdd_nodes cond)) [cond] [] [([], [], cond)] [(cond, 0)]) as (R & M & E & vis & I).
  - constructor.
    + reflexivity.
    + intros [|i] [|j] b; cbn; try (destruct i; discriminate); try (destruct j; discriminate); auto;
        intros H1 H2; unfold bd in *; cbn in *; try (destruct j; discriminate); destruct i; discriminate.
    + intros b [|i]; unfold bd; cbn; [intros [= <-]; apply sub_self|destruct i; discriminate].
    + intros b i. cbn. destruct (bdd_eq_dec b cond) as [->|N]; destruct i as [|i]; unfold bd; cbn;
        try (split; congruence); destruct i; split; discriminate.
    + intros b [|i]; unfold bd; cbn; [intros [= <-]; auto|destruct i; discriminate].
    + intros b [[<-|[]]|[]]. exists 0. reflexivity.
    + intros ? ? ? [].
    + constructor.
    + intros bit [|i] e; cbn; [intros [= <-]|destruct i; discriminate]. split; [destruct bit; constructor|].
      intros p. split; [destruct bit; intros []|]. intros (n & [] & _).
  - pose proof (unseen_le cond). cbn [length]. lia.
  - exists R, M. split; [exact E|]. destruct I. constructor; auto.
    + intros b. split; [intros (i & H); eauto|].
      assert (V : forall b, (exists i, bd R i = Some b) <-> In b vis).
      { intros c. split; [intros (i & H); destruct (i_known0 _ _ H) as [[]|]; auto|intros H; apply i_todo0; auto]. }
      rewrite V. assert (VC : In cond vis) by (apply V; eauto). revert VC. clear - i_children0.
      generalize cond. intros d. induction d as [| |v l IHl h IHh]; intros Hd; cbn; intros [<-|Hb]; auto; try (destruct Hb; fail).
      rewrite in_app_iff in Hb. destruct Hb as [Hb|Hb].
      * apply IHl; auto. destruct (i_children0 false _ l Hd eq_refl) as [[]|]; auto.
      * apply IHh; auto. destruct (i_children0 true _ h Hd eq_refl) as [[]|]; auto.
    + intros bit i e H. destruct (i_preds0 bit i e H) as (N & P). split; auto. intros p. rewrite P. split.
      * intros (n & _ & B & C). eauto.
      * intros (n & B & C). exists n. split; auto. destruct (i_known0 _ _ B) as [[]|]; auto.
Qed.
