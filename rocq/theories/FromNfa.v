(** Correctness of the subset construction Graph::from_nfa. *)
From Coq Require Import List Arith Bool Lia Permutation.
Import ListNotations.
From Verif Require Import Base BaseFacts GraphModel Spec GraphFacts.

(** Pure successor of a subset. *)
Definition row_succ (dn : NFADelta) (b : bool) (q : nat) : list nat :=
  match nth_error dn q with Some (_, d0, d1) => if b then d1 else d0 | None => [] end.
Definition ssucc (dn : NFADelta) (S : list nat) (b : bool) : list nat :=
  set_of (flat_map (row_succ dn b) S).
Definition sdelta (dn : NFADelta) (S : list nat) (w : list bool) : list nat :=
  fold_left (ssucc dn) w S.
Definition rows_ok (dn : NFADelta) (S : list nat) : Prop := forall q, In q S -> q < length dn.

Lemma sinsert_range_app s l1 l2 : sinsert_range s (l1 ++ l2) = sinsert_range (sinsert_range s l1) l2.
Proof. unfold sinsert_range. apply fold_left_app. Qed.

Lemma subset_succ_ok dn S : rows_ok dn S ->
  subset_succ dn S = Ok (ssucc dn S false, ssucc dn S true).
Proof.
  unfold subset_succ, ssucc, set_of. intros H.
  assert (G : forall a0 a1,
    foldM (fun '(qs0, qs1) q =>
             do '(_, dst0, dst1) <- at_ dn q;
             Ok (sinsert_range qs0 dst0, sinsert_range qs1 dst1)) S (a0, a1)
    = Ok (sinsert_range a0 (flat_map (row_succ dn false) S),
          sinsert_range a1 (flat_map (row_succ dn true) S))).
  { induction S as [|q S IH]; intros a0 a1; [reflexivity|].
    cbn [foldM flat_map].
    destruct (at_lt dn q) as (r & E & E'); [apply H; simpl; auto|].
    rewrite E. destruct r as [[l d0] d1]. cbn [bind].
    rewrite IH by (intros x Hx; apply H; simpl; auto).
    rewrite !sinsert_range_app.
    replace (row_succ dn false q) with d0 by (unfold row_succ; rewrite E'; reflexivity).
    replace (row_succ dn true q) with d1 by (unfold row_succ; rewrite E'; reflexivity). reflexivity. }
  apply G.
Qed.

Lemma subset_succ_bad dn S : ~ rows_ok dn S -> subset_succ dn S = Fail FOutOfRange.
Proof.
  unfold subset_succ. intros H.
  assert (E : exists S1 q S2, S = S1 ++ q :: S2 /\ length dn <= q /\ rows_ok dn S1).
  { induction S as [|a S IH]; [exfalso; apply H; intros ? []|].
    destruct (lt_dec a (length dn)).
    - destruct IH as (S1 & q & S2 & -> & L & P).
      + intros G; apply H; intros q [->|Hq]; auto.
      + exists (a :: S1), q, S2. repeat split; auto. intros x [<-|Hx]; auto.
    - exists [], a, S. repeat split; auto; try lia. intros ? []. }
  destruct E as (S1 & q & S2 & -> & L & P).
  rewrite foldM_app.
  pose proof (subset_succ_ok dn S1 P) as E. unfold subset_succ in E. rewrite E. cbn [bind foldM].
  rewrite at_fail by auto. reflexivity.
Qed.

Lemma row_succ_edge dn b q q' : In q' (row_succ dn b q) <-> nfa_edge dn q b q'.
Proof.
  unfold row_succ, nfa_edge. split.
  - destruct (nth_error dn q) as [[[l d0] d1]|]; [|simpl; tauto]. intros H.
    exists l, d0, d1. auto.
  - intros (l & d0 & d1 & E & H). rewrite E. auto.
Qed.

Lemma ssucc_In dn S b q' : In q' (ssucc dn S b) <-> exists q, In q S /\ nfa_edge dn q b q'.
Proof.
  unfold ssucc. rewrite set_of_In, in_flat_map.
  split; intros (q & H1 & H2); exists q; split; auto; apply row_succ_edge; auto.
Qed.

Lemma ssucc_set dn S b : is_set (ssucc dn S b).
Proof. apply is_set_set_of. Qed.

Lemma sdelta_In dn w : forall S q', In q' (sdelta dn S w) <-> exists q, In q S /\ nfa_path dn q w q'.
Proof.
  induction w as [|b w IH]; intros S q'; cbn [sdelta fold_left].
  - split.
    + intros H. exists q'. split; auto. constructor.
    + intros (q & H & P). inversion P; subst; auto.
  - fold (sdelta dn (ssucc dn S b) w). rewrite IH. split.
    + intros (q1 & H & P). apply ssucc_In in H as (q & H & E). exists q; split; auto.
      econstructor; eauto.
    + intros (q & H & P). inversion P; subst. exists q1; split; auto. apply ssucc_In; eauto.
Qed.

(** * The association list *)
Definition imap (K : list (list nat)) : list (list nat * nat) := combine K (seq 0 (length K)).

Lemma subset_eqb_eq a b : subset_eqb a b = true <-> a = b.
Proof. unfold subset_eqb. destruct list_eq_dec; split; congruence. Qed.

Lemma assoc_combine_none {A} k (K : list (list nat)) (vs : list A) :
  ~ In k K -> assoc k (combine K vs) = None.
Proof.
  revert vs; induction K as [|k' K IH]; intros vs H; [reflexivity|].
  destruct vs; [reflexivity|]. cbn [combine assoc].
  destruct (subset_eqb k k') eqn:E.
  - apply subset_eqb_eq in E. subst. exfalso; apply H; simpl; auto.
  - apply IH. intros G; apply H; simpl; auto.
Qed.

Lemma assoc_imap K k i : NoDup K -> nth_error K i = Some k -> assoc k (imap K) = Some i.
Proof.
  unfold imap. intros HN.
  assert (G : forall K a i, NoDup K -> nth_error K i = Some k ->
                assoc k (combine K (seq a (length K))) = Some (a + i)).
  { clear. induction K as [|k' K IH]; intros a [|i] HN H; try discriminate.
    - cbn in *. injection H as <-. rewrite (proj2 (subset_eqb_eq _ _) eq_refl). f_equal; lia.
    - cbn [combine seq length assoc].
      inversion HN; subst. cbn in H. destruct (subset_eqb k k') eqn:E.
      + apply subset_eqb_eq in E; subst. exfalso. apply H2. eapply nth_error_In; eauto.
      + rewrite (IH (S a) i) by auto. f_equal; lia. }
  apply (G K 0 i HN).
Qed.

Lemma imap_app K k : imap K ++ [(k, length K)] = imap (K ++ [k]).
Proof.
  unfold imap. rewrite app_length. cbn [length]. rewrite Nat.add_1_r, seq_S.
  assert (G : forall (a b : list (list nat)) (c d : list nat), length a = length c ->
             combine (a ++ b) (c ++ d) = combine a c ++ combine b d).
  { induction a; intros b [|y c] d E; simpl in *; try discriminate; auto.
    f_equal. apply IHa. lia. }
  rewrite G by (rewrite seq_length; auto). reflexivity.
Qed.

(** Result of get_or_create_state on keys [K]: new keys [K'], index [i]. *)
Definition add_key (K : list (list nat)) (k : list nat) : list (list nat) :=
  if in_dec (list_eq_dec Nat.eq_dec) k K then K else K ++ [k].

Definition blank (df : PDelta) (n : nat) : PDelta :=
  df ++ map (fun i => (i, None, None)) (seq (length df) (n - length df)).

Lemma get_or_create_spec K df k :
  NoDup K -> length df = length K ->
  exists i, get_or_create_state (imap K) df k = (i, imap (add_key K k), blank df (length (add_key K k)))
            /\ nth_error (add_key K k) i = Some k.
Proof.
  intros HN HL. unfold get_or_create_state, add_key.
  destruct in_dec as [Hi|Hi].
  - apply In_nth_error in Hi as (i & Hi). rewrite (assoc_imap K k i) by auto.
    exists i. split; auto. f_equal. unfold blank. rewrite HL, Nat.sub_diag. cbn. rewrite app_nil_r; auto.
  - unfold imap at 1. rewrite assoc_combine_none by auto.
    exists (length K). rewrite HL. split.
    + rewrite imap_app. f_equal. unfold blank. rewrite app_length, HL. cbn [length].
      replace (length K + 1 - length K) with 1 by lia. reflexivity.
    + rewrite nth_error_app2, Nat.sub_diag by lia. reflexivity.
Qed.

Lemma add_key_NoDup K k : NoDup K -> NoDup (add_key K k).
Proof.
  unfold add_key; destruct in_dec; auto. intros H.
  apply Permutation_NoDup with (k :: K); [|constructor; auto].
  apply Permutation_cons_append.
Qed.

Lemma add_key_In K k x : In x (add_key K k) <-> In x K \/ x = k.
Proof.
  unfold add_key; destruct in_dec; [split; auto; intros [|]; subst; auto|].
  rewrite in_app_iff. simpl. intuition.
Qed.

Lemma add_key_nth K k i x : nth_error K i = Some x -> nth_error (add_key K k) i = Some x.
Proof.
  unfold add_key; destruct in_dec; auto. intros H.
  rewrite nth_error_app1; auto. eapply nth_error_lt; eauto.
Qed.

Lemma add_key_length K k : length K <= length (add_key K k).
Proof. unfold add_key; destruct in_dec; auto. rewrite app_length; lia. Qed.

Lemma blank_length df n : length df <= n -> length (blank df n) = n.
Proof. intros. unfold blank. rewrite app_length, map_length, seq_length. lia. Qed.

Lemma blank_nth_old df n i : i < length df -> nth_error (blank df n) i = nth_error df i.
Proof. intros. unfold blank. apply nth_error_app1; auto. Qed.

Lemma blank_nth_new df n i : length df <= i -> i < n -> nth_error (blank df n) i = Some (i, None, None).
Proof.
  intros. unfold blank. rewrite nth_error_app2 by auto.
  rewrite nth_error_map, nth_error_seq by lia. simpl. repeat f_equal; lia.
Qed.

Lemma blank_blank df n m : length df <= n -> n <= m -> blank (blank df n) m = blank df m.
Proof.
  intros. apply nth_error_ext; intros i.
  destruct (lt_dec i (length df)).
  - rewrite !blank_nth_old; auto. rewrite blank_length; lia.
  - destruct (lt_dec i n).
    + rewrite blank_nth_old by (rewrite blank_length; lia). rewrite !blank_nth_new by lia. auto.
    + destruct (lt_dec i m).
      * rewrite !blank_nth_new; auto; try lia. rewrite blank_length; lia.
      * assert (forall l : PDelta, length l = m -> nth_error l i = None)
          by (intros; apply nth_error_None; lia).
        rewrite !H1; auto; rewrite !blank_length; auto; try lia. rewrite blank_length; lia.
Qed.

(** * The loop invariant *)
Section Inv.
Context (q0n Fn : list nat) (dn : NFADelta) (U : list nat).

Definition univ_ok (S : list nat) : Prop := is_set S /\ incl S U.
Definition reach_sub (S : list nat) : Prop := exists w, S = sdelta dn q0n w.

Record inv (s : subset_st) (K : list (list nat)) : Prop := {
  iv_map  : ss_map s = imap K;
  iv_nd   : NoDup K;
  iv_len  : length (ss_df s) = length K;
  iv_visn : NoDup (ss_vis s);
  iv_vis  : incl (ss_vis s) K;
  iv_K    : forall S, In S K -> In S (ss_vis s) \/ In S (ss_que s);
  iv_ok   : forall S, In S (ss_vis s) \/ In S (ss_que s) -> univ_ok S /\ reach_sub S;
  iv_q0   : In q0n (ss_vis s) \/ In q0n (ss_que s);
  iv_row  : forall S i, In S (ss_vis s) -> nth_error K i = Some S ->
              rows_ok dn S /\
              exists i0 i1, nth_error (ss_df s) i = Some (i, Some i0, Some i1)
                /\ nth_error K i0 = Some (ssucc dn S false)
                /\ nth_error K i1 = Some (ssucc dn S true);
  iv_rown : forall S i, ~ In S (ss_vis s) -> nth_error K i = Some S ->
              nth_error (ss_df s) i = Some (i, None, None);
  iv_Ffs  : is_set (ss_Ff s);
  iv_Ff   : forall i, In i (ss_Ff s) <->
              exists S, nth_error K i = Some S /\ In S (ss_vis s) /\ exists q, In q S /\ In q Fn;
  iv_first : nth_error K 0 = Some q0n \/ (K = [] /\ exists r, ss_que s = q0n :: r)
}.

Context (HU : is_set U).
Context (HUsucc : forall q b q', nfa_edge dn q b q' -> In q' U).

Lemma univ_succ S b : univ_ok (ssucc dn S b).
Proof.
  split; [apply ssucc_set|]. intros q' H. apply ssucc_In in H as (q & _ & E). eauto.
Qed.

Lemma reach_succ S b : reach_sub S -> reach_sub (ssucc dn S b).
Proof.
  intros (w & ->). exists (w ++ [b]). unfold sdelta. rewrite fold_left_app. reflexivity.
Qed.

Definition measure (s : subset_st) : nat :=
  2 * (2 ^ length U - length (ss_vis s)) + length (ss_que s).

Lemma vis_bound s K : inv s K -> forall S, In S (ss_vis s) \/ In S (ss_que s) ->
   ~ In S (ss_vis s) -> length (ss_vis s) < 2 ^ length U.
Proof.
  intros I S HS Hn.
  assert (L : length (S :: ss_vis s) <= length (subsets U)).
  { apply NoDup_incl_length.
    - constructor; auto. apply (iv_visn _ _ I).
    - intros T [<-|HT].
      + destruct (iv_ok _ _ I S HS) as [[? ?] _]. apply subsets_In; auto.
      + destruct (iv_ok _ _ I T (or_introl HT)) as [[? ?] _]. apply subsets_In; auto. }
  rewrite subsets_length in L. simpl in L. lia.
Qed.

Definition good (r : res subset_st) : Prop :=
  match r with
  | Ok s => ss_que s = [] /\ exists K, inv s K
  | Fail f => f = FOutOfRange /\ exists w, ~ rows_ok dn (sdelta dn q0n w)
  end.

Lemma rows_ok_dec S : {rows_ok dn S} + {~ rows_ok dn S}.
Proof.
  destruct (forallb (fun q => q <? length dn) S) eqn:E.
  - left. intros q Hq. rewrite forallb_forall in E. apply Nat.ltb_lt, E; auto.
  - right. intros H. assert (forallb (fun q => q <? length dn) S = true); [|congruence].
    apply forallb_forall. intros; apply Nat.ltb_lt; auto.
Qed.

Lemma step_inv s : (exists K, inv s K) ->
  match from_nfa_step Fn dn s with
  | inl s' => (exists K, inv s' K) /\ measure s' < measure s
  | inr r => good r
  end.
Proof.
  intros [K I]. unfold from_nfa_step.
  destruct (ss_que s) as [|qs que] eqn:Eq; [split; auto; eauto|].
  destruct (existsb (subset_eqb qs) (ss_vis s)) eqn:Ev.
  - (* already visited *)
    assert (Hv : In qs (ss_vis s)).
    { apply existsb_exists in Ev as (x & Hx & E). apply subset_eqb_eq in E. subst; auto. }
    split.
    + exists K. destruct I; constructor; cbn [ss_map ss_df ss_vis ss_que ss_Ff]; auto.
      * intros S HS. destruct (iv_K0 S HS) as [|H]; auto. rewrite Eq in H. destruct H; subst; auto.
      * intros S HS. apply iv_ok0. destruct HS; auto. right. rewrite Eq; simpl; auto.
      * destruct iv_q1 as [|H]; auto. rewrite Eq in H. destruct H; subst; auto.
      * destruct iv_first0 as [|[-> _]]; auto. exfalso. apply (iv_vis0 qs Hv).
    + unfold measure; cbn [ss_vis ss_que]. rewrite Eq. simpl. lia.
  - assert (Hv : ~ In qs (ss_vis s)).
    { intros Hv. assert (existsb (subset_eqb qs) (ss_vis s) = true); [|congruence].
      apply existsb_exists. exists qs; split; auto. apply subset_eqb_eq; auto. }
    assert (Hqs : In qs (ss_vis s) \/ In qs (ss_que s)) by (right; rewrite Eq; simpl; auto).
    destruct (iv_ok _ _ I qs Hqs) as [Hun Hre].
    destruct (rows_ok_dec qs) as [Hro|Hro].
    2:{ rewrite subset_succ_bad by auto. cbn. split; auto. destruct Hre as (w & ->). eauto. }
    rewrite subset_succ_ok by auto. cbn [bind].
    rewrite (iv_map _ _ I).
    pose proof (iv_nd _ _ I) as N0. pose proof (iv_len _ _ I) as L0.
    destruct (get_or_create_spec K (ss_df s) qs N0 L0) as (iq & E1 & G1). rewrite E1.
    set (K1 := add_key K qs) in *.
    assert (N1 : NoDup K1) by (apply add_key_NoDup; auto).
    pose proof (add_key_length K qs) as LK1. fold K1 in LK1.
    destruct (get_or_create_spec K1 (blank (ss_df s) (length K1)) (ssucc dn qs false) N1)
      as (i0 & E2 & G2); [rewrite blank_length; auto; lia|]. rewrite E2.
    set (K2 := add_key K1 (ssucc dn qs false)) in *.
    assert (N2 : NoDup K2) by (apply add_key_NoDup; auto).
    pose proof (add_key_length K1 (ssucc dn qs false)) as LK2. fold K2 in LK2.
    rewrite (blank_blank (ss_df s) (length K1) (length K2)) in * by lia.
    destruct (get_or_create_spec K2 (blank (ss_df s) (length K2)) (ssucc dn qs true) N2)
      as (i1 & E3 & G3); [rewrite blank_length; auto; lia|]. rewrite E3.
    set (K3 := add_key K2 (ssucc dn qs true)) in *.
    assert (N3 : NoDup K3) by (apply add_key_NoDup; auto).
    pose proof (add_key_length K2 (ssucc dn qs true)) as LK3. fold K3 in LK3.
    rewrite (blank_blank (ss_df s) (length K2) (length K3)) in * by lia.
    assert (HqK3 : nth_error K3 iq = Some qs) by (apply add_key_nth, add_key_nth, G1).
    assert (H0K3 : nth_error K3 i0 = Some (ssucc dn qs false)) by (apply add_key_nth, G2).
    assert (LD : length (blank (ss_df s) (length K3)) = length K3) by (apply blank_length; lia).
    rewrite set_at_lt by (rewrite LD; eapply nth_error_lt; eauto).
    cbn [bind cont].
    assert (InK3 : forall S, In S K3 <-> In S K \/ S = qs \/ S = ssucc dn qs false \/ S = ssucc dn qs true).
    { intros S. unfold K3, K2, K1. rewrite !add_key_In. tauto. }
    assert (Kmono : forall i S, nth_error K i = Some S -> nth_error K3 i = Some S).
    { intros. unfold K3, K2, K1. apply add_key_nth, add_key_nth, add_key_nth; auto. }
    assert (Inj : forall i j S, nth_error K3 i = Some S -> nth_error K3 j = Some S -> i = j).
    { intros i j S Hi Hj. rewrite NoDup_nth_error in N3. apply N3; [eapply nth_error_lt; eauto|].
      congruence. }
    assert (Rold : forall i S, nth_error K i = Some S ->
               nth_error (blank (ss_df s) (length K3)) i = nth_error (ss_df s) i).
    { intros i S H. apply blank_nth_old. rewrite L0. eapply nth_error_lt; eauto. }
    assert (Rnew : forall i S, nth_error K3 i = Some S -> ~ In S (ss_vis s) ->
               nth_error (blank (ss_df s) (length K3)) i = Some (i, None, None)).
    { intros i S H HnS. destruct (lt_dec i (length K)) as [Hl|Hl].
      - destruct (nth_error K i) eqn:EK; [|apply nth_error_None in EK; lia].
        assert (l = S) by (apply Kmono in EK; congruence). subst.
        rewrite (Rold i S EK). apply (iv_rown _ _ I S); auto.
      - apply blank_nth_new; [lia|]. eapply nth_error_lt; eauto. }
    split.
    + exists K3. constructor; cbn [ss_map ss_df ss_vis ss_que ss_Ff].
      * reflexivity.
      * auto.
      * rewrite upd_length; auto.
      * apply Permutation_NoDup with (qs :: ss_vis s); [apply Permutation_cons_append|].
        constructor; auto. apply (iv_visn _ _ I).
      * intros S HS. apply in_app_iff in HS as [HS|[<-|[]]]; apply InK3; auto.
        left. apply (iv_vis _ _ I); auto.
      * intros S HS. apply InK3 in HS as [HS|HS].
        -- destruct (iv_K _ _ I S HS) as [H|H]; [left; apply in_or_app; auto|].
           rewrite Eq in H. destruct H as [<-|H]; [left; apply in_or_app; simpl; auto|].
           right. apply in_or_app; auto.
        -- destruct HS as [->|[->| ->]]; [left|right|right]; apply in_or_app; right; simpl; auto.
      * assert (A : forall S, In S (ss_vis s ++ [qs]) \/ In S (que ++ [ssucc dn qs false; ssucc dn qs true]) ->
                   (In S (ss_vis s) \/ In S (ss_que s)) \/ exists b, S = ssucc dn qs b).
        { intros S. rewrite Eq, !in_app_iff. simpl.
          intros [[|[|[]]]|[|[|[|[]]]]]; subst; auto; right; eauto. }
        intros S HS. destruct (A S HS) as [H|(b & ->)]; [apply (iv_ok _ _ I); auto|].
        split; [apply univ_succ|apply reach_succ; auto].
      * rewrite !in_app_iff. destruct (iv_q0 _ _ I) as [|H]; auto.
        rewrite Eq in H. destruct H as [<-|H]; simpl; auto.
      * intros S i HS Hi. apply in_app_iff in HS as [HS|[<-|[]]].
        -- assert (HnS : S <> qs) by (intros ->; auto).
           assert (HK : In S K) by (apply (iv_vis _ _ I); auto).
           apply In_nth_error in HK as (j & Hj).
           assert (j = i) by (eapply Inj; eauto). subst j.
           destruct (iv_row _ _ I S i HS Hj) as (R & j0 & j1 & A & B & C).
           split; auto. exists j0, j1. rewrite upd_neq.
           ++ rewrite (Rold i S) by auto. repeat split; auto.
           ++ intros ->. apply HnS. congruence.
        -- assert (i = iq) by (eapply Inj; eauto). subst i. split; auto.
           exists i0, i1. rewrite upd_eq by (rewrite LD; eapply nth_error_lt; eauto).
           repeat split; auto.
      * intros S i HS Hi. rewrite in_app_iff in HS. rewrite upd_neq.
        -- apply (Rnew i S); auto.
        -- intros ->. apply HS. right. left. congruence.
      * destruct (existsb (fun q => smem q Fn) qs); [apply is_set_sinsert|]; apply (iv_Ffs _ _ I).
      * assert (Fq : existsb (fun q => smem q Fn) qs = true <-> exists q, In q qs /\ In q Fn).
        { rewrite existsb_exists. split; intros (q & A & B); exists q; split; auto; apply smem_In; auto. }
        assert (Old : forall i, In i (ss_Ff s) <->
                   exists S, nth_error K3 i = Some S /\ In S (ss_vis s) /\ exists q, In q S /\ In q Fn).
        { intros i. rewrite (iv_Ff _ _ I). split; intros (S & A & B & C); exists S; repeat split; auto.
          pose proof (iv_vis _ _ I S B) as HK. apply In_nth_error in HK as (j & Hj).
          assert (j = i) by (eapply Inj; eauto). subst; auto. }
        intros i. destruct (existsb (fun q => smem q Fn) qs) eqn:Ef.
        -- rewrite sinsert_In, Old. split.
           ++ intros [->|(S & A & B & C)].
              ** exists qs. split; auto. split; [apply in_or_app; simpl; auto|]. apply Fq; auto.
              ** exists S. repeat split; auto. apply in_or_app; auto.
           ++ intros (S & A & B & C). apply in_app_iff in B as [B|[<-|[]]].
              ** right. eauto.
              ** left. eapply Inj; eauto.
        -- rewrite Old. split.
           ++ intros (S & A & B & C). exists S. repeat split; auto. apply in_or_app; auto.
           ++ intros (S & A & B & C). apply in_app_iff in B as [B|[<-|[]]]; eauto.
              apply Fq in C. discriminate.
      * left. destruct (iv_first _ _ I) as [H|[-> (r & H)]]; [auto|].
        assert (qs = q0n) by congruence. subst. unfold K3, K2, K1.
        apply add_key_nth, add_key_nth. unfold add_key. destruct in_dec as [[]|]; reflexivity.
    + unfold measure. cbn [ss_vis ss_que]. rewrite Eq, !app_length. cbn [length].
      pose proof (vis_bound s K I qs Hqs Hv). lia.
Qed.

End Inv.

Lemma edge_universe dn q b q' : nfa_edge dn q b q' ->
  In q' (flat_map (fun '(_, a, b) => a ++ b) dn).
Proof.
  intros (l & d0 & d1 & E & H). apply in_flat_map. exists (l, d0, d1).
  split; [eapply nth_error_In; eauto|]. apply in_or_app. destruct b; auto.
Qed.

Lemma set_of_length l : length (set_of l) <= length l.
Proof.
  apply NoDup_incl_length; [apply is_set_NoDup, is_set_set_of|].
  intros x; apply set_of_In.
Qed.

Lemma from_nfa_loop q0n Fn dn : is_set q0n ->
  let U := set_of (q0n ++ flat_map (fun '(_, a, b) => a ++ b) dn) in
  good q0n Fn dn U (loop (nfa_fuel q0n dn) (from_nfa_step Fn dn) (mkSub [] [] [] [] [q0n])).
Proof.
  intros HS U.
  apply (loop_spec (from_nfa_step Fn dn) (fun s => exists K, inv q0n Fn dn U s K) (measure U)
                   (good q0n Fn dn U)).
  - intros s Hs. apply step_inv; auto; [apply is_set_set_of|].
    intros q b q' E. apply set_of_In, in_or_app. right. eapply edge_universe; eauto.
  - exists []. constructor; cbn [ss_map ss_df ss_vis ss_que ss_Ff]; auto.
    + constructor.
    + constructor.
    + intros S [].
    + intros S [[]|[<-|[]]]. split; [split; auto|exists []; reflexivity].
      intros x Hx. apply set_of_In, in_or_app; auto.
    + simpl; auto.
    + intros S i [].
    + intros S [|i] _ H; discriminate.
    + simpl; auto.
    + intros i. split; [intros []|]. intros (S & H & _). destruct i; discriminate.
    + right. split; eauto.
  - unfold measure. cbn [ss_vis ss_que length].
    assert (L : length U <= nfa_fuel q0n dn - 2).
    { unfold nfa_fuel. etransitivity; [apply set_of_length|]. rewrite app_length.
      assert (length (flat_map (fun '(_, a, b) => a ++ b) dn) =
              fold_right (fun '(_, a, b) n => length a + length b + n) 0 dn).
      { clear. induction dn as [|[[l a] b] dn IH]; simpl; auto. rewrite !app_length, IH. lia. }
      lia. }
    assert (P : 2 ^ length U <= 2 ^ (nfa_fuel q0n dn - 2)) by (apply Nat.pow_le_mono_r; lia).
    replace (nfa_fuel q0n dn) with (S (S (nfa_fuel q0n dn - 2))) by (unfold nfa_fuel; lia).
    cbn [Nat.pow]. assert (0 < 2 ^ length U) by (apply Nat.neq_0_lt_0, Nat.pow_nonzero; lia). lia.
Qed.

(** * Consequences *)
Section Final.
Context (q0n Fn : list nat) (dn : NFADelta) (U : list nat) (s : subset_st) (K : list (list nat)).
Context (I : inv q0n Fn dn U s K) (Hq : ss_que s = []).

Lemma fin_all_vis S : In S K -> In S (ss_vis s).
Proof. intros H. destruct (iv_K _ _ _ _ _ _ I S H) as [|G]; auto. rewrite Hq in G; destruct G. Qed.

Lemma fin_q0 : nth_error K 0 = Some q0n.
Proof.
  destruct (iv_first _ _ _ _ _ _ I) as [|[_ (r & H)]]; auto. rewrite Hq in H; discriminate.
Qed.

Lemma fin_row i S : nth_error K i = Some S ->
  rows_ok dn S /\
  exists i0 i1, nth_error (ss_df s) i = Some (i, Some i0, Some i1)
             /\ nth_error K i0 = Some (ssucc dn S false)
             /\ nth_error K i1 = Some (ssucc dn S true).
Proof.
  intros H. apply (iv_row _ _ _ _ _ _ I S i); auto. apply fin_all_vis. eapply nth_error_In; eauto.
Qed.

Lemma fin_force : exists d, force_delta (ss_df s) = Ok d /\ length d = length K /\
  forall i S, nth_error K i = Some S -> exists i0 i1,
    nth_error d i = Some (i, i0, i1) /\ nth_error K i0 = Some (ssucc dn S false)
    /\ nth_error K i1 = Some (ssucc dn S true).
Proof.
  assert (T : exists d, force_delta (ss_df s) = Ok d).
  { apply mapM_total. intros [[q a] b] Hr. apply In_nth_error in Hr as (i & Hi).
    assert (Hl : i < length K) by (rewrite <- (iv_len _ _ _ _ _ _ I); eapply nth_error_lt; eauto).
    destruct (nth_error K i) as [S|] eqn:EK; [|apply nth_error_None in EK; lia].
    destruct (fin_row i S EK) as (_ & i0 & i1 & E & _). rewrite Hi in E.
    injection E as -> -> ->. eauto. }
  destruct T as (d & Hd). exists d. split; auto. split.
  - rewrite <- (iv_len _ _ _ _ _ _ I). eapply mapM_length; eauto.
  - intros i S EK. destruct (fin_row i S EK) as (_ & i0 & i1 & E & E0 & E1).
    destruct (mapM_nth _ _ _ _ _ Hd E) as (r & Hr & Er). injection Er as <-. eauto.
Qed.

End Final.

Lemma rows_ok_no_dangling q0n dn :
  nfa_no_dangling q0n dn <-> forall w, rows_ok dn (sdelta dn q0n w).
Proof.
  unfold nfa_no_dangling, rows_ok. split.
  - intros H w q Hq. apply sdelta_In in Hq as (q0 & H0 & P). eauto.
  - intros H q w q' Hq P. apply (H w). apply sdelta_In. eauto.
Qed.

(** The full description of the result. *)
Theorem from_nfa_spec q0n Fn dn : is_set q0n ->
  match from_nfa q0n Fn dn with
  | Ok g => nfa_no_dangling q0n dn /\ wf_graph g /\ initial_state g = 0 /\
            exists K, NoDup K /\ length K = size g /\ nth_error K 0 = Some q0n /\
              (forall i S, nth_error K i = Some S ->
                 (exists w, S = sdelta dn q0n w) /\
                 (fin g i = true <-> exists q, In q S /\ In q Fn) /\
                 forall b, nth_error K (nxt g i b) = Some (ssucc dn S b))
  | Fail f => f = FOutOfRange /\ ~ nfa_no_dangling q0n dn
  end.
Proof.
  intros HS. pose proof (from_nfa_loop q0n Fn dn HS) as G. cbn zeta in G.
  set (U := set_of (q0n ++ flat_map (fun '(_, a, b) => a ++ b) dn)) in *.
  unfold from_nfa. destruct loop as [s|f]; cbn [bind].
  2:{ destruct G as [-> (w & Hw)]. split; auto. rewrite rows_ok_no_dangling. intros H; apply Hw, H. }
  destruct G as [Hq [K I]].
  pose proof (fin_q0 _ _ _ _ _ _ I Hq) as H0.
  pose proof (iv_nd _ _ _ _ _ _ I) as HN.
  rewrite (iv_map _ _ _ _ _ _ I).
  unfold get_or_create_state. rewrite (assoc_imap K q0n 0 HN H0). cbn [bind].
  destruct (fin_force _ _ _ _ _ _ I Hq) as (d & Hd & Ld & Rd). rewrite Hd. cbn [bind].
  assert (HT : targets_ok d).
  { intros r Hr b. apply In_nth_error in Hr as (i & Hi).
    assert (Hl : i < length K) by (rewrite <- Ld; eapply nth_error_lt; eauto).
    destruct (nth_error K i) as [S|] eqn:EK; [|apply nth_error_None in EK; lia].
    destruct (Rd i S EK) as (i0 & i1 & E & E0 & E1).
    rewrite Hi in E. injection E as ->. rewrite Ld.
    destruct b; eapply nth_error_lt; eauto. }
  assert (HF : forall q, In q (ss_Ff s) -> q < length d).
  { intros q Hqf. apply (iv_Ff _ _ _ _ _ _ I) in Hqf as (S & E & _). rewrite Ld.
    eapply nth_error_lt; eauto. }
  rewrite graph_new_good by auto.
  assert (Hrun : forall w i S, nth_error K i = Some S -> exists j, nth_error K j = Some (sdelta dn S w)).
  { induction w as [|b w IH]; intros i S E; [exists i; auto|].
    destruct (Rd i S E) as (i0 & i1 & _ & E0 & E1).
    cbn [sdelta fold_left]. destruct b; eapply IH; eauto. }
  split.
  { rewrite rows_ok_no_dangling. intros w. destruct (Hrun w 0 q0n H0) as (j & Hj).
    apply (fin_row _ _ _ _ _ _ I Hq j _ Hj). }
  split.
  { apply graph_of_wf; auto.
    - intros q l q0 q1 E. assert (Hl : q < length K) by (rewrite <- Ld; eapply nth_error_lt; eauto).
      destruct (nth_error K q) as [S|] eqn:EK; [|apply nth_error_None in EK; lia].
      destruct (Rd q S EK) as (i0 & i1 & E' & _). congruence.
    - rewrite Ld. eapply nth_error_lt; eauto.
    - apply (iv_Ffs _ _ _ _ _ _ I). }
  split; [reflexivity|].
  exists K. split; auto. split; [symmetry; exact Ld|]. split; auto.
  intros i S EK. assert (HV : In S (ss_vis s)).
  { eapply fin_all_vis; eauto. eapply nth_error_In; eauto. }
  split; [apply (iv_ok _ _ _ _ _ _ I S); auto|]. split.
  - unfold fin. cbn [graph_of g_final]. rewrite smem_In, (iv_Ff _ _ _ _ _ _ I). split.
    + intros (S' & E & _ & H). assert (S' = S) by congruence. subst; auto.
    + intros H. exists S; auto.
  - intros b. destruct (Rd i S EK) as (i0 & i1 & E & E0 & E1).
    unfold nxt. cbn [graph_of g_delta]. rewrite E. destruct b; auto.
Qed.

Lemma from_nfa_run q0n Fn dn g K :
  wf_graph g -> initial_state g = 0 ->
  nth_error K 0 = Some q0n ->
  (forall i S, nth_error K i = Some S ->
     (exists w, S = sdelta dn q0n w) /\
     (fin g i = true <-> exists q, In q S /\ In q Fn) /\
     forall b, nth_error K (nxt g i b) = Some (ssucc dn S b)) ->
  forall w i S, nth_error K i = Some S -> nth_error K (run g i w) = Some (sdelta dn S w).
Proof.
  intros W H0 HK H. induction w as [|b w IH]; intros i S E; cbn; auto.
  apply IH. apply H; auto.
Qed.

(** * The claims *)
Theorem from_nfa_ok_iff q0n Fn dn : is_set q0n ->
  ((exists g, from_nfa q0n Fn dn = Ok g) <-> nfa_no_dangling q0n dn) /\
  (~ nfa_no_dangling q0n dn -> from_nfa q0n Fn dn = Fail FOutOfRange).
Proof.
  intros HS. pose proof (from_nfa_spec q0n Fn dn HS) as G.
  destruct (from_nfa q0n Fn dn) as [g|f].
  - destruct G as [G _]. split; [split; eauto|tauto].
  - destruct G as [-> G]. split; auto. split; [intros [? ?]; discriminate|tauto].
Qed.

Theorem from_nfa_language q0n Fn dn g : is_set q0n ->
  from_nfa q0n Fn dn = Ok g -> dfa_decides g (nfa_accepts q0n Fn dn).
Proof.
  intros HS E. pose proof (from_nfa_spec q0n Fn dn HS) as G. rewrite E in G.
  destruct G as (_ & W & H0 & K & _ & _ & HK & H).
  assert (A : forall w, accepts g w = Ok true <-> nfa_accepts q0n Fn dn w).
  { intros w. rewrite accepts_run by auto. rewrite H0.
    pose proof (from_nfa_run q0n Fn dn g K W H0 HK H w 0 q0n HK) as R.
    destruct (H _ _ R) as (_ & F & _).
    assert (N : nfa_accepts q0n Fn dn w <-> exists q, In q (sdelta dn q0n w) /\ In q Fn).
    { unfold nfa_accepts. split.
      - intros (q & q' & A & B & C). exists q'. split; auto. apply sdelta_In; eauto.
      - intros (q' & A & C). apply sdelta_In in A as (q & A & B). eauto. }
    rewrite N, <- F. split; congruence. }
  intros w. unfold dfa_accepts, dfa_rejects.
  specialize (A w). rewrite accepts_run in * by auto. destruct (fin g (run g (initial_state g) w)); intuition congruence.
Qed.

Theorem from_nfa_wf q0n Fn dn g : is_set q0n -> from_nfa q0n Fn dn = Ok g -> wf_graph g.
Proof.
  intros HS E. pose proof (from_nfa_spec q0n Fn dn HS) as G. rewrite E in G. tauto.
Qed.

Theorem from_nfa_reachable q0n Fn dn g : is_set q0n -> from_nfa q0n Fn dn = Ok g ->
  forall q, q < size g -> dfa_reaches g q.
Proof.
  intros HS E. pose proof (from_nfa_spec q0n Fn dn HS) as G. rewrite E in G.
  destruct G as (_ & W & H0 & K & HN & HL & HK & H). intros q Hq.
  rewrite <- HL in Hq. destruct (nth_error K q) as [S|] eqn:EK; [|apply nth_error_None in EK; lia].
  destruct (H q S EK) as ((w & ->) & _).
  exists w. rewrite run_from_run by auto using init_lt. f_equal.
  pose proof (from_nfa_run q0n Fn dn g K W H0 HK H w 0 q0n HK) as R. rewrite H0.
  rewrite NoDup_nth_error in HN. apply HN; [eapply nth_error_lt; eauto|]. congruence.
Qed.

Lemma sdelta_is_set dn w : forall S, is_set S -> is_set (sdelta dn S w).
Proof.
  induction w as [|b w IH]; intros S HS; cbn; auto. apply IH. apply is_set_set_of.
Qed.

Lemma is_set_seq n : forall s, is_set (seq s n).
Proof.
  induction n as [|n IH]; intros s; cbn; auto. split; [destruct n; cbn; lia|apply IH].
Qed.

(** The subset construction never has more states than there are subsets. *)
Theorem from_nfa_size q0n Fn dn g : is_set q0n -> from_nfa q0n Fn dn = Ok g ->
  size g <= 2 ^ length dn.
Proof.
  intros HS E. pose proof (from_nfa_spec q0n Fn dn HS) as G. rewrite E in G.
  destruct G as (ND & W & H0 & K & HN & HL & HK & H).
  rewrite <- HL, <- (seq_length (length dn) 0), <- subsets_length.
  apply NoDup_incl_length; auto. intros S HIn.
  apply In_nth_error in HIn as (i & Hi). destruct (H i S Hi) as ((w & ->) & _).
  apply subsets_In; [apply is_set_seq| |].
  - apply sdelta_is_set; auto.
  - intros q Hq. apply in_seq. apply sdelta_In in Hq as (q0 & Hq0 & P); auto.
    specialize (ND _ _ _ Hq0 P). lia.
Qed.
