(** The quotient built by grouped_nondistinguishable, and minimality of minimized. *)
From Coq Require Import List Arith Bool Lia Permutation.
Import ListNotations.
From Verif Require Import Base BaseFacts GraphModel Spec GraphFacts FromNfa GraphOps UnionFindFacts Minimize.

Definition equiv (g : Graph) (p q : nat) : Prop := forall w, fin g (run g p w) = fin g (run g q w).

Lemma equiv_not_dist g p q : equiv g p q <-> ~ dist g p q.
Proof.
  unfold equiv, dist. split.
  - intros H (w & Hw). auto.
  - intros H w. destruct (bool_dec (fin g (run g p w)) (fin g (run g q w))); auto.
    exfalso; eauto.
Qed.

Lemma equiv_refl g p : equiv g p p. Proof. intros w; auto. Qed.
Lemma equiv_sym g p q : equiv g p q -> equiv g q p. Proof. intros H w; auto. Qed.
Lemma equiv_trans g p q r : equiv g p q -> equiv g q r -> equiv g p r.
Proof. intros H1 H2 w. rewrite H1; auto. Qed.
Lemma equiv_nxt g p q b : equiv g p q -> equiv g (nxt g p b) (nxt g q b).
Proof. intros H w. apply (H (b :: w)). Qed.
Lemma equiv_fin g p q : equiv g p q -> fin g p = fin g q.
Proof. intros H. apply (H []). Qed.

Section Group.
Context (g : Graph) (W : wf_graph g).
Let n := size g.

Lemma unite_equiv_spec t : length t = n * n ->
  (forall a b, a < b -> b < n -> marked g t a b <-> dist g a b) ->
  exists uf, unite_equiv g t = Ok uf /\ length uf = n /\ uf_ok uf /\
    forall a b, a < n -> b < n -> same uf a b <-> equiv g a b.
Proof.
  intros HL HT. unfold unite_equiv. fold n.
  pose (Snd := fun uf => length uf = n /\ uf_ok uf /\ (forall a b, same uf a b -> equiv g a b)).
  match goal with |- context [foldM ?f ?l ?st0] =>
    destruct (foldM_ind f (fun done uf => Snd uf /\
        forall a b, a < length done -> a < b -> b < n -> equiv g a b -> same uf a b) l st0)
      as (uf & E & (L & O & S1) & S2) end.
  - split; [split|].
    + unfold uf_new. apply seq_length.
    + split; [apply uf_new_ok|]. intros a b H. apply same_new in H. subst. apply equiv_refl.
    + intros a b H. inversion H.
  - intros done a rest uf El (I & C). apply seq_app_inv in El as (_ & -> & Hk). cbn [plus] in *.
    set (k := length done) in *.
    match goal with |- context [foldM ?f ?l ?st0] =>
      destruct (foldM_ind f (fun dn uf => Snd uf /\
        (forall a b, a < k -> a < b -> b < n -> equiv g a b -> same uf a b) /\
        (forall b, k < b -> b < k + 1 + length dn -> equiv g k b -> same uf k b)) l st0)
        as (uf' & E & I' & C' & C'') end.
    + split; auto. split; auto. simpl. intros; lia.
    + intros dn b rest' u El' ((L & O & S1) & S2 & S3).
      apply seq_app_inv in El' as (_ & -> & Hm). rewrite app_length. cbn [length].
      set (b := k + 1 + length dn) in *.
      assert (Hb : b < n) by lia. assert (Hkb : k < b) by lia.
      replace (k + b * n) with (k + n * b) by lia.
      pose proof (idx_lt g k b (ltac:(fold n; lia)) Hb) as HI. fold n in HI.
      destruct (at_lt t (k + n * b)) as (x & E1 & E2); [lia|]. rewrite E1. cbn [bind].
      assert (D3 : forall b', k < b' -> b' < k + 1 + (length dn + 1) -> b' = b \/ b' < b) by lia.
      destruct x.
      * exists u. split; auto. split; [split; auto|]. split; auto.
        intros b' H1 H2 H3. destruct (D3 b' H1 H2) as [->|H4]; [|apply S3; auto].
        exfalso. apply equiv_not_dist in H3. apply H3. apply HT; auto.
      * assert (Eq : equiv g k b).
        { apply equiv_not_dist. rewrite <- HT by auto. unfold marked. fold n. congruence. }
        destruct (unite_spec u k b O) as (u' & Eu & Lu & Ou & Mono & Sm & Inv); [lia|lia|].
        exists u'. split; auto. split; [split; [lia|split; auto]|split].
        -- intros a c H. destruct (Inv a c H) as [H1|[[H1 H2]|[H1 H2]]]; auto.
           ++ apply equiv_trans with k; auto. apply equiv_trans with b; auto.
           ++ apply equiv_trans with b; auto. apply equiv_trans with k; auto using equiv_sym.
        -- intros; apply Mono; auto.
        -- intros b' H1 H2 H3. destruct (D3 b' H1 H2) as [->|H4]; auto.
    + exists uf'. split; auto. split; auto. rewrite app_length. cbn [length]. fold k.
      rewrite seq_length in C''. intros a b Ha Hab Hb Hq.
      destruct (Nat.eq_dec a k) as [->|]; [apply C''; auto; lia|apply C'; auto; lia].
  - exists uf. split; auto. split; auto. split; auto. rewrite seq_length in S2.
    intros a b Ha Hb. split; auto. intros Hq.
    destruct (lt_eq_lt_dec a b) as [[H| ->]|H]; auto.
    + destruct (O b) as (r & Hr); [lia|]. exists r; auto.
    + apply same_sym, S2; auto. apply equiv_sym; auto.
Qed.

(** ** numbering the classes *)
Section Classes.
Context (uf : list nat).

Definition roots : list nat :=
  filter (fun i => match nth_error uf i with Some r => i =? r | None => false end) (seq 0 (length uf)).

Lemma roots_In r : In r roots <-> nth_error uf r = Some r.
Proof.
  unfold roots. rewrite filter_In, in_seq. split.
  - intros [_ H]. destruct (nth_error uf r) as [s|]; [|discriminate].
    apply Nat.eqb_eq in H. congruence.
  - intros H. rewrite H, Nat.eqb_refl. split; auto. split; [lia|]. eapply nth_error_lt; eauto.
Qed.

Record ginv (s : group_st) (k : nat) (rs : list nat) : Prop := {
  gi_len : length (gr_uf s) = n;
  gi_ok : uf_ok (gr_uf s);
  gi_root : forall z r, root (gr_uf s) z r <-> root uf z r;
  gi_nd : NoDup rs;
  gi_rs : forall r, In r rs <-> exists q, q < k /\ root uf q r;
  gi_next : gr_next s = length rs;
  gi_u2len : length (gr_uf2st s) = n;
  gi_u2 : forall r, r < n -> nth_error (gr_uf2st s) r = Some (index_of r rs);
  gi_stlen : length (gr_st s) = length roots;
  gi_st : forall i c, nth_error (gr_st s) i = Some c ->
            is_set c /\ forall q, In q c <-> q < k /\ exists r, root uf q r /\ index_of r rs = Some i;
  (* the classes are numbered in the order of their least members *)
  gi_ord : forall q r i j, q < k -> root uf q r -> index_of r rs = Some i -> j < i ->
            exists p r', p < q /\ root uf p r' /\ index_of r' rs = Some j }.

Lemma index_of_none x l : ~ In x l -> index_of x l = None.
Proof.
  induction l; simpl; auto. intros H. destruct (Nat.eqb_spec x a); [subst; tauto|].
  rewrite IHl by tauto. reflexivity.
Qed.

Lemma index_of_app_in x l l' : In x l -> index_of x (l ++ l') = index_of x l.
Proof.
  induction l; simpl; [tauto|]. intros H. destruct (Nat.eqb_spec x a); auto.
  destruct H as [|H]; [congruence|]. rewrite IHl; auto.
Qed.

Lemma index_of_app_new x l : ~ In x l -> index_of x (l ++ [x]) = Some (length l).
Proof.
  induction l; simpl; [rewrite Nat.eqb_refl; auto|]. intros H.
  destruct (Nat.eqb_spec x a); [subst; tauto|]. rewrite IHl by tauto. reflexivity.
Qed.

Lemma index_of_inj l x y i : index_of x l = Some i -> index_of y l = Some i -> x = y.
Proof. intros H1 H2. apply index_of_nth in H1, H2. congruence. Qed.

Lemma rs_incl s k rs : ginv s k rs -> incl rs roots.
Proof.
  intros I r Hr. apply (gi_rs _ _ _ I) in Hr as (q & _ & Hq). apply roots_In. eapply root_root; eauto.
Qed.

Context (Luf : length uf = n) (Ouf : uf_ok uf).

Lemma group_states_spec : exists s rs, group_states g uf = Ok s /\ ginv s n rs.
Proof.
  unfold group_states, all_states. fold n.
  match goal with |- context [foldM ?f ?l ?st0] =>
    destruct (foldM_ind f (fun done s => exists rs, ginv s (length done) rs) l st0)
      as (s & E & rs & I) end.
  - exists []. constructor; cbn [gr_uf gr_uf2st gr_st gr_next length]; auto.
    + intros; tauto.
    + constructor.
    + intros r. split; [intros []|]. intros (q & Hq & _). lia.
    + apply repeat_length.
    + intros r Hr. apply nth_error_repeat; auto.
    + rewrite repeat_length. reflexivity.
    + intros i c Hc. pose proof (nth_error_lt _ _ _ Hc) as L. rewrite repeat_length in L.
      rewrite nth_error_repeat in Hc by auto. injection Hc as <-. split; [exact I|].
      intros q. split; [intros []|]. intros [H _]; lia.
    + intros q r i j Hq. lia.
  - intros done q rest s El (rs & I). apply seq_app_inv in El as (_ & -> & Hk). cbn [plus] in *.
    rewrite app_length. cbn [length]. set (k := length done) in *.
    destruct (Ouf k) as (r & Hr); [lia|].
    destruct (find_spec (gr_uf s) k r (gi_ok _ _ _ I) (proj2 (gi_root _ _ _ I _ _) Hr))
      as (u' & Eu & Lu & Ou & Ru). rewrite Eu. cbn [bind].
    assert (Hrl : r < n). { rewrite <- Luf. eapply nth_error_lt. eapply root_root; eauto. }
    rewrite (proj2 (at_ok _ _ _) (gi_u2 _ _ _ I r Hrl)). cbn [bind].
    assert (Rr : forall z s0, root u' z s0 <-> root uf z s0)
      by (intros; rewrite Ru; apply (gi_root _ _ _ I)).
    destruct (in_dec Nat.eq_dec r rs) as [Hin|Hnin].
    + destruct (index_of_some r rs Hin) as (i & Hi). rewrite Hi. cbn [bind].
      rewrite (proj2 (at_ok _ _ _) (gi_u2 _ _ _ I r Hrl)). cbn [bind]. rewrite Hi.
      assert (Li : i < length (gr_st s)).
      { rewrite (gi_stlen _ _ _ I).
        apply Nat.lt_le_trans with (length rs); [eapply nth_error_lt, index_of_nth; eauto|].
        apply NoDup_incl_length; [apply (gi_nd _ _ _ I)|eapply rs_incl; eauto]. }
      destruct (at_lt (gr_st s) i Li) as (c & Ec & Hc). rewrite Ec. cbn [bind].
      rewrite set_at_lt by auto. cbn [bind]. eexists. split; [reflexivity|].
      exists rs. destruct (gi_st _ _ _ I i c Hc) as [Sc Mc].
      constructor; cbn [gr_uf gr_uf2st gr_st gr_next]; auto; try (apply I); try lia.
      * rewrite Lu. apply I.
      * intros r'. rewrite (gi_rs _ _ _ I). split.
        -- intros (q & A & B). exists q. split; auto. lia.
        -- intros (q & A & B). destruct (Nat.eq_dec q k) as [->|]; [|exists q; split; auto; lia].
           assert (r' = r) by (eapply root_det; eauto). subst. apply (gi_rs _ _ _ I); auto.
      * rewrite upd_length. apply I.
      * intros j c' Hj. rewrite upd_nth in Hj.
        assert (Lb : (i <? length (gr_st s)) = true) by (apply Nat.ltb_lt; auto).
        rewrite Lb, andb_true_r in Hj. destruct (Nat.eqb_spec i j) as [->|Hne].
        -- injection Hj as <-. split; [apply is_set_sinsert; auto|].
           intros q. rewrite sinsert_In, Mc. split.
           ++ intros [->|[A B]]; [split; [lia|exists r; auto]|split; auto; lia].
           ++ intros [A B]. destruct (Nat.eq_dec q k); auto. right. split; auto. lia.
        -- destruct (gi_st _ _ _ I j c' Hj) as [S' M']. split; auto.
           intros q. rewrite M'. split; [intros [A B]; split; auto; lia|].
           intros [A (r' & B & C)]. destruct (Nat.eq_dec q k) as [->|]; [|split; [lia|eauto]].
           exfalso. assert (r' = r) by (eapply root_det; eauto). subst. congruence.
      * intros q r' i' j Hq Hr' Hi' Hj. destruct (Nat.eq_dec q k) as [->|]; [|eapply (gi_ord _ _ _ I q); eauto; lia].
        assert (r' = r) by (eapply root_det; eauto). subst r'. apply (gi_rs _ _ _ I) in Hin as (q0 & A & B).
        destruct (gi_ord _ _ _ I q0 r i' j A B Hi' Hj) as (p & r1 & C & D). exists p, r1. split; [lia|exact D].
    + rewrite index_of_none by auto. cbn [bind].
      rewrite set_at_lt by (rewrite (gi_u2len _ _ _ I); auto). cbn [bind].
      assert (Hu : nth_error (upd r (Some (gr_next s)) (gr_uf2st s)) r = Some (Some (gr_next s)))
        by (apply upd_eq; rewrite (gi_u2len _ _ _ I); auto).
      rewrite (proj2 (at_ok _ _ _) Hu). cbn [bind].
      assert (NDn : NoDup (rs ++ [r])).
      { apply Permutation_NoDup with (r :: rs); [apply Permutation_cons_append|].
        constructor; auto. apply I. }
      assert (Inn : incl (rs ++ [r]) roots).
      { intros x Hx. apply in_app_iff in Hx as [Hx|[<-|[]]]; [eapply rs_incl; eauto|].
        apply roots_In. eapply root_root; eauto. }
      assert (Li : gr_next s < length (gr_st s)).
      { rewrite (gi_stlen _ _ _ I), (gi_next _ _ _ I).
        pose proof (NoDup_incl_length NDn Inn) as L. rewrite app_length in L. simpl in L. lia. }
      destruct (at_lt (gr_st s) (gr_next s) Li) as (c & Ec & Hc). rewrite Ec. cbn [bind].
      rewrite set_at_lt by auto. cbn [bind]. eexists. split; [reflexivity|].
      exists (rs ++ [r]). destruct (gi_st _ _ _ I _ c Hc) as [Sc Mc].
      assert (Inr : forall r', In r' rs -> index_of r' (rs ++ [r]) = index_of r' rs)
        by (intros; apply index_of_app_in; auto).
      assert (Nr : index_of r (rs ++ [r]) = Some (gr_next s))
        by (rewrite (gi_next _ _ _ I); apply index_of_app_new; auto).
      constructor; cbn [gr_uf gr_uf2st gr_st gr_next]; auto.
      * rewrite Lu. apply I.
      * intros r'. rewrite in_app_iff, (gi_rs _ _ _ I). simpl. split.
        -- intros [(q & A & B)|[<-|[]]]; [exists q; split; auto; lia|]. exists k. split; auto. lia.
        -- intros (q & A & B). destruct (Nat.eq_dec q k) as [->|]; [|left; exists q; split; auto; lia].
           right. left. eapply root_det; eauto.
      * rewrite app_length, (gi_next _ _ _ I). simpl. lia.
      * rewrite upd_length. apply I.
      * intros r' Hr'. destruct (Nat.eq_dec r r') as [<-|Hne]; [rewrite Hu, Nr; auto|].
        rewrite upd_neq by auto. rewrite (gi_u2 _ _ _ I r' Hr'). f_equal.
        destruct (in_dec Nat.eq_dec r' rs) as [H|H]; [symmetry; apply Inr; auto|].
        rewrite index_of_none by auto. symmetry. apply index_of_none.
        rewrite in_app_iff. simpl. intros [|[|[]]]; auto.
      * rewrite upd_length. apply I.
      * intros j c' Hj. rewrite upd_nth in Hj.
        assert (Lb : (gr_next s <? length (gr_st s)) = true) by (apply Nat.ltb_lt; auto).
        rewrite Lb, andb_true_r in Hj. destruct (Nat.eqb_spec (gr_next s) j) as [<-|Hne].
        -- injection Hj as <-. split; [apply is_set_sinsert; auto|].
           intros q. rewrite sinsert_In, Mc. split.
           ++ intros [->|[A (r' & B & C)]]; [split; [lia|exists r; auto]|].
              exfalso. apply index_of_nth, nth_error_lt in C. rewrite (gi_next _ _ _ I) in C. lia.
           ++ intros [A (r' & B & C)]. destruct (Nat.eq_dec q k); auto. right.
              assert (Hq : In r' rs) by (apply (gi_rs _ _ _ I); exists q; split; auto; lia).
              rewrite Inr in C by auto.
              apply index_of_nth, nth_error_lt in C. rewrite (gi_next _ _ _ I) in C. lia.
        -- destruct (gi_st _ _ _ I j c' Hj) as [S' M']. split; auto.
           intros q. rewrite M'. split.
           ++ intros [A (r' & B & C)]. split; [lia|]. exists r'. split; auto. rewrite Inr; auto.
              apply (gi_rs _ _ _ I). eauto.
           ++ intros [A (r' & B & C)]. destruct (Nat.eq_dec q k) as [->|].
              ** exfalso. assert (r' = r) by (eapply root_det; eauto). subst. congruence.
              ** assert (Hq : In r' rs) by (apply (gi_rs _ _ _ I); exists q; split; auto; lia).
                 rewrite Inr in C by auto. split; [lia|eauto].
      * intros q r' i' j Hq Hr' Hi' Hj. destruct (Nat.eq_dec q k) as [->|].
        -- assert (r' = r) by (eapply root_det; eauto). subst r'. rewrite Nr, (gi_next _ _ _ I) in Hi'. injection Hi' as <-.
           destruct (nth_error rs j) as [r1|] eqn:Ej; [|apply nth_error_None in Ej; lia].
           assert (H1 : In r1 rs) by (eapply nth_error_In; eauto). pose proof H1 as H2. apply (gi_rs _ _ _ I) in H2 as (p & A & B).
           exists p, r1. split; auto. split; auto. rewrite Inr by auto. apply index_of_nth_error; auto. apply I.
        -- assert (H1 : In r' rs) by (apply (gi_rs _ _ _ I); exists q; split; auto; lia). rewrite Inr in Hi' by auto.
           destruct (gi_ord _ _ _ I q r' i' j) as (p & r1 & A & B & C); auto; [lia|]. exists p, r1. split; auto. split; auto.
           rewrite Inr; auto. eapply nth_error_In, index_of_nth; eauto.
  - exists s, rs. rewrite seq_length in I. auto.
Qed.
End Classes.

(** ** the quotient *)
Theorem grouped_full :
  exists g', grouped_nondistinguishable g = Ok g' /\ wf_graph g' /\
    exists cls : nat -> nat -> Prop,
      (forall q, q < n -> exists i, i < size g' /\ cls q i) /\
      (forall i, i < size g' -> exists q, q < n /\ cls q i) /\
      (forall q i, cls q i -> q < n) /\
      (forall q q' i, cls q i -> cls q' i -> equiv g q q') /\
      (forall q q' i i', cls q i -> cls q' i' -> equiv g q q' -> i = i') /\
      cls (initial_state g) (initial_state g') /\
      (forall q i b, cls q i -> cls (nxt g q b) (nxt g' i b)) /\
      (forall q i, cls q i -> fin g q = fin g' i) /\
      (forall q i j, cls q i -> j < i -> exists p, p < q /\ cls p j) /\ g_sad g' = [].
Proof.
  unfold grouped_nondistinguishable.
  destruct (fill_table_spec g W) as (t & Et & Lt & Ht). rewrite Et. cbn [bind].
  destruct (unite_equiv_spec t Lt Ht) as (uf & Eu & Lu & Ou & Hu). rewrite Eu. cbn [bind].
  destruct (group_states_spec uf Lu Ou) as (s & rs & Es & I). rewrite Es. cbn [bind].
  assert (Lst : length (gr_st s) = length rs).
  { rewrite (gi_stlen _ _ _ _ I). apply Nat.le_antisymm.
    - apply NoDup_incl_length; [apply NoDup_filter, seq_NoDup|].
      intros r Hr. apply roots_In in Hr. apply (gi_rs _ _ _ _ I). exists r.
      split; [rewrite <- Lu; eapply nth_error_lt; eauto|apply root_self; auto].
    - apply NoDup_incl_length; [apply I|]. eapply rs_incl; eauto. }
  pose (cls := fun q i => q < n /\ exists r, root uf q r /\ index_of r rs = Some i).
  assert (Ctot : forall q, q < n -> exists i, i < length rs /\ cls q i).
  { intros q Hq. destruct (Ou q) as (r & Hr); [lia|].
    destruct (index_of_some r rs) as (i & Hi); [apply (gi_rs _ _ _ _ I); eauto|].
    exists i. split; [eapply nth_error_lt, index_of_nth; eauto|]. split; eauto. }
  assert (Cfun : forall q i i', cls q i -> cls q i' -> i = i').
  { intros q i i' (A & r & B & C) (_ & r' & B' & C').
    assert (r = r') by (eapply root_det; eauto). congruence. }
  assert (Cequiv : forall q q' i, cls q i -> cls q' i -> equiv g q q').
  { intros q q' i (A & r & B & C) (A' & r' & B' & C').
    assert (r = r') by (eapply index_of_inj; eauto). subst. apply Hu; auto. exists r'; auto. }
  assert (Cequiv' : forall q q' i i', cls q i -> cls q' i' -> equiv g q q' -> i = i').
  { intros q q' i i' (A & r & B & C) (A' & r' & B' & C') E.
    apply Hu in E; auto. destruct E as (r0 & D & D').
    assert (r = r0) by (eapply root_det; eauto). assert (r' = r0) by (eapply root_det; eauto).
    congruence. }
  assert (Cclass : forall u q i, length u = n -> uf_ok u -> (forall z r, root u z r <-> root uf z r) ->
      cls q i -> exists u', class_of u (gr_uf2st s) q = Ok (u', i) /\ length u' = n /\ uf_ok u' /\
        forall z r, root u' z r <-> root uf z r).
  { intros u q i L O R (A & r & B & C). unfold class_of.
    destruct (find_spec u q r O (proj2 (R _ _) B)) as (u' & Ef & Lu' & Ou' & Ru'). rewrite Ef. cbn [bind].
    assert (Hrl : r < n). { rewrite <- Lu. eapply nth_error_lt. eapply root_root; eauto. }
    rewrite (proj2 (at_ok _ _ _) (gi_u2 _ _ _ _ I r Hrl)). cbn [bind]. rewrite C.
    exists u'. split; auto. split; [lia|]. split; auto. intros. rewrite Ru'. apply R. }
  (* members of cell i *)
  assert (Hcell : forall i, i < length rs -> exists c, nth_error (gr_st s) i = Some c /\ c <> [] /\ is_set c
                 /\ forall q, In q c <-> cls q i).
  { intros i Hi. destruct (nth_error (gr_st s) i) as [c|] eqn:Ec; [|apply nth_error_None in Ec; lia].
    exists c. split; auto. destruct (gi_st _ _ _ _ I i c Ec) as [Sc Mc].
    split; [|split; auto].
    destruct (nth_error rs i) as [r|] eqn:Er; [|apply nth_error_None in Er; lia].
    assert (Hr : In r rs) by (eapply nth_error_In; eauto).
    apply (gi_rs _ _ _ _ I) in Hr as (q & A & B).
    assert (In q c).
    { apply Mc. split; auto. exists r. split; auto. apply index_of_nth_error; auto. apply I. }
    intros ->. destruct H. }
  match goal with |- context [foldM ?f ?l ?st0] =>
    destruct (foldM_ind f (fun done qt =>
       length (qt_uf qt) = n /\ uf_ok (qt_uf qt) /\ (forall z r, root (qt_uf qt) z r <-> root uf z r) /\
       (forall i, qt_init qt = Some i <-> i < length done /\ cls (initial_state g) i) /\
       is_set (qt_final qt) /\
       (forall i, In i (qt_final qt) <-> i < length done /\ exists q, cls q i /\ fin g q = true) /\
       length (qt_delta qt) = length done /\
       (forall i r, nth_error (qt_delta qt) i = Some r ->
           lbl r = i /\ forall q b, cls q i -> cls (nxt g q b) (tgt b r))) l st0)
      as (qt & Eq & Q1 & Q2 & Q3 & Q4 & Q5 & Q6 & Q7 & Q8) end.
  - cbn [qt_uf qt_init qt_final qt_delta length].
    split; [apply I|]. split; [apply I|]. split; [apply I|].
    split; [intros i; split; [discriminate|lia]|]. split; [exact Logic.I|].
    split; [intros i; split; [intros []|lia]|]. split; auto.
    intros [|i] r; discriminate.
  - intros done i rest qt El (Q1 & Q2 & Q3 & Q4 & Q5 & Q6 & Q7 & Q8).
    apply seq_app_inv in El as (_ & -> & Hk). cbn [plus] in *.
    rewrite app_length. cbn [length]. set (k := length done) in *.
    assert (Hkr : k < length rs) by lia.
    destruct (Hcell k Hkr) as (c & Ec & Hne & Sc & Mc).
    unfold quot_step. rewrite (proj2 (at_ok _ _ _) Ec). cbn [bind].
    destruct c as [|repr c]; [congruence|].
    assert (Crep : cls repr k) by (apply Mc; simpl; auto).
    assert (Lrep : repr < n) by apply Crep.
    rewrite is_final_fin by auto. cbn [bind].
    rewrite next_state_nxt by auto. cbn [bind].
    destruct (Ctot (nxt g repr false)) as (i0 & Li0 & C0); [apply nxt_lt; auto|].
    destruct (Cclass (qt_uf qt) _ i0 Q1 Q2 Q3 C0) as (u1 & E1 & L1 & O1 & R1). rewrite E1. cbn [bind].
    rewrite next_state_nxt by auto. cbn [bind].
    destruct (Ctot (nxt g repr true)) as (i1 & Li1 & C1); [apply nxt_lt; auto|].
    destruct (Cclass u1 _ i1 L1 O1 R1 C1) as (u2 & E2 & L2 & O2 & R2). rewrite E2. cbn [bind].
    eexists. split; [reflexivity|]. cbn [qt_uf qt_init qt_final qt_delta].
    split; auto. split; auto. split; auto.
    assert (Hini : existsb (Nat.eqb (initial_state g)) (repr :: c) = true <-> cls (initial_state g) k).
    { rewrite <- Mc. apply (smem_In (initial_state g) (repr :: c)). }
    split; [|split; [|split; [|split]]].
    + intros i. destruct (existsb (Nat.eqb (initial_state g)) (repr :: c)) eqn:Ei.
      * assert (Ci : cls (initial_state g) k) by (apply Hini; auto). split.
        -- intros HH; injection HH as <-. split; auto; lia.
        -- intros [_ H]. f_equal. eapply Cfun; eauto.
      * rewrite Q4. split; [intros [A B]; split; auto; lia|].
        intros [A B]. destruct (Nat.eq_dec i k) as [->|]; [|split; auto; lia].
        apply Hini in B. discriminate.
    + destruct (fin g repr); auto using is_set_sinsert.
    + intros i. destruct (fin g repr) eqn:Ef.
      * rewrite sinsert_In, Q6. split.
        -- intros [->|[A B]]; [split; [lia|eauto]|split; auto; lia].
        -- intros [A B]. destruct (Nat.eq_dec i k); auto. right. split; auto. lia.
      * rewrite Q6. split; [intros [A B]; split; auto; lia|].
        intros [A (q & B & C)]. destruct (Nat.eq_dec i k) as [->|]; [|split; [lia|eauto]].
        exfalso. pose proof (equiv_fin _ _ _ (Cequiv _ _ _ B Crep)). congruence.
    + rewrite app_length, Q7. reflexivity.
    + intros i r Hi. destruct (lt_dec i (length (qt_delta qt))) as [Hl|Hl].
      * rewrite nth_error_app1 in Hi by auto. auto.
      * pose proof (nth_error_lt _ _ _ Hi) as L. rewrite app_length in L. simpl in L.
        assert (i = k) by lia. subst i. rewrite nth_error_app2, Q7, Nat.sub_diag in Hi by lia.
        injection Hi as <-. split; [reflexivity|].
        intros q b Cq. assert (Eqr : equiv g (nxt g q b) (nxt g repr b)).
        { apply equiv_nxt. eapply Cequiv; eauto. }
        assert (Hq : nxt g q b < n) by (apply nxt_lt; auto; apply Cq).
        destruct (Ctot _ Hq) as (j & Lj & Cj).
        destruct b; cbn [tgt fst snd].
        -- replace i1 with j by (eapply Cequiv'; [exact Cj|exact C1|exact Eqr]). auto.
        -- replace i0 with j by (eapply Cequiv'; [exact Cj|exact C0|exact Eqr]). auto.
  - rewrite Eq. cbn [bind]. rewrite seq_length, Lst in *.
    destruct (Ctot (initial_state g)) as (ii & Lii & Cii); [apply init_lt; auto|].
    rewrite (proj2 (Q4 ii)) by auto.
    assert (Rep : forall i, i < length rs -> exists q, cls q i).
    { intros i Hi. destruct (Hcell i Hi) as (c & _ & Hne & _ & Mc).
      destruct c as [|q c]; [congruence|]. exists q. apply Mc; simpl; auto. }
    assert (Cidx : forall q i, cls q i -> i < length rs).
    { intros q i (_ & r & _ & B). eapply nth_error_lt, index_of_nth; eauto. }
    assert (TO : targets_ok (qt_delta qt)).
    { intros r Hr b. apply In_nth_error in Hr as (i & Hi).
      destruct (Rep i) as (q & Cq); [rewrite <- Q7; eapply nth_error_lt; eauto|].
      destruct (Q8 i r Hi) as [_ H]. rewrite Q7. eapply Cidx. apply (H q b Cq). }
    assert (FO : forall q, In q (qt_final qt) -> q < length (qt_delta qt)).
    { intros q Hq. apply Q6 in Hq as [H _]. lia. }
    rewrite graph_new_good by auto. eexists. split; [reflexivity|].
    assert (Sz : size (graph_of ii (qt_final qt) (qt_delta qt)) = length rs) by exact Q7.
    split.
    { apply graph_of_wf; auto; [|lia].
      intros q l q0 q1 Hq. destruct (Q8 _ _ Hq) as [H _]. exact H. }
    exists cls. rewrite Sz. split; [exact Ctot|]. split.
    { intros i Hi. destruct (Rep i Hi) as (q & Cq). exists q. split; auto. apply Cq. }
    split; [intros q i H; apply H|]. split; [exact Cequiv|]. split; [exact Cequiv'|].
    split; [exact Cii|]. split; [|split; [|split; [|reflexivity]]].
    + intros q i b Cq. unfold nxt at 2. cbn [graph_of g_delta].
      destruct (nth_error (qt_delta qt) i) as [r|] eqn:Er.
      * destruct (Q8 i r Er) as [_ H]. auto.
      * apply nth_error_None in Er. apply Cidx in Cq. lia.
    + intros q i Cq. unfold fin at 2. cbn [graph_of g_final]. apply eq_true_iff_eq.
      rewrite smem_In, Q6. split.
      * intros H. split; [eapply Cidx; eauto|eauto].
      * intros (_ & q' & Cq' & F). rewrite (equiv_fin _ _ _ (Cequiv _ _ _ Cq Cq')). auto.
    + intros q i j (A & r & B & C) Hj. destruct (gi_ord _ _ _ _ I q r i j A B C Hj) as (p & r' & D & E & F).
      exists p. split; auto. split; [lia|eauto].
Qed.

Theorem grouped_correct :
  exists g', grouped_nondistinguishable g = Ok g' /\ wf_graph g' /\
    exists cls : nat -> nat -> Prop,
      (forall q, q < n -> exists i, i < size g' /\ cls q i) /\
      (forall i, i < size g' -> exists q, q < n /\ cls q i) /\
      (forall q i, cls q i -> q < n) /\
      (forall q q' i, cls q i -> cls q' i -> equiv g q q') /\
      (forall q q' i i', cls q i -> cls q' i' -> equiv g q q' -> i = i') /\
      cls (initial_state g) (initial_state g') /\
      (forall q i b, cls q i -> cls (nxt g q b) (nxt g' i b)) /\
      (forall q i, cls q i -> fin g q = fin g' i).
Proof. destruct grouped_full as (g' & A & B & cls & C). exists g'. split; auto. split; auto. exists cls. tauto. Qed.
End Group.

(** States [p], [q] of [g] are told apart by some word (API version of [dist]). *)
Definition api_dist (g : Graph) (p q : nat) : Prop :=
  exists w p' q' a b, run_from g p w = Ok p' /\ run_from g q w = Ok q' /\
    is_final_state g p' = Ok a /\ is_final_state g q' = Ok b /\ a <> b.

Lemma api_dist_iff g p q : wf_graph g -> p < size g -> q < size g -> api_dist g p q <-> dist g p q.
Proof.
  intros W Hp Hq. unfold api_dist, dist. split.
  - intros (w & p' & q' & a & b & A & B & C & D & E). exists w.
    rewrite run_from_run in A, B by auto. injection A as <-. injection B as <-.
    rewrite is_final_fin in C, D by auto using run_lt. congruence.
  - intros (w & H). exists w. do 4 eexists. rewrite !run_from_run by auto.
    repeat split; [apply is_final_fin; auto using run_lt..|exact H].
Qed.

Theorem grouped_claim g : wf_graph g ->
  exists g', grouped_nondistinguishable g = Ok g' /\ wf_graph g' /\
    (forall w, accepts g' w = accepts g w) /\
    (forall p q, p < size g' -> q < size g' -> p <> q -> api_dist g' p q) /\
    size g' <= size g /\
    ((forall q, q < size g -> dfa_reaches g q) -> forall q, q < size g' -> dfa_reaches g' q).
Proof.
  intros W. destruct (grouped_correct g W) as
    (g' & E & W' & cls & C1 & C2 & C3 & C4 & C5 & C6 & C7 & C8).
  exists g'. split; auto. split; auto. split; [|split; [|split]].
  - intros w. symmetry. apply (sim_accepts g g' cls); auto.
  - intros i j Hi Hj Hne. apply api_dist_iff; auto.
    destruct (C2 i Hi) as (p & Hp & Cp). destruct (C2 j Hj) as (q & Hq & Cq).
    (* p, q are not equivalent *)
    destruct (fill_table_spec g W) as (t & _ & _ & Ht).
    assert (Dec : dist g p q \/ equiv g p q).
    { destruct (lt_eq_lt_dec p q) as [[H| ->]|H].
      - destruct (bool_dec (match nth_error t (p + size g * q) with Some b => b | None => false end) true) as [B|B].
        + left. apply Ht; auto. unfold marked. destruct (nth_error t (p + size g * q)); congruence.
        + right. apply equiv_not_dist. rewrite <- Ht by auto. unfold marked.
          destruct (nth_error t (p + size g * q)) as [[]|]; congruence.
      - right. apply equiv_refl.
      - destruct (bool_dec (match nth_error t (q + size g * p) with Some b => b | None => false end) true) as [B|B].
        + left. apply dist_sym, Ht; auto. unfold marked. destruct (nth_error t (q + size g * p)); congruence.
        + right. apply equiv_sym, equiv_not_dist. rewrite <- Ht by auto. unfold marked.
          destruct (nth_error t (q + size g * p)) as [[]|]; congruence. }
    destruct Dec as [(w & Hw)|Heq]; [|exfalso; apply Hne; eapply C5; eauto].
    exists w.
    rewrite <- (C8 _ _ (run_sim g g' cls (fun q q' b => C7 q q' b) w p i Cp)).
    rewrite <- (C8 _ _ (run_sim g g' cls (fun q q' b => C7 q q' b) w q j Cq)). exact Hw.
  - (* injective choice of members *)
    assert (L : exists l, length l = size g' /\ NoDup l /\ forall q, In q l -> q < size g /\ exists i, i < size g' /\ cls q i).
    { assert (G : forall m, m <= size g' -> exists l, length l = m /\ NoDup l /\
                  forall q, In q l -> q < size g /\ exists i, i < m /\ cls q i).
      { induction m; intros Hm; [exists []; repeat split; [constructor|destruct H..]|].
        destruct IHm as (l & A & B & C); [lia|]. destruct (C2 m) as (q & Hq & Cq); [lia|].
        exists (q :: l). split; [simpl; lia|]. split.
        - constructor; auto. intros Hin. destruct (C q Hin) as (_ & i & Hi & Ci).
          assert (i = m) by (eapply C5; eauto using equiv_refl). lia.
        - intros p [<-|Hp]; [split; eauto|]. destruct (C p Hp) as (X & i & Y & Z).
          split; auto. exists i. split; auto. }
      apply G; auto. }
    destruct L as (l & A & B & C). rewrite <- A. rewrite <- (seq_length (size g) 0).
    apply NoDup_incl_length; auto. intros q Hq. apply in_seq. destruct (C q Hq). lia.
  - intros HR i Hi. destruct (C2 i Hi) as (q & Hq & Cq).
    apply reaches_reach; auto. pose proof (HR q Hq) as R. apply reaches_reach in R; auto.
    destruct R as (w & Hw). exists w.
    pose proof (run_sim g g' cls (fun q q' b => C7 q q' b) w _ _ C6) as S. rewrite Hw in S.
    eapply C5; eauto using equiv_refl.
Qed.

Theorem minimized_correct g : wf_graph g ->
  exists m, minimized g = Ok m /\ wf_graph m /\
    (forall w, accepts m w = accepts g w) /\
    (forall q, q < size m -> dfa_reaches m q) /\
    (forall p q, p < size m -> q < size m -> p <> q -> api_dist m p q).
Proof.
  intros W. unfold minimized.
  destruct (removed_unreachable_claim g W) as (g1 & E1 & W1 & A1 & R1 & _). rewrite E1. cbn [bind].
  destruct (grouped_claim g1 W1) as (m & E & Wm & A & D & _ & R).
  exists m. split; auto. split; auto. split; [intros; rewrite A; auto|]. split; auto.
Qed.

(** Myhill-Nerode counting: a graph whose states are all reachable and pairwise
    distinguishable has no more states than any graph with the same language. *)
Theorem minimal g h : wf_graph g -> wf_graph h ->
  (forall q, q < size g -> dfa_reaches g q) ->
  (forall p q, p < size g -> q < size g -> p <> q -> api_dist g p q) ->
  (forall w, accepts g w = accepts h w) -> size g <= size h.
Proof.
  intros W Wh HR HD HA.
  assert (G : forall m, m <= size g -> exists l, length l = m /\ NoDup l /\
             forall x, In x l -> x < size h /\ exists q w, q < m /\ run g (initial_state g) w = q
                                                  /\ run h (initial_state h) w = x).
  { induction m; intros Hm; [exists []; repeat split; [constructor|destruct H..]|].
    destruct IHm as (l & A & B & C); [lia|].
    pose proof (HR m) as R. rewrite reaches_reach in R by auto. destruct R as (w & Hw); [lia|].
    exists (run h (initial_state h) w :: l). split; [simpl; lia|]. split.
    - constructor; auto. intros Hin. destruct (C _ Hin) as (_ & q & w' & Hq & Hw' & Hx).
      assert (D : dist g q m).
      { apply api_dist_iff; auto; try lia. apply HD; lia. }
      destruct D as (v & Hv). apply Hv.
      pose proof (HA (w' ++ v)) as H1. pose proof (HA (w ++ v)) as H2.
      rewrite !accepts_run, !run_app in H1, H2 by auto. rewrite Hw' in H1. rewrite Hw in H2.
      rewrite Hx in H1. congruence.
    - intros x [<-|Hx].
      + split; [apply run_lt; auto using init_lt|]. exists m, w. auto.
      + destruct (C x Hx) as (X & q & w' & Y & Z). split; auto. exists q, w'. split; auto. }
  destruct (G (size g)) as (l & A & B & C); auto.
  rewrite <- A, <- (seq_length (size h) 0). apply NoDup_incl_length; auto.
  intros x Hx. apply in_seq. destruct (C x Hx). lia.
Qed.
