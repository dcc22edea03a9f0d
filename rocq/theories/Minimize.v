(** Correctness of grouped_nondistinguishable and minimized: table filling,
    union-find, quotient construction, and minimality. *)
From Coq Require Import List Arith Bool Lia Permutation.
Import ListNotations.
From Verif Require Import Base BaseFacts GraphModel Spec GraphFacts FromNfa GraphOps.

(** * Distinguishability *)
Definition dist (g : Graph) (p q : nat) : Prop := exists w, fin g (run g p w) <> fin g (run g q w).

Lemma dist_sym g p q : dist g p q -> dist g q p.
Proof. intros (w & H); exists w; auto. Qed.

Lemma dist_pred g p q b : dist g (nxt g p b) (nxt g q b) -> dist g p q.
Proof. intros (w & H); exists (b :: w); exact H. Qed.

(** * Table filling *)
Section Table.
Context (g : Graph) (W : wf_graph g).
Let n := size g.

Definition marked (t : list bool) (a b : nat) : Prop := nth_error t (a + n * b) = Some true.

Lemma idx_lt a b : a < n -> b < n -> a + n * b < n * n.
Proof. intros. nia. Qed.

Lemma idx_inj a b c d : a < n -> c < n -> a + n * b = c + n * d -> a = c /\ b = d.
Proof. intros. assert (b = d) by nia. subst. lia. Qed.

Definition count_false (t : list bool) : nat := length (filter negb t).

Lemma count_false_upd t i : nth_error t i = Some false ->
  S (count_false (upd i true t)) = count_false t.
Proof.
  unfold count_false. revert i; induction t as [|x t IH]; intros [|i]; simpl; try discriminate.
  - intros [= ->]. reflexivity.
  - intros H. destruct x; simpl; auto.
Qed.

Lemma count_false_le t : count_false t <= length t.
Proof. unfold count_false. induction t as [|x t IH]; simpl; auto. destruct x; simpl; lia. Qed.

(** Invariant shared by the initialisation and by the inner loops. *)
Record tinv (t : list bool) (que : list (nat * nat)) : Prop := {
  ti_len : length t = n * n;
  ti_snd : forall a b, a < b -> b < n -> marked t a b -> dist g a b;
  ti_que : forall a b, In (a, b) que -> a < b /\ b < n /\ marked t a b }.

Lemma mark_upd t a b c d : a < n -> c < n -> length t = n * n -> b < n ->
  marked (upd (a + n * b) true t) c d <-> (a = c /\ b = d) \/ marked t c d.
Proof.
  intros Ha Hc HL Hb. unfold marked. rewrite upd_nth, HL.
  destruct (Nat.eqb_spec (a + n * b) (c + n * d)) as [E|E]; simpl.
  - pose proof (idx_lt a b Ha Hb) as L. apply Nat.ltb_lt in L. rewrite L.
    apply idx_inj in E; auto. tauto.
  - split; auto. intros [[-> ->]|]; auto. congruence.
Qed.

Lemma table_false t a b : a < n -> b < n -> length t = n * n -> ~ marked t a b ->
  nth_error t (a + n * b) = Some false.
Proof.
  intros Ha Hb HL Hm. destruct (nth_error t (a + n * b)) as [[]|] eqn:E; auto.
  - contradiction.
  - apply nth_error_None in E. pose proof (idx_lt a b Ha Hb). lia.
Qed.

Definition step_rel (s s' : list bool * list (nat * nat)) : Prop :=
  (forall a b, a < n -> b < n -> marked (fst s) a b -> marked (fst s') a b) /\
  (exists l, snd s' = snd s ++ l /\
     (forall a b, a < b -> b < n -> marked (fst s') a b -> marked (fst s) a b \/ In (a, b) l)) /\
  length (snd s') + count_false (fst s') = length (snd s) + count_false (fst s).

Lemma step_rel_refl s : step_rel s s.
Proof.
  split; auto. split; auto. exists []. rewrite app_nil_r. auto.
Qed.

Lemma step_rel_trans s1 s2 s3 : step_rel s1 s2 -> step_rel s2 s3 -> step_rel s1 s3.
Proof.
  intros (A1 & (l1 & E1 & B1) & C1) (A2 & (l2 & E2 & B2) & C2).
  split; auto. split; [|lia].
  exists (l1 ++ l2). rewrite E2, E1, app_assoc. split; auto.
  intros a b Ha Hb Hm. rewrite in_app_iff. destruct (B2 a b Ha Hb Hm) as [H|H]; auto.
  destruct (B1 a b Ha Hb H); auto.
Qed.

(** marking one ordered pair *)
Lemma mark_ordered t que a b : a < b -> b < n -> dist g a b -> tinv t que ->
  exists t' que',
    (do x <- at_ t (a + n * b);
     if x : bool then Ok (t, que)
     else do t' <- set_at t (a + n * b) true; Ok (t', que ++ [(a, b)])) = Ok (t', que')
    /\ tinv t' que' /\ step_rel (t, que) (t', que') /\ marked t' a b.
Proof.
  intros Hab Hb HD I. destruct I as [HL HS HQ].
  assert (Ha : a < n) by lia. pose proof (idx_lt a b Ha Hb) as HI.
  destruct (at_lt t (a + n * b)) as (x & E1 & E2); [lia|]. rewrite E1. cbn [bind].
  destruct x.
  - exists t, que. split; auto. split; [constructor; auto|]. split; [apply step_rel_refl|exact E2].
  - rewrite set_at_lt by lia. cbn [bind]. do 2 eexists. split; [reflexivity|].
    split; [|split].
    + constructor.
      * rewrite upd_length; auto.
      * intros c d Hc Hd Hm. apply mark_upd in Hm; auto; try lia.
        destruct Hm as [[-> ->]|Hm]; auto.
      * intros c d Hcd. apply in_app_iff in Hcd as [Hcd|[[= <- <-]|[]]].
        -- destruct (HQ c d Hcd) as (? & ? & ?). repeat split; auto. apply mark_upd; auto; lia.
        -- repeat split; auto. apply mark_upd; auto.
    + split; [|split].
      * intros c d Hc Hd Hm. cbn [fst] in *. apply mark_upd; auto.
      * exists [(a, b)]. split; auto. intros c d Hc Hd Hm. cbn [fst] in *.
        apply mark_upd in Hm; auto; try lia. destruct Hm as [[-> ->]|Hm]; simpl; auto.
      * cbn [fst snd]. rewrite app_length. simpl.
        pose proof (count_false_upd t (a + n * b) E2). lia.
    + apply mark_upd; auto.
Qed.

Definition marked_pair (t : list bool) (a b : nat) : Prop :=
  (a < b -> marked t a b) /\ (b < a -> marked t b a).

Lemma mark_pair_spec t que a b : a < n -> b < n -> dist g a b -> tinv t que ->
  exists t' que', mark_pair n (t, que) a b = Ok (t', que') /\ tinv t' que' /\
    step_rel (t, que) (t', que') /\ marked_pair t' a b.
Proof.
  intros Ha Hb HD I. unfold mark_pair.
  destruct (Nat.ltb_spec a b).
  - destruct (mark_ordered t que a b H Hb HD I) as (t' & que' & E & I' & R & M).
    exists t', que'. split; [exact E|]. split; auto. split; auto. split; auto. lia.
  - destruct (Nat.ltb_spec b a).
    + destruct (mark_ordered t que b a H0 Ha (dist_sym _ _ _ HD) I) as (t' & que' & E & I' & R & M).
      exists t', que'. split; [exact E|]. split; auto. split; auto. split; auto. lia.
    + exists t, que. split; auto. split; auto. split; [apply step_rel_refl|]. split; lia.
Qed.

Lemma marked_pair_mono t t' a b : a < n -> b < n ->
  (forall c d, c < n -> d < n -> marked t c d -> marked t' c d) ->
  marked_pair t a b -> marked_pair t' a b.
Proof. intros Ha Hb H [H1 H2]. split; auto. Qed.

(** generic: a foldM of marking steps *)
Lemma fold_marks {A} (f : list bool * list (nat * nat) -> A -> res (list bool * list (nat * nat)))
      (Post : list bool -> A -> Prop) l t que :
  tinv t que ->
  (forall a t que, In a l -> tinv t que -> exists t' que', f (t, que) a = Ok (t', que') /\ tinv t' que' /\
     step_rel (t, que) (t', que') /\ Post t' a) ->
  (forall a t t', In a l -> (forall c d, c < n -> d < n -> marked t c d -> marked t' c d) -> Post t a -> Post t' a) ->
  exists t' que', foldM f l (t, que) = Ok (t', que') /\ tinv t' que' /\
     step_rel (t, que) (t', que') /\ forall a, In a l -> Post t' a.
Proof.
  intros I Hs Hm.
  destruct (foldM_ind f (fun done s => tinv (fst s) (snd s) /\ step_rel (t, que) s /\
              forall a, In a done -> Post (fst s) a) l (t, que)) as ([t' que'] & E & I' & R & P).
  - cbn. split; auto. split; [apply step_rel_refl|]. intros a [].
  - intros done a rest [t1 q1] El (I1 & R1 & P1). cbn [fst snd] in *.
    assert (Ha : In a l) by (rewrite El; apply in_elt).
    destruct (Hs a t1 q1 Ha I1) as (t2 & q2 & E & I2 & R2 & P2).
    exists (t2, q2). split; auto. cbn [fst snd]. split; auto. split; [eapply step_rel_trans; eauto|].
    intros x Hx. apply in_app_iff in Hx as [Hx|[<-|[]]]; auto.
    apply (Hm x t1); auto; [|apply R2]. rewrite El. apply in_or_app; auto.
  - exists t', que'. auto.
Qed.

(** ** initialisation *)
Definition init_inv (D : nat -> nat -> Prop) (s : list bool * list (nat * nat)) : Prop :=
  length (fst s) = n * n /\
  (forall c d, c < n -> marked (fst s) c d <-> D c d /\ fin g c <> fin g d) /\
  (forall c d, In (c, d) (snd s) <-> D c d /\ fin g c <> fin g d) /\
  length (snd s) + count_false (fst s) = n * n.

Lemma count_false_repeat k : count_false (repeat false k) = k.
Proof. unfold count_false. induction k; simpl; auto. Qed.

Lemma table_init_spec :
  exists t que, table_init g = Ok (t, que) /\
    init_inv (fun c d => c < d /\ d < n) (t, que).
Proof.
  unfold table_init. fold n.
  match goal with |- context [foldM ?f ?l ?st0] =>
    destruct (foldM_ind f (fun done s => init_inv (fun c d => c < length done /\ c < d /\ d < n) s) l st0)
      as ([t que] & E & I) end.
  - split; [apply repeat_length|]. split; [|split]; cbn [fst snd].
    + intros c d Hc. split; [|simpl; intuition lia]. intros H.
      exfalso. unfold marked in H. pose proof (nth_error_lt _ _ _ H) as L.
      rewrite repeat_length in L. rewrite nth_error_repeat in H by auto. discriminate.
    + intros c d. simpl. intuition lia.
    + simpl. apply count_false_repeat.
  - intros done a rest s El I. apply seq_app_inv in El as (_ & -> & Hk). cbn [plus] in *.
    set (k := length done) in *.
    match goal with |- context [foldM ?f ?l ?st0] =>
      destruct (foldM_ind f (fun dn s => init_inv (fun c d => (c < k /\ c < d /\ d < n) \/
                    (c = k /\ k < d /\ d < k + 1 + length dn)) s) l st0) as (s' & E & I') end.
    + destruct I as (A & B & C & D0). split; auto. split; [|split]; auto; cbn [length].
      * intros c d Hc. rewrite B by auto. intuition lia.
      * intros c d. rewrite C. intuition lia.
    + intros dn b rest' [t que] El' (HL & HM & HQ & HC). cbn [fst snd] in *.
      apply seq_app_inv in El' as (_ & -> & Hm).
      set (m := length dn) in *. set (b := k + 1 + m) in *.
      rewrite !is_final_fin by (auto; unfold n in *; lia). cbn [bind].
      replace (k + b * n) with (k + n * b) by lia.
      assert (Hkn : k < n) by lia. assert (Hbn : b < n) by lia.
      pose proof (idx_lt k b Hkn Hbn) as HI.
      rewrite app_length. cbn [length]. fold m.
      destruct (xorb (fin g k) (fin g b)) eqn:Ex.
      * assert (HD : fin g k <> fin g b)
          by (intros E; rewrite E, xorb_nilpotent in Ex; discriminate).
        rewrite set_at_lt by lia. cbn [bind]. eexists. split; [reflexivity|].
        assert (NM : ~ marked t k b).
        { rewrite HM by auto. unfold b. intros [[H|H] _]; lia. }
        split; [cbn [fst]; rewrite upd_length; auto|]. split; [|split]; cbn [fst snd].
        -- intros c d Hc. rewrite mark_upd, HM by auto. unfold b in *. split.
           ++ intros [[<- <-]|[H1 H2]]; split; auto; intuition lia.
           ++ intros [H1 H2]. destruct (Nat.eq_dec k c), (Nat.eq_dec (k + 1 + m) d); auto;
                right; split; auto; intuition lia.
        -- intros c d. rewrite in_app_iff, HQ. unfold b in *. simpl. split.
           ++ intros [[H1 H2]|[[= <- <-]|[]]]; split; auto; intuition lia.
           ++ intros [H1 H2]. destruct (Nat.eq_dec k c), (Nat.eq_dec (k + 1 + m) d);
                subst; auto; left; split; auto; intuition lia.
        -- rewrite app_length. simpl.
           pose proof (count_false_upd t (k + n * b) (table_false t k b Hkn Hbn HL NM)). lia.
      * assert (HD : fin g k = fin g b) by (destruct (fin g k), (fin g b); auto; discriminate).
        eexists. split; [reflexivity|]. split; auto. split; [|split]; cbn [fst snd]; auto.
        -- intros c d Hc. rewrite HM by auto. unfold b in *. split; intros [H1 H2]; split; auto.
           ++ intuition lia.
           ++ destruct (Nat.eq_dec k c), (Nat.eq_dec (k + 1 + m) d); subst; try congruence; intuition lia.
        -- intros c d. rewrite HQ. unfold b in *. split; intros [H1 H2]; split; auto.
           ++ intuition lia.
           ++ destruct (Nat.eq_dec k c), (Nat.eq_dec (k + 1 + m) d); subst; try congruence; intuition lia.
    + exists s'. split; [exact E|]. rewrite seq_length in I'.
      destruct I' as (A & B & C & D0). split; auto. rewrite app_length. cbn [length]. fold k.
      split; [|split]; auto.
      * intros c d Hc. rewrite B by auto. intuition lia.
      * intros c d. rewrite C. intuition lia.
  - exists t, que. split; [exact E|]. rewrite seq_length in I.
    destruct I as (A & B & C & D0). split; auto. split; [|split]; auto.
    + intros c d Hc. rewrite B by auto. intuition lia.
    + intros c d. rewrite C. intuition lia.
Qed.

(** ** propagation *)
Definition closed_pair (t : list bool) (a b : nat) : Prop :=
  forall bit pa pb, pa < n -> pb < n -> nxt g pa bit = a -> nxt g pb bit = b -> marked_pair t pa pb.

Definition linv (s : list bool * list (nat * nat)) : Prop :=
  tinv (fst s) (snd s) /\
  (forall a b, a < b -> b < n -> fin g a <> fin g b -> marked (fst s) a b) /\
  (forall a b, a < b -> b < n -> marked (fst s) a b -> In (a, b) (snd s) \/ closed_pair (fst s) a b).

Lemma table_step_spec s : linv s ->
  match table_step g s with
  | inl s' => linv s' /\ length (snd s') + count_false (fst s') < length (snd s) + count_false (fst s)
  | inr r => exists t, r = Ok t /\ linv (t, [])
  end.
Proof.
  destruct s as [t que]. intros (I & HF & HC). cbn [fst snd] in *.
  unfold table_step. fold n. destruct que as [|[ql qr] que].
  - exists t. split; auto. split; auto.
  - destruct (ti_que _ _ I ql qr) as (Hlr & Hr & Hm); [simpl; auto|].
    assert (HD : dist g ql qr) by (apply (ti_snd _ _ I); auto).
    assert (Hl : ql < n) by lia.
    assert (Hlt : (ql <? qr) = true) by (apply Nat.ltb_lt; auto). rewrite Hlt. cbn [assert_].
    assert (I1 : tinv t que).
    { destruct I as [A B C]. constructor; auto. intros; apply C; simpl; auto. }
    match goal with |- context [foldM ?f ?l ?st0] =>
      destruct (fold_marks f (fun t bit => forall pa pb, pa < n -> pb < n ->
                   nxt g pa bit = ql -> nxt g pb bit = qr -> marked_pair t pa pb) l t que I1)
        as (t' & que' & E & I' & R & P) end.
    + intros bit t1 q1 _ J1. rewrite prev_states_wf by auto. cbn [bind].
      match goal with |- context [foldM ?f ?l ?st0] =>
        destruct (fold_marks f (fun t pa => forall pb, pb < n ->
                   nxt g pb bit = qr -> marked_pair t pa pb) l t1 q1 J1)
          as (t2 & q2 & E & J2 & R & P) end.
      * intros pa t2 q2 Hpa J2. apply filter_In in Hpa as [Hpa Ea]. apply in_seq in Hpa.
        apply Nat.eqb_eq in Ea. rewrite prev_states_wf by auto. cbn [bind].
        match goal with |- context [foldM ?f ?l ?st0] =>
          destruct (fold_marks f (fun t pb => marked_pair t pa pb) l t2 q2 J2)
            as (t3 & q3 & E & J3 & R & P) end.
        -- intros pb t3 q3 Hpb J3. apply filter_In in Hpb as [Hpb Eb]. apply in_seq in Hpb.
           apply Nat.eqb_eq in Eb. apply mark_pair_spec; auto; try (unfold n; lia).
           apply dist_pred with bit. rewrite Ea, Eb. auto.
        -- intros pb ta tb Hpb Hmono. apply filter_In in Hpb as [Hpb _]. apply in_seq in Hpb.
           apply marked_pair_mono; auto; unfold n; lia.
        -- exists t3, q3. split; auto. split; auto. split; auto.
           intros pb Hpb Eb. apply P. apply filter_In. split; [apply in_seq; unfold n in *; lia|].
           apply Nat.eqb_eq; auto.
      * intros pa ta tb Hpa Hmono HP pb Hpb Eb. apply filter_In in Hpa as [Hpa _]. apply in_seq in Hpa.
        apply (marked_pair_mono ta); auto. unfold n; lia.
      * exists t2, q2. split; auto. split; auto. split; auto.
        intros pa pb Hpa Hpb Ea Eb. apply (P pa); auto.
        apply filter_In. split; [apply in_seq; unfold n in *; lia|]. apply Nat.eqb_eq; auto.
    + intros bit ta tb _ Hmono HP pa pb Hpa Hpb Ea Eb. apply (marked_pair_mono ta); auto.
    + rewrite E. cbn [cont]. destruct R as (Rm & (l & El & Rn) & Rc). cbn [fst snd] in *.
      split; [|simpl; lia].
      split; auto. split; [intros; cbn [fst]; apply Rm; auto; lia|].
      cbn [fst snd]. intros a b Hab Hb Hmk. destruct (Rn a b Hab Hb Hmk) as [Hold|Hnew].
      * destruct (HC a b Hab Hb Hold) as [[[= <- <-]|Hq]|Hcl].
        -- right. intros bit pa pb Hpa Hpb Ea Eb. apply (P bit); auto. destruct bit; simpl; auto.
        -- left. rewrite El. apply in_or_app; auto.
        -- right. intros bit pa pb Hpa Hpb Ea Eb. apply (marked_pair_mono t); auto. eapply Hcl; eauto.
      * left. rewrite El. apply in_or_app; auto.
Qed.

Theorem fill_table_spec :
  exists t, fill_table g = Ok t /\ length t = n * n /\
    forall a b, a < b -> b < n -> marked t a b <-> dist g a b.
Proof.
  unfold fill_table. destruct table_init_spec as (t0 & q0 & E0 & I0). rewrite E0. cbn [bind]. fold n.
  destruct I0 as (A & B & C & D0). cbn [fst snd] in *.
  pose (Q := fun r : res (list bool) => exists t, r = Ok t /\ linv (t, [])).
  assert (HQ : Q (loop (n * n + 1) (table_step g) (t0, q0))).
  { apply (loop_spec (table_step g) linv (fun s => length (snd s) + count_false (fst s)) Q).
    - intros s Hs. apply table_step_spec; auto.
    - split; [|split]; cbn [fst snd].
      + constructor; auto.
        * intros a b Hab Hb Hm. apply B in Hm as [_ Hm]; [|lia]. exists []. exact Hm.
        * intros a b Hq. apply C in Hq as [[H1 H2] H3]. repeat split; auto. apply B; auto. lia.
      + intros a b Hab Hb Hf. apply B; auto. lia.
      + intros a b Hab Hb Hm. left. apply C. apply B in Hm; auto. lia.
    - cbn [fst snd]. rewrite D0. pose proof (pow2_gt (n * n + 1)). lia. }
  destruct HQ as (t & E & I & HF & HC). cbn [fst snd] in *. exists t. split; auto.
  split; [apply (ti_len _ _ I)|].
  intros a b Hab Hb. split; [apply (ti_snd _ _ I); auto|].
  intros (w & Hw).
  assert (G : forall w a b, a < n -> b < n -> fin g (run g a w) <> fin g (run g b w) -> marked_pair t a b).
  { clear a b Hab Hb w Hw. induction w as [|bit w IH]; intros a b Ha Hb H; cbn in H.
    - split; intros; apply HF; auto.
    - assert (M : marked_pair t (nxt g a bit) (nxt g b bit)).
      { apply IH; auto; apply nxt_lt; auto. }
      assert (Hne : nxt g a bit <> nxt g b bit) by (intros E'; rewrite E' in H; auto).
      assert (La : nxt g a bit < n) by (apply nxt_lt; auto).
      assert (Lb : nxt g b bit < n) by (apply nxt_lt; auto).
      destruct M as [M1 M2].
      destruct (lt_dec (nxt g a bit) (nxt g b bit)) as [Hlt|Hge].
      + destruct (HC _ _ Hlt Lb (M1 Hlt)) as [[]|Hcl]. apply (Hcl bit); auto.
      + assert (Hlt : nxt g b bit < nxt g a bit) by lia.
        destruct (HC _ _ Hlt La (M2 Hlt)) as [[]|Hcl].
        destruct (Hcl bit b a Hb Ha eq_refl eq_refl) as [X Y]. split; auto. }
  apply (G w a b); auto. lia.
Qed.
End Table.
