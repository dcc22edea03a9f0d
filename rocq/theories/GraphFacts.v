(** Facts about the constructor and the queries of class Graph. *)
From Coq Require Import List Arith Bool Lia.
Import ListNotations.
From Verif Require Import Base BaseFacts GraphModel Spec.

(** * push_at *)
Lemma push_at_ok {A} (v : list (list A)) i x v' :
  push_at v i x = Ok v' <-> exists l, nth_error v i = Some l /\ v' = upd i (l ++ [x]) v.
Proof.
  unfold push_at. rewrite bind_ok. split.
  - intros (l & E & H). apply at_ok in E. apply set_at_ok in H as [? ->]. eauto.
  - intros (l & E & ->). exists l. split; [apply at_ok; auto|].
    apply set_at_ok; split; auto. eapply nth_error_lt; eauto.
Qed.

(** * The constructor *)
Definition lbl (r : nat * nat * nat) : nat := fst (fst r).
Definition tgt (b : bool) (r : nat * nat * nat) : nat := if b then snd r else snd (fst r).

Definition parents_of (b : bool) (d : DFADelta) : list (list nat) :=
  map (fun q => map lbl (filter (fun r => tgt b r =? q) d)) (seq 0 (length d)).

Definition targets_ok (d : DFADelta) : Prop :=
  forall r, In r d -> forall b, tgt b r < length d.

Definition graph_of (i : nat) (f : list nat) (d : DFADelta) : Graph :=
  mkGraph d (parents_of false d) (parents_of true d) [] f
          (map (fun q => smem q f) (seq 0 (length d))) i.

Definition parents_upto (n : nat) (b : bool) (d : DFADelta) : list (list nat) :=
  map (fun q => map lbl (filter (fun r => tgt b r =? q) d)) (seq 0 n).

Lemma parents_upto_nth n b d q : q < n ->
  nth_error (parents_upto n b d) q = Some (map lbl (filter (fun r => tgt b r =? q) d)).
Proof.
  intros H. unfold parents_upto. rewrite nth_error_map, nth_error_seq by auto. reflexivity.
Qed.

Lemma push_parents n b d r : tgt b r < n ->
  push_at (parents_upto n b d) (tgt b r) (lbl r) = Ok (parents_upto n b (d ++ [r])).
Proof.
  intros H. apply push_at_ok.
  exists (map lbl (filter (fun r' => tgt b r' =? tgt b r) d)).
  split; [apply parents_upto_nth; auto|].
  apply nth_error_ext; intros i. rewrite upd_nth.
  destruct (lt_dec i n).
  - rewrite (parents_upto_nth n b (d ++ [r])) by auto.
    rewrite (parents_upto_nth n b d) by auto.
    rewrite filter_app, map_app. simpl.
    replace (length (parents_upto n b d)) with n
      by (unfold parents_upto; rewrite map_length, seq_length; auto).
    destruct (Nat.eqb_spec (tgt b r) i); simpl.
    + subst i. destruct (Nat.ltb_spec (tgt b r) n); [|lia]. simpl.
      reflexivity.
    + rewrite app_nil_r; auto.
  - assert (L : forall d', length (parents_upto n b d') = n)
      by (intros; unfold parents_upto; rewrite map_length, seq_length; auto).
    rewrite L. destruct (Nat.eqb_spec (tgt b r) i); simpl; [lia|].
    transitivity (@None (list nat)); [|symmetry]; apply nth_error_None; rewrite L; lia.
Qed.

Lemma parents_upto_nil n b : parents_upto n b [] = repeat [] n.
Proof.
  unfold parents_upto. simpl. generalize 0. induction n; simpl; intros; f_equal; auto.
Qed.

Lemma push_at_fail {A} (v : list (list A)) i x :
  length v <= i -> push_at v i x = Fail FOutOfRange.
Proof. intros H. unfold push_at. rewrite at_fail by auto. reflexivity. Qed.

Lemma parents_upto_length n b d : length (parents_upto n b d) = n.
Proof. unfold parents_upto; rewrite map_length, seq_length; auto. Qed.

Lemma graph_new_rows n d done :
  (forall r, In r d -> forall b, tgt b r < n) ->
  foldM (fun '(p0, p1) '(q, q0, q1) =>
           do p0' <- push_at p0 q0 q;
           do p1' <- push_at p1 q1 q;
           Ok (p0', p1')) d (parents_upto n false done, parents_upto n true done)
  = Ok (parents_upto n false (done ++ d), parents_upto n true (done ++ d)).
Proof.
  revert done; induction d as [|[[q q0] q1] d IH]; intros done H.
  - rewrite app_nil_r; reflexivity.
  - simpl.
    pose proof (push_parents n false done (q, q0, q1)) as H0. cbn [tgt lbl fst snd] in H0.
    rewrite H0 by (apply (H (q,q0,q1)) with (b := false); simpl; auto). simpl.
    pose proof (push_parents n true done (q, q0, q1)) as H1. cbn [tgt lbl fst snd] in H1.
    rewrite H1 by (apply (H (q,q0,q1)) with (b := true); simpl; auto). simpl.
    rewrite IH by (intros; apply H; simpl; auto).
    rewrite <- !app_assoc. reflexivity.
Qed.

Lemma fv_set n f : forall done, (forall q, In q f -> q < n) ->
  foldM (fun fv q => set_at fv q true) f (map (fun q => smem q done) (seq 0 n))
  = Ok (map (fun q => smem q (done ++ f)) (seq 0 n)).
Proof.
  induction f as [|a f IH]; intros done H; simpl.
  - rewrite app_nil_r; auto.
  - rewrite set_at_lt by (rewrite map_length, seq_length; apply H; simpl; auto). simpl.
    replace (upd a true (map (fun q => smem q done) (seq 0 n)))
      with (map (fun q => smem q (done ++ [a])) (seq 0 n)).
    + rewrite IH by (intros; apply H; simpl; auto). rewrite <- app_assoc. reflexivity.
    + apply nth_error_ext; intros i. rewrite upd_nth, !nth_error_map.
      rewrite map_length, seq_length.
      assert (a < n) by (apply H; simpl; auto).
      destruct (lt_dec i n).
      * rewrite nth_error_seq by auto. simpl.
        unfold smem. rewrite existsb_app. simpl.
        destruct (Nat.eqb_spec a i); simpl.
        -- subst. destruct (Nat.ltb_spec i n); [|lia]. rewrite Nat.eqb_refl, orb_true_r; auto.
        -- destruct (Nat.eqb_spec i a); [lia|]. rewrite !orb_false_r. auto.
      * assert (nth_error (seq 0 n) i = None) by (apply nth_error_None; rewrite seq_length; lia).
        rewrite H1. simpl. destruct (Nat.eqb_spec a i); simpl; auto. lia.
Qed.

Lemma fv_nil n : map (fun q => smem q []) (seq 0 n) = repeat false n.
Proof.
  generalize 0. induction n; intros k; [reflexivity|].
  cbn [seq map repeat]. f_equal. apply IHn.
Qed.

Lemma graph_new_good i f d :
  targets_ok d -> (forall q, In q f -> q < length d) -> graph_new i f d = Ok (graph_of i f d).
Proof.
  intros HT HF. unfold graph_new.
  replace (repeat (@nil State) (length d), repeat (@nil State) (length d))
    with (parents_upto (length d) false [], parents_upto (length d) true [])
    by (rewrite !parents_upto_nil; reflexivity).
  rewrite graph_new_rows by exact HT. simpl.
  rewrite <- fv_nil, fv_set by auto. reflexivity.
Qed.

Lemma targets_dec d n : {forall r, In r d -> forall b, tgt b r < n} +
                        {exists d1 r d2 b, d = d1 ++ r :: d2 /\ n <= tgt b r /\
                           (forall r', In r' d1 -> forall b, tgt b r' < n)}.
Proof.
  assert (D : {forallb (fun r => (tgt false r <? n) && (tgt true r <? n)) d = true} +
              {forallb (fun r => (tgt false r <? n) && (tgt true r <? n)) d = false})
    by (destruct forallb; auto).
  destruct D as [D|D].
  - left. rewrite forallb_forall in D. intros r Hr b. specialize (D r Hr).
    apply andb_true_iff in D as [D0 D1]. apply Nat.ltb_lt in D0, D1. destruct b; auto.
  - right. induction d as [|r d IH]; cbn [forallb] in D; [discriminate|].
    destruct ((tgt false r <? n) && (tgt true r <? n)) eqn:E.
    + cbn [andb] in D. destruct (IH D) as (d1 & r' & d2 & b & -> & L & P).
      exists (r :: d1), r', d2, b. repeat split; auto.
      intros r'' [<-|Hr] b'; auto.
      apply andb_true_iff in E as [D0 D1]. apply Nat.ltb_lt in D0, D1. destruct b'; auto.
    + apply andb_false_iff in E as [E|E]; apply Nat.ltb_ge in E.
      * exists [], r, d, false. simpl; intuition.
      * exists [], r, d, true. simpl; intuition.
Qed.

Lemma graph_new_bad i f d :
  ~ (targets_ok d /\ (forall q, In q f -> q < length d)) -> graph_new i f d = Fail FOutOfRange.
Proof.
  intros H. unfold graph_new.
  replace (repeat (@nil State) (length d), repeat (@nil State) (length d))
    with (parents_upto (length d) false [], parents_upto (length d) true [])
    by (rewrite !parents_upto_nil; reflexivity).
  destruct (targets_dec d (length d)) as [HT|(d1 & r & d2 & b & E & L & P)].
  - rewrite graph_new_rows by exact HT. simpl.
    rewrite <- fv_nil.
    assert (F : exists f1 q f2, f = f1 ++ q :: f2 /\ length d <= q /\ forall x, In x f1 -> x < length d).
    { assert (F : ~ forall q, In q f -> q < length d) by (intros F; apply H; auto).
      clear H. induction f as [|a f IH]; [exfalso; apply F; intros ? []|].
      destruct (lt_dec a (length d)).
      - destruct IH as (f1 & q & f2 & -> & L & P).
        + intros G; apply F; intros q [->|Hq]; auto.
        + exists (a :: f1), q, f2. repeat split; auto. intros x [<-|Hx]; auto.
      - exists [], a, f. repeat split; auto; try lia. intros ? []. }
    destruct F as (f1 & q & f2 & -> & L & P).
    rewrite foldM_app, fv_set by auto. simpl. unfold set_at.
    rewrite map_length, seq_length. destruct (Nat.ltb_spec q (length d)); [lia|]. reflexivity.
  - clear H. remember (length d) as n eqn:Hn. clear Hn. subst d.
    rewrite foldM_app, graph_new_rows by auto. simpl.
    destruct r as [[q q0] q1].
    destruct b; cbn [tgt fst snd] in L.
    + destruct (lt_dec q0 n) as [L0|L0].
      * pose proof (push_parents n false d1 (q, q0, q1) L0) as H0.
        cbn [tgt lbl fst snd] in H0. rewrite H0. simpl.
        rewrite push_at_fail by (rewrite parents_upto_length; auto). reflexivity.
      * rewrite push_at_fail by (rewrite parents_upto_length; lia). reflexivity.
    + rewrite push_at_fail by (rewrite parents_upto_length; auto). reflexivity.
Qed.

Lemma graph_new_ok i f d g :
  graph_new i f d = Ok g <->
  targets_ok d /\ (forall q, In q f -> q < length d) /\ g = graph_of i f d.
Proof.
  split.
  - intros H.
    destruct (targets_dec d (length d)) as [HT|(d1 & r & d2 & b & E & L & P)].
    + destruct (forallb (fun q => q <? length d) f) eqn:F.
      * assert (HF : forall q, In q f -> q < length d)
          by (intros q Hq; rewrite forallb_forall in F; apply Nat.ltb_lt, F; auto).
        rewrite graph_new_good in H by auto. injection H as <-. auto.
      * rewrite graph_new_bad in H; [discriminate|].
        intros [_ HF]. assert (forallb (fun q => q <? length d) f = true); [|congruence].
        apply forallb_forall. intros q Hq. apply Nat.ltb_lt; auto.
    + rewrite graph_new_bad in H; [discriminate|].
      intros [HT _]. specialize (HT r). rewrite E in HT at 1.
      specialize (HT (in_elt _ _ _) b). lia.
  - intros (HT & HF & ->). apply graph_new_good; auto.
Qed.

(** * Well-formed graphs *)
Definition with_sad (g : Graph) (l : list (list nat)) : Graph :=
  mkGraph (g_delta g) (g_parents0 g) (g_parents1 g) l (g_final g) (g_finalvec g) (g_init g).

Definition labels_ok (d : DFADelta) : Prop :=
  forall q l q0 q1, nth_error d q = Some (l, q0, q1) -> l = q.

Lemma wf_graph_iff g :
  wf_graph g <->
  targets_ok (g_delta g) /\ (forall q, In q (g_final g) -> q < length (g_delta g)) /\
  g = with_sad (graph_of (g_init g) (g_final g) (g_delta g)) (g_sad g) /\
  labels_ok (g_delta g) /\ g_init g < length (g_delta g) /\ is_set (g_final g).
Proof.
  unfold wf_graph. rewrite graph_new_ok. split.
  - intros ((HT & HF & E) & HL & HI & HS). repeat split; auto.
    destruct g; unfold graph_of, with_sad in *; simpl in *. congruence.
  - intros (HT & HF & E & HL & HI & HS).
    split; [|repeat split; auto]. split; auto. split; auto.
    destruct g; unfold graph_of, with_sad in *; simpl in *. congruence.
Qed.

Lemma graph_of_wf i f d :
  targets_ok d -> (forall q, In q f -> q < length d) -> labels_ok d -> i < length d -> is_set f ->
  wf_graph (graph_of i f d).
Proof.
  intros. apply wf_graph_iff. simpl. repeat split; auto.
Qed.

(** Total versions of the queries, used in proofs only. *)
Definition nxt (g : Graph) (q : nat) (b : bool) : nat :=
  match nth_error (g_delta g) q with Some r => tgt b r | None => 0 end.
Definition fin (g : Graph) (q : nat) : bool := smem q (g_final g).

Lemma next_state_nth g q b :
  next_state g q b = match nth_error (g_delta g) q with
                     | Some r => Ok (tgt b r) | None => Fail FOutOfRange end.
Proof.
  unfold next_state, at_. destruct (nth_error (g_delta g) q) as [[[l q0] q1]|]; reflexivity.
Qed.

Lemma next_state_nxt g q b : q < size g -> next_state g q b = Ok (nxt g q b).
Proof.
  intros H. rewrite next_state_nth. unfold nxt, size in *.
  destruct (nth_error (g_delta g) q) eqn:E; auto. apply nth_error_None in E; lia.
Qed.

Lemma next_state_out g q b : size g <= q -> next_state g q b = Fail FOutOfRange.
Proof.
  intros H. rewrite next_state_nth. apply nth_error_None in H. rewrite H. reflexivity.
Qed.

Lemma nxt_lt g q b : wf_graph g -> q < size g -> nxt g q b < size g.
Proof.
  intros H Hq. apply wf_graph_iff in H as (HT & _).
  unfold nxt, size in *. destruct (nth_error (g_delta g) q) eqn:E.
  - apply HT. eapply nth_error_In; eauto.
  - apply nth_error_None in E; lia.
Qed.

Lemma finalvec_wf g : wf_graph g -> g_finalvec g = map (fin g) (seq 0 (size g)).
Proof.
  intros H. apply wf_graph_iff in H as (_ & _ & E & _).
  rewrite E at 1. reflexivity.
Qed.

Lemma is_final_fin g q : wf_graph g -> q < size g -> is_final_state g q = Ok (fin g q).
Proof.
  intros H Hq. unfold is_final_state. rewrite finalvec_wf by auto.
  apply at_ok. rewrite nth_error_map, nth_error_seq by auto. reflexivity.
Qed.

Lemma fin_lt g q : wf_graph g -> fin g q = true -> q < size g.
Proof.
  intros H Hf. apply wf_graph_iff in H as (_ & HF & _). apply HF. apply smem_In; auto.
Qed.

Lemma init_lt g : wf_graph g -> initial_state g < size g.
Proof. intros H; apply wf_graph_iff in H. unfold initial_state, size. tauto. Qed.

(** total run *)
Definition run (g : Graph) (q : nat) (w : list bool) : nat := fold_left (nxt g) w q.

Lemma run_lt g w : forall q, wf_graph g -> q < size g -> run g q w < size g.
Proof.
  induction w; simpl; intros q H Hq; auto. apply IHw; auto. apply nxt_lt; auto.
Qed.

Lemma run_from_run g w : forall q, wf_graph g -> q < size g -> run_from g q w = Ok (run g q w).
Proof.
  induction w; intros q H Hq; [reflexivity|].
  unfold run_from in *. cbn [foldM]. rewrite next_state_nxt by auto. cbn [bind].
  rewrite IHw; auto using nxt_lt.
Qed.

Lemma accepts_run g w : wf_graph g -> accepts g w = Ok (fin g (run g (initial_state g) w)).
Proof.
  intros H. unfold accepts. rewrite run_from_run by auto using init_lt. simpl.
  apply is_final_fin; auto. apply run_lt; auto using init_lt.
Qed.

Lemma run_app g q u v : run g q (u ++ v) = run g (run g q u) v.
Proof. apply fold_left_app. Qed.

Lemma run_from_app g q u v : run_from g q (u ++ v) = bind (run_from g q u) (fun q' => run_from g q' v).
Proof. apply foldM_app. Qed.

Lemma prev_states_wf g q b : wf_graph g -> q < size g ->
  prev_states g q b = Ok (filter (fun p => nxt g p b =? q) (seq 0 (size g))).
Proof.
  intros H Hq. apply wf_graph_iff in H as (HT & _ & E & HL & _).
  assert (P : at_ (parents_of b (g_delta g)) q =
              Ok (filter (fun p => nxt g p b =? q) (seq 0 (size g)))).
  { apply at_ok. unfold parents_of. fold (parents_upto (length (g_delta g)) b (g_delta g)).
    rewrite parents_upto_nth by exact Hq. f_equal.
    unfold nxt, size. clear E HT Hq.
    assert (G : forall d k, (forall i r, nth_error d i = Some r ->
                               nth_error (g_delta g) (k + i) = Some r) ->
                map lbl (filter (fun r => tgt b r =? q) d) =
                filter (fun p => (match nth_error (g_delta g) p with
                                  | Some r => tgt b r | None => 0 end) =? q) (seq k (length d))).
    { induction d as [|r d IH]; intros k Hk; simpl; auto.
      pose proof (Hk 0 r eq_refl) as H0. rewrite Nat.add_0_r in H0. rewrite H0.
      specialize (IH (S k)).
      destruct (tgt b r =? q) eqn:Et; simpl; rewrite IH; auto;
        try (intros i r' Hi; rewrite Nat.add_succ_comm; apply Hk; auto).
      f_equal. destruct r as [[l q0] q1]. apply HL in H0. exact H0. }
    apply (G _ 0). auto. }
  unfold prev_states. rewrite E. cbn [with_sad graph_of g_parents0 g_parents1].
  destruct b; exact P.
Qed.
