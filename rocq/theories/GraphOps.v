(** Correctness of negated, reversed, removed_unreachable, prev_states,
    reserve_states_at_depth / states_at_depth and track_live_states. *)
From Coq Require Import List Arith Bool Lia Permutation.
Import ListNotations.
From Verif Require Import Base BaseFacts GraphModel Spec GraphFacts FromNfa.

(** * Simulation *)
Lemma run_sim g g' (Rel : nat -> nat -> Prop) :
  (forall q q' b, Rel q q' -> Rel (nxt g q b) (nxt g' q' b)) ->
  forall w q q', Rel q q' -> Rel (run g q w) (run g' q' w).
Proof.
  intros HS. unfold run. induction w as [|b w IH]; intros q q' H; cbn [fold_left]; auto.
Qed.

Lemma sim_accepts g g' (Rel : nat -> nat -> Prop) :
  wf_graph g -> wf_graph g' ->
  Rel (initial_state g) (initial_state g') ->
  (forall q q' b, Rel q q' -> Rel (nxt g q b) (nxt g' q' b)) ->
  (forall q q', Rel q q' -> fin g q = fin g' q') ->
  forall w, accepts g w = accepts g' w.
Proof.
  intros W W' H0 HS HF w. rewrite !accepts_run by auto. f_equal.
  apply HF, run_sim; auto.
Qed.

(** * negated *)
Lemma negated_finals g : wf_graph g ->
  foldM (fun s q => do f <- is_final_state g q;
                    Ok (if f : bool then s else sinsert q s)) (all_states g) []
  = Ok (filter (fun q => negb (fin g q)) (seq 0 (size g))).
Proof.
  intros W. unfold all_states.
  assert (G : forall n, n <= size g ->
    foldM (fun s q => do f <- is_final_state g q;
                      Ok (if f : bool then s else sinsert q s)) (seq 0 n) []
    = Ok (filter (fun q => negb (fin g q)) (seq 0 n))).
  { induction n; intros H; [reflexivity|].
    rewrite seq_S, foldM_app, IHn by lia. cbn [bind foldM plus].
    rewrite is_final_fin by (auto; lia). cbn [bind].
    rewrite filter_app. cbn [filter]. destruct (fin g n); cbn [negb].
    - rewrite app_nil_r; auto.
    - f_equal. apply is_set_app_last.
      + apply is_set_filter, is_set_map_seq.
      + intros y Hy. apply filter_In in Hy as [Hy _]. apply in_seq in Hy. lia. }
  apply G; auto.
Qed.

Theorem negated_correct g : wf_graph g ->
  exists g', negated g = Ok g' /\ wf_graph g' /\ size g' = size g /\
    forall w, exists b, accepts g w = Ok b /\ accepts g' w = Ok (negb b).
Proof.
  intros W. unfold negated. rewrite negated_finals by auto. cbn [bind].
  pose proof W as W0. apply wf_graph_iff in W0 as (HT & HF & _ & HL & HI & HS).
  rewrite graph_new_good; auto.
  2:{ intros q Hq. apply filter_In in Hq as [Hq _]. apply in_seq in Hq. unfold size in Hq. lia. }
  eexists. split; [reflexivity|].
  set (g' := graph_of _ _ _).
  assert (W' : wf_graph g').
  { apply graph_of_wf; auto.
    - intros q Hq. apply filter_In in Hq as [Hq _]. apply in_seq in Hq. unfold size in Hq. lia.
    - apply is_set_filter, is_set_map_seq. }
  split; auto. split; [reflexivity|].
  intros w. exists (fin g (run g (initial_state g) w)).
  split; [apply accepts_run; auto|].
  rewrite accepts_run by auto. f_equal.
  assert (R : forall w q, run g' q w = run g q w).
  { induction w0; intros q; cbn; auto. }
  rewrite R. change (initial_state g') with (initial_state g).
  assert (L : run g (initial_state g) w < size g) by (apply run_lt; auto using init_lt).
  revert L. generalize (run g (initial_state g) w). intros q Hq.
  unfold fin at 1. unfold g' at 1; cbn [graph_of g_final].
  apply eq_true_iff_eq. rewrite smem_In, filter_In, in_seq. intuition lia.
Qed.

(** * reversed *)
Theorem prev_states_correct g q b : wf_graph g -> q < size g ->
  exists ps, prev_states g q b = Ok ps /\ NoDup ps /\
    forall p, In p ps <-> p < size g /\ next_state g p b = Ok q.
Proof.
  intros W Hq. exists (filter (fun p => nxt g p b =? q) (seq 0 (size g))).
  split; [apply prev_states_wf; auto|]. split; [apply NoDup_filter, seq_NoDup|].
  intros p. rewrite filter_In, in_seq, Nat.eqb_eq. split.
  - intros [H1 <-]. split; [lia|]. apply next_state_nxt; lia.
  - intros [H1 H2]. rewrite next_state_nxt in H2 by auto. injection H2 as <-. split; [lia|auto].
Qed.

Lemma prev_states_out g q b : wf_graph g -> size g <= q -> prev_states g q b = Fail FOutOfRange.
Proof.
  intros W H. apply wf_graph_iff in W as (_ & _ & E & _). unfold prev_states. rewrite E.
  cbn [with_sad graph_of g_parents0 g_parents1].
  destruct b; apply at_fail; unfold parents_of; rewrite map_length, seq_length; auto.
Qed.

Definition rev_delta (g : Graph) : NFADelta :=
  map (fun q => (q, filter (fun p => nxt g p false =? q) (seq 0 (size g)),
                    filter (fun p => nxt g p true =? q) (seq 0 (size g)))) (seq 0 (size g)).

Lemma rev_delta_edge g q b p :
  nfa_edge (rev_delta g) q b p <-> q < size g /\ p < size g /\ nxt g p b = q.
Proof.
  unfold nfa_edge, rev_delta. split.
  - intros (l & d0 & d1 & E & H). rewrite nth_error_map in E.
    destruct (lt_dec q (size g)) as [Hl|Hl].
    + rewrite nth_error_seq in E by auto. injection E as <- <- <-.
      split; auto. destruct b; apply filter_In in H as [H1 H2]; apply in_seq in H1;
        apply Nat.eqb_eq in H2; split; auto; lia.
    + assert (En : nth_error (seq 0 (size g)) q = None) by (apply nth_error_None; rewrite seq_length; lia).
      rewrite En in E. discriminate.
  - intros (H1 & H2 & H3). do 3 eexists. split.
    + rewrite nth_error_map, nth_error_seq by auto. reflexivity.
    + destruct b; apply filter_In; rewrite in_seq, Nat.eqb_eq; split; auto; lia.
Qed.

Lemma rev_delta_path g w : forall q p, wf_graph g -> q < size g ->
  nfa_path (rev_delta g) q w p <-> p < size g /\ run g p (rev w) = q.
Proof.
  induction w as [|b w IH]; intros q p W Hq.
  - cbn. split.
    + intros H; inversion H; subst; auto.
    + intros [_ ->]. constructor.
  - cbn [rev]. rewrite run_app. cbn [run fold_left]. split.
    + intros H. inversion H; subst. apply rev_delta_edge in H3 as (_ & H1 & H2).
      apply IH in H5 as [H5 H6]; auto. split; auto. unfold run in *. rewrite H6. auto.
    + intros [H1 H2]. econstructor.
      * apply rev_delta_edge. split; [auto|]. split; [|exact H2].
        apply run_lt; auto.
      * apply IH; auto. apply run_lt; auto.
Qed.

Theorem reversed_correct g : wf_graph g ->
  exists g', reversed g = Ok g' /\ wf_graph g' /\
    (forall w, exists b, accepts g w = Ok b /\ accepts g' (rev w) = Ok b) /\
    (forall q, q < size g' -> dfa_reaches g' q).
Proof.
  intros W. unfold reversed.
  rewrite (mapM_pure _ (fun q => (q, filter (fun p => nxt g p false =? q) (seq 0 (size g)),
                    filter (fun p => nxt g p true =? q) (seq 0 (size g))))).
  2:{ intros q Hq. apply in_seq in Hq. rewrite !prev_states_wf by (auto; lia). reflexivity. }
  cbn [bind]. fold (rev_delta g).
  pose proof W as W0. apply wf_graph_iff in W0 as (HT & HF & _ & HL & HI & HS).
  assert (ND : nfa_no_dangling (g_final g) (rev_delta g)).
  { intros q w p Hq HP. unfold rev_delta. rewrite map_length, seq_length.
    apply rev_delta_path in HP; [tauto|auto|]. apply HF; auto. }
  destruct (from_nfa_ok_iff (g_final g) [initial_state g] (rev_delta g) HS) as [[_ Hok] _].
  destruct (Hok ND) as (g' & E). exists g'. split; auto.
  assert (W' : wf_graph g') by (eapply from_nfa_wf; eauto).
  split; auto. split; [|eapply from_nfa_reachable; eauto].
  intros w. exists (fin g (run g (initial_state g) w)). split; [apply accepts_run; auto|].
  pose proof (from_nfa_language _ _ _ _ HS E (rev w)) as (HA & HR & _).
  assert (L : nfa_accepts (g_final g) [initial_state g] (rev_delta g) (rev w) <->
              fin g (run g (initial_state g) w) = true).
  { unfold nfa_accepts, fin. rewrite smem_In. split.
    - intros (q & p & A & B & [<-|[]]). apply rev_delta_path in B; [|auto|apply HF; auto].
      rewrite rev_involutive in B. destruct B as [_ B]. rewrite B. exact A.
    - intros A. exists (run g (initial_state g) w), (initial_state g). split; auto. split; [|simpl; auto].
      apply rev_delta_path; [auto|apply run_lt; auto using init_lt|].
      rewrite rev_involutive. auto using init_lt. }
  destruct (fin g (run g (initial_state g) w)) eqn:Ef.
  - apply HA, L; auto.
  - apply HR. intros H. apply L in H. discriminate.
Qed.

(** * removed_unreachable *)
Definition reach (g : Graph) (q : nat) : Prop := exists w, run g (initial_state g) w = q.

Lemma reach_lt g q : wf_graph g -> reach g q -> q < size g.
Proof. intros W (w & <-). apply run_lt; auto using init_lt. Qed.

Lemma reach_nxt g q b : reach g q -> reach g (nxt g q b).
Proof. intros (w & <-). exists (w ++ [b]). rewrite run_app. reflexivity. Qed.

Lemma reach_init g : reach g (initial_state g).
Proof. exists []; reflexivity. Qed.

Lemma reaches_reach g q : wf_graph g -> dfa_reaches g q <-> reach g q.
Proof.
  intros W. unfold dfa_reaches, reach. split; intros (w & H); exists w.
  - rewrite run_from_run in H by auto using init_lt. congruence.
  - rewrite run_from_run by auto using init_lt. congruence.
Qed.

Lemma sinsert_length x s : is_set s -> ~ In x s -> length (sinsert x s) = S (length s).
Proof.
  induction s; simpl; auto. intros H Hn.
  destruct (x <? a); simpl; auto.
  destruct (Nat.eqb_spec x a); [subst; tauto|]. simpl. f_equal. apply IHs; tauto.
Qed.

Lemma reachable_states_spec g : wf_graph g ->
  exists R, reachable_states g = Ok R /\ is_set R /\ forall q, In q R <-> reach g q.
Proof.
  intros W. unfold reachable_states.
  pose (I := fun s : list nat * list nat =>
       is_set (fst s) /\
       (forall q, In q (fst s) \/ In q (snd s) -> reach g q) /\
       (In (initial_state g) (fst s) \/ In (initial_state g) (snd s)) /\
       (forall q b, In q (fst s) -> In (nxt g q b) (fst s) \/ In (nxt g q b) (snd s))).
  pose (Q := fun r : res (list nat) => exists R, r = Ok R /\ is_set R /\ forall q, In q R <-> reach g q).
  apply (loop_spec (reach_step g) I (fun s => 2 * (size g - length (fst s)) + length (snd s)) Q).
  - intros [R que] (H1 & H2 & H3 & H4). cbn [fst snd] in *.
    unfold reach_step. destruct que as [|q que].
    + exists R. split; auto. split; auto. intros q. split; [auto|].
      assert (H0 : In (initial_state g) R) by (destruct H3 as [|[]]; auto).
      intros (w & <-). revert H0. generalize (initial_state g).
      induction w as [|b w IH]; intros p Hp; cbn; auto.
      apply IH. destruct (H4 p b Hp) as [|[]]; auto.
    + destruct (smem q R) eqn:Em.
      * apply smem_In in Em. cbn. split; [|lia]. repeat split; cbn [fst snd]; auto.
        -- intros p [Hp|Hp]; apply H2; simpl; auto.
        -- destruct H3 as [|[<-|]]; auto.
        -- intros p b Hp. destruct (H4 p b Hp) as [|[<-|]]; auto.
      * apply smem_false in Em.
        assert (Hq : q < size g) by (apply reach_lt; auto; apply H2; simpl; auto).
        rewrite !next_state_nxt by auto. cbn.
        split.
        -- repeat split; cbn [fst snd].
           ++ apply is_set_sinsert; auto.
           ++ intros p. rewrite sinsert_In, in_app_iff. simpl.
              assert (Rq : reach g q) by (apply H2; simpl; auto).
              intros [[->|Hp]|[Hp|[<-|[<-|[]]]]]; auto using reach_nxt; apply H2; simpl; auto.
           ++ rewrite sinsert_In, in_app_iff. destruct H3 as [|[->|]]; auto.
           ++ intros p b. rewrite !sinsert_In, in_app_iff. simpl. intros [->|Hp].
              ** destruct b; auto.
              ** destruct (H4 p b Hp) as [|[->|]]; auto.
        -- rewrite sinsert_length by auto. rewrite app_length. simpl.
           assert (length (q :: R) <= length (seq 0 (size g))).
           { apply NoDup_incl_length.
             - constructor; auto using is_set_NoDup.
             - intros p Hp. apply in_seq. split; [lia|]. apply reach_lt; auto.
               destruct Hp as [->|Hp]; apply H2; simpl; auto. }
           rewrite seq_length in H. simpl in H. lia.
  - repeat split; cbn [fst snd]; auto.
    + intros q [[]|[<-|[]]]. apply reach_init.
    + simpl; auto.
  - cbn [fst snd length]. pose proof (pow2_gt (size g)).
    replace (size g + 2) with (S (S (size g))) by lia. cbn [Nat.pow]. lia.
Qed.

Lemma index_of_nth x l i : index_of x l = Some i -> nth_error l i = Some x.
Proof.
  revert i; induction l; intros i; simpl; [discriminate|].
  destruct (Nat.eqb_spec x a).
  - intros [= <-]. subst; auto.
  - destruct (index_of x l); simpl; [|discriminate]. intros [= <-]. simpl; auto.
Qed.

Lemma index_of_some x l : In x l -> exists i, index_of x l = Some i.
Proof.
  induction l; simpl; [tauto|]. intros H. destruct (Nat.eqb_spec x a); [eauto|].
  destruct H as [|H]; [congruence|]. destruct (IHl H) as (i & ->). simpl; eauto.
Qed.

Lemma index_of_nth_error l i x : NoDup l -> nth_error l i = Some x -> index_of x l = Some i.
Proof.
  intros HN H. destruct (index_of_some x l) as (j & Hj); [eapply nth_error_In; eauto|].
  rewrite Hj. f_equal. apply index_of_nth in Hj.
  rewrite NoDup_nth_error in HN. apply HN; [eapply nth_error_lt; eauto|congruence].
Qed.

Lemma old2new_ok R q : In q R -> exists i, old2new R q = Ok i /\ nth_error R i = Some q /\ index_of q R = Some i.
Proof.
  intros H. destruct (index_of_some q R H) as (i & Hi). exists i.
  unfold old2new. rewrite Hi. auto using index_of_nth.
Qed.

Lemma finals_remap g R : is_set R -> (forall q, In q R -> q < size g) ->
  forall fs, exists f', foldM (fun fs q => if smem q R
                        then do n <- old2new R q; Ok (sinsert n fs)
                        else Ok fs) fs [] = Ok f' /\ is_set f' /\
    forall i, In i f' <-> exists q, nth_error R i = Some q /\ In q fs.
Proof.
  intros HR HL fs.
  apply (foldM_ind _ (fun done f' => is_set f' /\
          forall i, In i f' <-> exists q, nth_error R i = Some q /\ In q done)).
  - split; [exact I|]. intros i. split; [intros []|]. intros (q & _ & []).
  - intros done q rest f' _ (HS & HE). destruct (smem q R) eqn:Em.
    + apply smem_In in Em. destruct (old2new_ok R q Em) as (i & -> & Hi & _). cbn.
      eexists. split; [reflexivity|]. split; [apply is_set_sinsert; auto|].
      intros j. rewrite sinsert_In, HE. setoid_rewrite in_app_iff. simpl. split.
      * intros [->|(p & A & B)]; eauto.
      * intros (p & A & [B|[<-|[]]]); eauto. left.
        assert (NoDup R) by (apply is_set_NoDup; auto). rewrite NoDup_nth_error in H.
        apply H; [eapply nth_error_lt; eauto|congruence].
    + apply smem_false in Em. eexists. split; [reflexivity|]. split; auto.
      intros j. rewrite HE. setoid_rewrite in_app_iff. simpl. split.
      * intros (p & A & B); eauto.
      * intros (p & A & [B|[<-|[]]]); eauto. exfalso. apply Em. eapply nth_error_In; eauto.
Qed.

Lemma skipn_nth_cons {A} (l : list A) k x : nth_error l k = Some x -> skipn k l = x :: skipn (S k) l.
Proof. revert k; induction l; intros [|k] H; try discriminate; [injection H as ->; reflexivity|]. exact (IHl k H). Qed.

Theorem removed_unreachable_correct g : wf_graph g ->
  exists g' R, removed_unreachable g = Ok g' /\ wf_graph g' /\
    is_set R /\ (forall q, In q R <-> reach g q) /\ size g' = length R /\
    nth_error R (initial_state g') = Some (initial_state g) /\
    (forall i q b, nth_error R i = Some q -> nth_error R (nxt g' i b) = Some (nxt g q b)) /\
    (forall i q, nth_error R i = Some q -> fin g' i = fin g q).
Proof.
  intros W. unfold removed_unreachable.
  destruct (reachable_states_spec g W) as (R & ER & HR & HRe). rewrite ER. cbn [bind].
  assert (HRl : forall q, In q R -> q < size g) by (intros; apply reach_lt; auto; apply HRe; auto).
  assert (HN : NoDup R) by (apply is_set_NoDup; auto).
  destruct (old2new_ok R (initial_state g)) as (ii & Eii & Hii & _);
    [apply HRe, reach_init|]. rewrite Eii. cbn [bind].
  destruct (finals_remap g R HR HRl (g_final g)) as (f' & Ef & Hfs & Hf). rewrite Ef. cbn [bind].
  pose proof W as W0. apply wf_graph_iff in W0 as (HT & HF & _ & HL & HI & HS).
  match goal with |- context [foldM ?f ?l ?s0] =>
    assert (D : exists d, foldM f l s0 = Ok d /\ length d = length R /\
      forall i q, nth_error R i = Some q -> q < length (g_delta g) ->
        exists i0 i1, nth_error d i = Some (i, i0, i1) /\
          nth_error R i0 = Some (nxt g q false) /\ nth_error R i1 = Some (nxt g q true))
  end.
  { apply (foldM_ind _ (fun done d => length d = length R /\
      forall i q, nth_error R i = Some q -> q < length done ->
        exists i0 i1, nth_error d i = Some (i, i0, i1) /\
          nth_error R i0 = Some (nxt g q false) /\ nth_error R i1 = Some (nxt g q true))).
    - split; [apply repeat_length|]. intros i q _ H; inversion H.
    - intros done [[l c0] c1] rest d Ed (Ld & Hd).
      assert (En : nth_error (g_delta g) (length done) = Some (l, c0, c1)).
      { rewrite Ed, nth_error_app2, Nat.sub_diag by lia. reflexivity. }
      pose proof (HL _ _ _ _ En) as ->.
      assert (N0 : nxt g (length done) false = c0) by (unfold nxt; rewrite En; reflexivity).
      assert (N1 : nxt g (length done) true = c1) by (unfold nxt; rewrite En; reflexivity).
      destruct (smem (length done) R) eqn:Em.
      + apply smem_In in Em.
        destruct (old2new_ok R (length done) Em) as (i & -> & Hi & _).
        assert (Rd : reach g (length done)) by (apply HRe; auto).
        destruct (old2new_ok R c0) as (i0 & -> & Hi0 & _);
          [apply HRe; rewrite <- N0; apply reach_nxt; auto|].
        destruct (old2new_ok R c1) as (i1 & -> & Hi1 & _);
          [apply HRe; rewrite <- N1; apply reach_nxt; auto|].
        cbn [bind]. rewrite set_at_lt by (rewrite Ld; eapply nth_error_lt; eauto).
        eexists. split; [reflexivity|]. split; [rewrite upd_length; auto|].
        intros j q Hj Hq. rewrite app_length in Hq. simpl in Hq.
        destruct (Nat.eq_dec q (length done)) as [->|Hne].
        * assert (j = i).
          { rewrite NoDup_nth_error in HN. apply HN; [eapply nth_error_lt; eauto|congruence]. }
          subst j. exists i0, i1. rewrite upd_eq by (rewrite Ld; eapply nth_error_lt; eauto).
          rewrite N0, N1. auto.
        * rewrite upd_neq by (intros ->; congruence). apply Hd; auto. lia.
      + apply smem_false in Em. eexists. split; [reflexivity|]. split; auto.
        intros j q Hj Hq. rewrite app_length in Hq. simpl in Hq.
        apply Hd; auto. assert (q <> length done); [|lia].
        intros ->. apply Em. eapply nth_error_In; eauto. }
  destruct D as (d & Ed & Ld & Hd). rewrite Ed. cbn [bind].
  assert (Hd' : forall i q, nth_error R i = Some q ->
        exists i0 i1, nth_error d i = Some (i, i0, i1) /\
          nth_error R i0 = Some (nxt g q false) /\ nth_error R i1 = Some (nxt g q true)).
  { intros i q Hi. apply Hd; auto. apply HRl. eapply nth_error_In; eauto. }
  assert (HR' : forall i, i < length d -> exists q, nth_error R i = Some q).
  { intros i Hi. destruct (nth_error R i) eqn:E; eauto. apply nth_error_None in E; lia. }
  assert (TO : targets_ok d).
  { intros r Hr b. apply In_nth_error in Hr as (i & Hi).
    destruct (HR' i) as (q & Hq); [eapply nth_error_lt; eauto|].
    destruct (Hd' i q Hq) as (i0 & i1 & E & E0 & E1). rewrite Hi in E. injection E as ->.
    rewrite Ld. destruct b; eapply nth_error_lt; eauto. }
  assert (FO : forall q, In q f' -> q < length d).
  { intros q Hq. apply Hf in Hq as (p & Hp & _). rewrite Ld. eapply nth_error_lt; eauto. }
  rewrite graph_new_good by auto.
  exists (graph_of ii f' d), R. split; auto. split.
  { apply graph_of_wf; auto.
    - intros q l q0 q1 E. destruct (HR' q) as (p & Hp); [eapply nth_error_lt; eauto|].
      destruct (Hd' q p Hp) as (i0 & i1 & E' & _). congruence.
    - rewrite Ld. eapply nth_error_lt; eauto. }
  split; auto. split; auto. split; [exact Ld|]. split; [exact Hii|]. split.
  - intros i q b Hi. destruct (Hd' i q Hi) as (i0 & i1 & E & E0 & E1).
    unfold nxt at 1. cbn [graph_of g_delta]. rewrite E. destruct b; auto.
  - intros i q Hi. unfold fin. cbn [graph_of g_final]. apply eq_true_iff_eq.
    rewrite !smem_In, Hf. split.
    + intros (p & A & B). congruence.
    + intros H; eauto.
Qed.

Theorem removed_unreachable_claim g : wf_graph g ->
  exists g', removed_unreachable g = Ok g' /\ wf_graph g' /\
    (forall w, accepts g' w = accepts g w) /\
    (forall q, q < size g' -> dfa_reaches g' q) /\
    (* the size is the number of reachable states *)
    (exists R, NoDup R /\ (forall q, In q R <-> dfa_reaches g q) /\ length R = size g').
Proof.
  intros W. destruct (removed_unreachable_correct g W)
    as (g' & R & E & W' & HR & HRe & HL & H0 & HS & HF).
  exists g'. split; auto. split; auto. split; [|split].
  - apply (sim_accepts g' g (fun i q => nth_error R i = Some q)); auto.
  - intros i Hi. rewrite HL in Hi.
    destruct (nth_error R i) as [q|] eqn:Eq; [|apply nth_error_None in Eq; lia].
    assert (Hq : reach g q) by (apply HRe; eapply nth_error_In; eauto).
    apply reaches_reach; auto. destruct Hq as (w & Hw). exists w.
    pose proof (run_sim g' g (fun i q => nth_error R i = Some q) (fun q q' b => HS q q' b) w _ _ H0) as S.
    cbn beta in S. rewrite Hw in S.
    assert (HN : NoDup R) by (apply is_set_NoDup; auto). rewrite NoDup_nth_error in HN.
    apply HN; [eapply nth_error_lt; eauto|congruence].
  - exists R. split; [apply is_set_NoDup; auto|]. split; auto.
    intros q. rewrite HRe. symmetry. apply reaches_reach; auto.
Qed.

(** * states_at_depth *)
Definition reach_in (g : Graph) (k : nat) (q : nat) : Prop :=
  exists w, length w = k /\ run g (initial_state g) w = q.

Lemma sad_collect_spec sts :
  sad_collect sts = Ok (filter (fun q => nth q sts false) (seq 0 (length sts)),
                        repeat false (length sts)).
Proof.
  unfold sad_collect.
  assert (G : forall n, n <= length sts ->
     foldM (fun '(tmp, s) st =>
           do b <- at_ s st;
           let tmp' := if b : bool then tmp ++ [st] else tmp in
           do s' <- set_at s st false;
           Ok (tmp', s'))
        (seq 0 n) ([], sts)
     = Ok (filter (fun q => nth q sts false) (seq 0 n), repeat false n ++ skipn n sts)).
  { induction n; intros H; [reflexivity|].
    rewrite seq_S, foldM_app, IHn by lia. cbn [bind foldM plus].
    destruct (nth_error sts n) as [b|] eqn:E; [|apply nth_error_None in E; lia].
    assert (E1 : at_ (repeat false n ++ skipn n sts) n = Ok b).
    { apply at_ok. rewrite nth_error_app2, repeat_length, Nat.sub_diag by (rewrite repeat_length; lia).
      rewrite (skipn_nth_cons _ _ _ E). reflexivity. }
    rewrite E1. cbn [bind].
    assert (E2 : set_at (repeat false n ++ skipn n sts) n false
                 = Ok (repeat false (S n) ++ skipn (S n) sts)).
    { apply set_at_ok. rewrite app_length, repeat_length, skipn_length. split; [lia|].
      rewrite (skipn_nth_cons _ _ _ E).
      replace (repeat false (S n)) with (repeat false n ++ [false])
        by (symmetry; apply (repeat_cons n false)).
      rewrite <- app_assoc. cbn [app].
      clear. generalize (skipn (S n) sts). intros l. induction n; simpl; f_equal; auto. }
    rewrite E2. cbn [bind]. f_equal. f_equal.
    rewrite filter_app. cbn [filter]. rewrite (nth_error_nth _ _ false E).
    destruct b; auto. rewrite app_nil_r; auto. }
  rewrite G by lia. rewrite skipn_all, app_nil_r. reflexivity.
Qed.

Lemma nth_upd i j (v : list bool) : i < length v ->
  nth j (upd i true v) false = (i =? j) || nth j v false.
Proof.
  intros H. destruct (Nat.eqb_spec i j) as [->|Hn]; simpl.
  - apply nth_error_nth. apply upd_eq; auto.
  - assert (E : nth_error (upd i true v) j = nth_error v j) by (apply upd_neq; auto).
    destruct (nth_error v j) eqn:Ev.
    + rewrite (nth_error_nth _ _ _ Ev), (nth_error_nth _ _ _ E). auto.
    + apply nth_error_None in Ev, E. rewrite !nth_overflow by auto. auto.
Qed.

Lemma sad_mark_spec g tmp sts : wf_graph g -> length sts = size g ->
  (forall q, In q tmp -> q < size g) ->
  exists sts', sad_mark g tmp sts = Ok sts' /\ length sts' = size g /\
    forall q, nth q sts' false = true <->
              nth q sts false = true \/ exists p b, In p tmp /\ nxt g p b = q.
Proof.
  intros W HL HT. unfold sad_mark.
  apply (foldM_ind _ (fun done s => length s = size g /\
    forall q, nth q s false = true <->
              nth q sts false = true \/ exists p b, In p done /\ nxt g p b = q)).
  - split; auto. intros q. split; auto. intros [|(p & b & [] & _)]; auto.
  - intros done p rest s E (Ls & Hs).
    assert (Hp : p < size g) by (apply HT; rewrite E; apply in_elt).
    rewrite next_state_nxt by auto. cbn [bind].
    rewrite set_at_lt by (rewrite Ls; apply nxt_lt; auto). cbn [bind].
    rewrite next_state_nxt by auto. cbn [bind].
    rewrite set_at_lt by (rewrite upd_length, Ls; apply nxt_lt; auto).
    eexists. split; [reflexivity|]. split; [rewrite !upd_length; auto|].
    intros q. rewrite !nth_upd by (rewrite ?upd_length, Ls; apply nxt_lt; auto).
    rewrite !orb_true_iff, !Nat.eqb_eq, Hs. setoid_rewrite in_app_iff. simpl. split.
    + intros [<-|[<-|[H|(p' & b & H1 & H2)]]]; eauto 8.
    + intros [H|(p' & b & [H1|[<-|[]]] & H2)]; [auto|right; right; right; eauto|].
      destruct b; auto.
Qed.

Lemma sad_levels_spec g : wf_graph g -> forall depth sts acc k,
  length sts = size g ->
  (forall q, nth q sts false = true <-> reach_in g k q) ->
  length acc = k ->
  (forall j l, nth_error acc j = Some l -> is_set l /\ forall q, In q l <-> reach_in g j q) ->
  exists L, sad_levels g depth sts acc = Ok L /\ length L = k + depth /\
    (forall j l, nth_error L j = Some l -> is_set l /\ forall q, In q l <-> reach_in g j q).
Proof.
  intros W. induction depth; intros sts acc k HL HS Hk HA; cbn [sad_levels].
  - exists acc. split; auto. split; auto. lia.
  - rewrite sad_collect_spec. cbn [bind].
    set (tmp := filter _ _).
    assert (Ht : forall q, In q tmp <-> reach_in g k q).
    { intros q. unfold tmp. rewrite filter_In, HS, in_seq. split; [tauto|].
      intros H; split; auto. rewrite HL. destruct H as (w & _ & <-). split; [lia|].
      apply run_lt; auto using init_lt. }
    destruct (sad_mark_spec g tmp (repeat false (length sts)) W) as (sts' & E & L' & H').
    + rewrite repeat_length; auto.
    + intros q Hq. apply Ht in Hq as (w & _ & <-). apply run_lt; auto using init_lt.
    + rewrite E. cbn [bind]. destruct (IHdepth sts' (acc ++ [tmp]) (S k)) as (L & EL & LL & HLv); auto.
      * intros q. rewrite H'. split.
        -- intros [H|(p & b & Hp & <-)].
           { exfalso. assert (F : nth q (repeat false (length sts)) false = false).
             { destruct (lt_dec q (length sts)).
               - apply nth_error_nth, nth_error_repeat; auto.
               - apply nth_overflow. rewrite repeat_length; lia. }
             congruence. }
           apply Ht in Hp as (w & Lw & <-). exists (w ++ [b]).
           rewrite app_length, Lw, run_app. cbn. split; auto. lia.
        -- intros (w & Lw & <-). right.
           destruct (exists_last (l := w)) as (w' & b & ->); [intros ->; discriminate|].
           rewrite app_length in Lw. simpl in Lw. rewrite run_app. cbn [run fold_left].
           exists (run g (initial_state g) w'), b. split; auto. apply Ht. exists w'. split; auto. lia.
      * rewrite app_length. simpl. lia.
      * intros j l Hj. destruct (lt_dec j (length acc)).
        -- rewrite nth_error_app1 in Hj by auto. auto.
        -- assert (j < length (acc ++ [tmp])) by (eapply nth_error_lt; eauto).
           rewrite app_length in H. simpl in H.
           replace j with (length acc) in * by lia.
           rewrite nth_error_app2, Nat.sub_diag in Hj by lia. injection Hj as <-.
           split; [apply is_set_filter, is_set_map_seq|]. rewrite Hk. auto.
      * exists L. split; auto. split; auto. lia.
Qed.

Theorem states_at_depth_correct g depth : wf_graph g ->
  exists g', reserve_states_at_depth g depth = Ok g' /\ wf_graph g' /\
    g_delta g' = g_delta g /\ g_final g' = g_final g /\ g_init g' = g_init g /\
    (forall k, depth <= k -> states_at_depth g' k = Fail FOutOfRange) /\
    forall k, k < depth -> exists l, states_at_depth g' k = Ok l /\ is_set l /\
      forall q, In q l <-> exists w, length w = k /\ run_from g (initial_state g) w = Ok q.
Proof.
  intros W. unfold reserve_states_at_depth.
  rewrite set_at_lt by (rewrite repeat_length; auto using init_lt). cbn [bind].
  destruct (sad_levels_spec g W depth (upd (initial_state g) true (repeat false (size g))) [] 0)
    as (L & E & LL & H).
  - rewrite upd_length, repeat_length; auto.
  - intros q. rewrite nth_upd by (rewrite repeat_length; auto using init_lt).
    rewrite orb_true_iff, Nat.eqb_eq. split.
    + intros [<-|F]; [exists []; auto|]. exfalso.
      assert (nth q (repeat false (size g)) false = false); [|congruence].
      destruct (lt_dec q (size g)).
      * apply nth_error_nth, nth_error_repeat; auto.
      * apply nth_overflow. rewrite repeat_length; lia.
    + intros ([|b w] & Lw & <-); [auto|discriminate].
  - reflexivity.
  - intros [|j] l; discriminate.
  - rewrite E. cbn [bind]. eexists. split; [reflexivity|].
    split.
    { unfold wf_graph in *. cbn [g_init g_final g_delta g_parents0 g_parents1 g_finalvec]. tauto. }
    repeat split; auto.
    + intros k Hk. unfold states_at_depth. cbn [g_sad]. apply at_fail. lia.
    + intros k Hk. unfold states_at_depth. cbn [g_sad].
      destruct (at_lt L k) as (l & E1 & E2); [lia|]. exists l. split; auto.
      destruct (H k l E2) as [Hs Hl]. split; auto.
      intros q. rewrite Hl. unfold reach_in. split; intros (w & A & B); exists w; split; auto;
        rewrite run_from_run in * by auto using init_lt; congruence.
Qed.

(** * track_live_states *)
Lemma live_step_spec g : wf_graph g -> forall qs, (forall q, In q qs -> q < size g) ->
  exists l, live_step g qs = Ok l /\ is_set l /\
    forall p, In p l <-> exists q b, In q qs /\ nxt g q b = p.
Proof.
  intros W qs H. unfold live_step.
  apply (foldM_ind _ (fun done l => is_set l /\
    forall p, In p l <-> exists q b, In q done /\ nxt g q b = p)).
  - split; [exact I|]. intros p. split; [intros []|intros (q & b & [] & _)].
  - intros done q rest l E (HS & Hl).
    assert (Hq : q < size g) by (apply H; rewrite E; apply in_elt).
    rewrite !next_state_nxt by auto. cbn [bind]. eexists. split; [reflexivity|].
    split; [auto using is_set_sinsert|].
    intros p. rewrite !sinsert_In, Hl. setoid_rewrite in_app_iff. simpl. split.
    + intros [->|[->|(q' & b & A & B)]]; eauto 8.
    + intros (q' & b & [A|[<-|[]]] & <-); [right; right; eauto|]. destruct b; auto.
Qed.

Lemma live_levels_spec g qs : wf_graph g -> forall depth tmp acc k,
  (forall q, In q tmp -> q < size g) ->
  (forall p, In p tmp <-> exists q w, In q qs /\ length w = k /\ run g q w = p) ->
  length acc = S k ->
  (forall j l, nth_error acc j = Some l -> (0 < j -> is_set l) /\
     forall p, In p l <-> exists q w, In q qs /\ length w = j /\ run g q w = p) ->
  exists L, live_levels g depth tmp acc = Ok L /\ length L = S (k + depth) /\
    (forall x, nth_error acc 0 = Some x -> nth_error L 0 = Some x) /\
    (forall j l, nth_error L j = Some l -> (0 < j -> is_set l) /\
     forall p, In p l <-> exists q w, In q qs /\ length w = j /\ run g q w = p).
Proof.
  intros W. induction depth; intros tmp acc k HT Ht Hk HA; cbn [live_levels].
  - exists acc. repeat split; auto; try lia; apply (HA j l); auto.
  - destruct (live_step_spec g W tmp HT) as (l & E & HS & Hl). rewrite E. cbn [bind].
    assert (Hl' : forall p, In p l <-> exists q w, In q qs /\ length w = S k /\ run g q w = p).
    { intros p. rewrite Hl. split.
      - intros (q & b & A & <-). apply Ht in A as (q0 & w & A & B & <-).
        exists q0, (w ++ [b]). rewrite app_length, run_app. cbn. repeat split; auto. lia.
      - intros (q0 & w & A & B & <-).
        destruct (exists_last (l := w)) as (w' & b & ->); [intros ->; discriminate|].
        rewrite app_length in B. simpl in B. rewrite run_app. cbn [run fold_left].
        exists (run g q0 w'), b. split; auto. apply Ht. exists q0, w'. repeat split; auto. lia. }
    destruct (IHdepth l (acc ++ [l]) (S k)) as (L & EL & LL & H0 & HL); auto.
    + intros q Hq. apply Hl in Hq as (p & b & A & <-). apply nxt_lt; auto.
    + rewrite app_length. simpl. lia.
    + intros j l' Hj. destruct (lt_dec j (length acc)).
      * rewrite nth_error_app1 in Hj by auto. auto.
      * assert (j < length (acc ++ [l])) by (eapply nth_error_lt; eauto).
        rewrite app_length in H. simpl in H. replace j with (length acc) in * by lia.
        rewrite nth_error_app2, Nat.sub_diag in Hj by lia. injection Hj as <-.
        split; auto. rewrite Hk. auto.
    + exists L. split; auto. split; [lia|]. split; auto.
      intros x Hx. apply H0. rewrite nth_error_app1; auto. lia.
Qed.

Theorem track_live_states_correct g qs depth : wf_graph g ->
  (forall q, In q qs -> q < size g) ->
  exists L, track_live_states g qs depth = Ok L /\ length L = S depth /\
    nth_error L 0 = Some qs /\
    forall k l, nth_error L k = Some l -> (0 < k -> is_set l) /\
      forall p, In p l <-> exists q w, In q qs /\ length w = k /\ run_from g q w = Ok p.
Proof.
  intros W HQ. unfold track_live_states.
  destruct (live_levels_spec g qs W depth (set_of qs) [qs] 0) as (L & E & LL & H0 & HL).
  - intros q Hq. apply HQ, set_of_In; auto.
  - intros p. rewrite set_of_In. split.
    + intros H. exists p, []. auto.
    + intros (q & [|b w] & A & B & <-); [auto|discriminate].
  - reflexivity.
  - intros [|j] l Hj; [|destruct j; discriminate]. injection Hj as <-. split; [lia|].
    intros p. split.
    + intros H. exists p, []. auto.
    + intros (q & [|b w] & A & B & <-); [auto|discriminate].
  - exists L. split; auto. split; auto. split; [apply H0; reflexivity|].
    intros k l Hk. destruct (HL k l Hk) as [A B]. split; auto.
    intros p. rewrite B. split; intros (q & w & C & D & F); exists q, w; repeat split; auto;
      rewrite run_from_run in * by auto; congruence.
Qed.
