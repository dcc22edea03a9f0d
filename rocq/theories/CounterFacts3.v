(** The automaton of a tester, the plaintext runner, and one round of BTTRunner: lemmas. *)
From Coq Require Import List Arith Bool NArith NArith.Ndigits ZArith Lia Permutation.
From Coq Require Import ZifyBool ZifyNat ZifyN.
Import ListNotations.
From Verif Require Import Base BaseFacts GraphModel Spec GraphFacts GraphOps TorusModel TfheSpec TorusFacts TfheFacts RunnerModel RunnerFacts
  RunnerSpec LookupFacts ReachFacts BlockFacts CounterModel CounterSpec CounterFacts1 CounterFacts2.
Local Open Scope nat_scope.

Lemma nth_nth_error' : forall {A} (l : list A) j d, nth j l d = match nth_error l j with Some x => x | None => d end.
Proof. induction l as [|x l IH]; intros [|j] d; cbn; auto. Qed.

(** ** The automaton *)
Definition edges_ok (b : BTT) : Prop := 0 < btt_size b /\ forall e, In e (bt_delta b) -> ed_to e < btt_size b.
Lemma wf_edges : forall b, btt_wf b -> edges_ok b.
Proof. intros b (H & HE & _). split; [exact H|]. intros e He. apply (HE e He). Qed.

Section Auto.
Context (b : BTT) (EO : edges_ok b).
Notation n := (btt_size b).
Notation k := (length (bt_spec b)).

Lemma size_edges : forall q x, q < n -> exists e, edge_at b q x e.
Proof.
  intros q x Hq. unfold edge_at, btt_size in *. apply nth_error_some_lt.
  pose proof (Nat.div_mod (length (bt_delta b)) 2 ltac:(lia)). destruct x; cbn [Nat.b2n]; lia.
Qed.
Lemma get_edge_ok : forall q e0 e1, edge_at b q false e0 -> edge_at b q true e1 -> get_edge b q = Ok (e0, e1).
Proof.
  intros q e0 e1 H0 H1. unfold get_edge, at_. unfold edge_at in *. cbn [Nat.b2n] in *.
  replace (q * 2 + 1) with (2 * q + 1) by lia. replace (q * 2) with (2 * q + 0) by lia. rewrite H0. cbn [bind]. rewrite H1. reflexivity.
Qed.
Definition succ (q : nat) (x : bool) : nat :=
  match nth_error (bt_delta b) (2 * q + Nat.b2n x) with Some e => ed_to e | None => 0 end.
Lemma succ_edge : forall q x e, edge_at b q x e -> succ q x = ed_to e.
Proof. intros q x e H. unfold succ. rewrite H. reflexivity. Qed.
Definition agraph : Graph := graph_of 0 (seq 0 n) (map (fun q => (q, succ q false, succ q true)) (seq 0 n)).

Lemma to_graph_ok : to_graph b = Ok agraph.
Proof.
  unfold to_graph. rewrite (mapM_pure _ (fun q => (q, succ q false, succ q true))).
  - cbn [bind]. apply graph_new_good.
    + intros r Hr x. rewrite map_length, seq_length. apply in_map_iff in Hr as (q & <- & Hq). apply in_seq in Hq.
      destruct (size_edges q x) as [e He]; [lia|]. assert (tgt x (q, succ q false, succ q true) = ed_to e) as ->.
      { destruct x; cbn; apply succ_edge, He. }
      apply EO. eapply nth_error_In, He.
    + intros q Hq. rewrite map_length, seq_length. apply in_seq in Hq. lia.
  - intros q Hq. apply in_seq in Hq. destruct (size_edges q false) as [e0 H0]; [lia|]. destruct (size_edges q true) as [e1 H1]; [lia|].
    rewrite (get_edge_ok q e0 e1 H0 H1). cbn [bind]. rewrite (succ_edge _ _ _ H0), (succ_edge _ _ _ H1). reflexivity.
Qed.
Lemma agraph_size : size agraph = n.
Proof. unfold size, agraph, graph_of. cbn [g_delta]. rewrite map_length, seq_length. reflexivity. Qed.
Lemma agraph_wf : wf_graph agraph.
Proof.
  apply graph_of_wf.
  - intros r Hr x. rewrite map_length, seq_length. apply in_map_iff in Hr as (q & <- & Hq). apply in_seq in Hq.
    destruct (size_edges q x) as [e He]; [lia|]. assert (tgt x (q, succ q false, succ q true) = ed_to e) as ->.
    { destruct x; cbn; apply succ_edge, He. }
    apply EO. eapply nth_error_In, He.
  - intros q Hq. rewrite map_length, seq_length. apply in_seq in Hq. lia.
  - intros q l q0 q1 H. rewrite nth_error_map in H. destruct (nth_error (seq 0 n) q) as [m|] eqn:Em; [|discriminate].
    cbn in H. injection H as <- _ _. pose proof (nth_error_lt _ _ _ Em) as L. rewrite seq_length in L. rewrite nth_error_seq in Em by auto. injection Em as <-. lia.
  - rewrite map_length, seq_length. apply EO.
  - apply is_set_map_seq.
Qed.
Lemma agraph_nxt : forall q x e, edge_at b q x e -> q < n -> nxt agraph q x = ed_to e.
Proof.
  intros q x e He Hq. unfold nxt, agraph, graph_of. cbn [g_delta]. rewrite nth_error_map, nth_error_seq by auto. cbn [option_map Nat.add].
  destruct x; cbn [tgt fst snd]; apply succ_edge, He.
Qed.
Lemma edge_to_lt : forall q x e, edge_at b q x e -> ed_to e < n.
Proof. intros q x e He. apply EO. eapply nth_error_In, He. Qed.
Lemma walk_run : forall w q, q < n -> walk b q w (run agraph q w).
Proof.
  induction w as [|x w IH]; intros q Hq; [constructor|]. destruct (size_edges q x Hq) as [e He].
  cbn [run fold_left]. fold (run agraph (nxt agraph q x) w). rewrite (agraph_nxt q x e He Hq). econstructor; [exact He|].
  apply IH. eapply edge_to_lt, He.
Qed.
Lemma run_walk : forall q w q', walk b q w q' -> q < n -> q' = run agraph q w.
Proof.
  induction 1 as [|q x e w q' He _ IH]; intros Hq; [reflexivity|].
  cbn [run fold_left]. rewrite (agraph_nxt q x e He Hq). apply IH. eapply edge_to_lt, He.
Qed.

End Auto.

(** ** The plaintext runner *)
Section Plain.
Context (b : BTT) (WF : btt_wf b).
Let EO : edges_ok b := wf_edges b WF.
Notation n := (btt_size b).
Notation k := (length (bt_spec b)).
Notation agraph := (agraph b).
Definition count (p : plain) (j : nat) : N := nth j (p_counter p) 0%N.
Definition tests (p : plain) : list bool :=
  map (fun j => match nth_error (bt_spec b) j with Some (_, v) => (count p j =? v)%N | None => false end) (seq 0 k).

Lemma nth_count : forall p j, length (p_counter p) = k -> j < k -> nth_error (p_counter p) j = Some (count p j).
Proof. intros p j L Hj. unfold count. apply nth_error_nth'. lia. Qed.

Lemma plain_tests : forall p, p_btt p = b -> p_cur p < n -> length (p_counter p) = k ->
  foldM (fun cur i =>
              do '(_, target) <- at_ (bt_spec b) i;
              do c <- at_ (p_counter p) i;
              let satisfied := (c =? target)%N in
              do '(e0, e1) <- get_edge b cur;
              Ok (ed_to (if satisfied then e1 else e0)))
            (seq 0 k) (p_cur p) = Ok (run agraph (p_cur p) (tests p)).
Proof.
  intros p EB HC HL. unfold tests.
  assert (G : forall l q, (forall j, In j l -> j < k) -> q < n ->
    foldM (fun cur i => do '(_, target) <- at_ (bt_spec b) i; do c <- at_ (p_counter p) i;
              let satisfied := (c =? target)%N in do '(e0, e1) <- get_edge b cur; Ok (ed_to (if satisfied then e1 else e0))) l q
    = Ok (run agraph q (map (fun j => match nth_error (bt_spec b) j with Some (_, v) => (count p j =? v)%N | None => false end) l))).
  { induction l as [|j l IH]; intros q Hl Hq; [reflexivity|]. cbn [foldM map run fold_left].
    assert (Hj : j < k) by (apply Hl; left; auto).
    destruct (nth_error_some_lt (bt_spec b) j Hj) as [[w v] Es]. unfold at_ at 1. rewrite Es. cbn [bind].
    unfold at_ at 1. rewrite nth_count by auto. cbn [bind]. cbv zeta.
    destruct (size_edges b q false Hq) as [e0 H0]. destruct (size_edges b q true Hq) as [e1 H1].
    rewrite (get_edge_ok b q e0 e1 H0 H1). cbn [bind].
    destruct (count p j =? v)%N.
    - rewrite (agraph_nxt b q true e1 H1 Hq). apply IH; [intros; apply Hl; right; auto|eapply (edge_to_lt b EO), H1].
    - rewrite (agraph_nxt b q false e0 H0 Hq). apply IH; [intros; apply Hl; right; auto|eapply (edge_to_lt b EO), H0]. }
  apply G; auto. intros j Hj. apply in_seq in Hj. lia.
Qed.

Lemma resets_ok : forall l cs, (forall j, In j l -> j < length cs) ->
  exists cs', foldM (fun cs i => set_at cs i 0%N) l cs = Ok cs' /\ length cs' = length cs /\
    forall j, nth j cs' 0%N = if smem j l then 0%N else nth j cs 0%N.
Proof.
  induction l as [|i l IH]; intros cs H; cbn [foldM]; [eauto|].
  rewrite set_at_lt by (apply H; left; auto). cbn [bind].
  destruct (IH (upd i 0%N cs)) as (cs' & EC & LC & P). { intros j Hj. rewrite upd_length. apply H. right; auto. }
  exists cs'. split; [exact EC|]. split; [rewrite LC; apply upd_length|]. intros j. rewrite P. cbn [smem existsb]. fold (smem j l).
  destruct (smem j l); [destruct (j =? i); reflexivity|]. rewrite orb_false_r.
  destruct (Nat.eqb_spec j i) as [->|NE].
  - apply nth_error_nth. apply upd_eq. apply H. left; auto.
  - rewrite !nth_nth_error'. rewrite upd_neq by auto. reflexivity.
Qed.
Lemma incs_ok : forall l cs cs', NoDup l -> foldM plain_inc l cs = Ok cs' -> length cs' = length cs /\
    forall j, nth j cs' 0%N = (nth j cs 0 + (if smem j l then 1 else 0))%N.
Proof.
  induction l as [|i l IH]; intros cs cs' ND H; cbn [foldM] in H.
  - injection H as <-. split; [auto|]. intros j. cbn. lia.
  - inversion ND as [|? ? NI ND']; subst. apply bind_ok in H as (c1 & H1 & H2). unfold plain_inc in H1.
    apply bind_ok in H1 as (c & E1 & E2). destruct (c =? 2147483647)%N; [discriminate|].
    apply at_ok in E1. pose proof (nth_error_lt _ _ _ E1) as L. rewrite set_at_lt in E2 by auto. injection E2 as <-.
    destruct (IH _ _ ND' H2) as [LC P]. split; [rewrite LC; apply upd_length|]. intros j. rewrite P. cbn [smem existsb]. fold (smem j l).
    destruct (Nat.eqb_spec j i) as [->|NE].
    + apply smem_false in NI. rewrite NI. cbn [orb]. rewrite (nth_error_nth _ _ _ (upd_eq _ _ _ L)), (nth_error_nth _ _ _ E1). lia.
    + cbn [orb]. rewrite (nth_nth_error' (upd i _ cs)), upd_neq by auto. rewrite <- nth_nth_error'. reflexivity.
Qed.

Record plain_wf (p : plain) : Prop := mkPW { pw_btt : p_btt p = b; pw_cur : p_cur p < n; pw_len : length (p_counter p) = k }.
Lemma plain_new_wf : plain_wf (plain_new b).
Proof. constructor; cbn; [auto|apply WF|apply repeat_length]. Qed.
Lemma plain_step : forall p x p', plain_wf p -> plain_eval_one p x = Ok p' ->
  exists e, edge_at b (run agraph (p_cur p) (tests p)) x e /\ plain_wf p' /\ p_cur p' = ed_to e /\ p_accept p' = ed_accept e /\
    forall j, count p' j = ((if smem j (ed_reset e) then 0 else count p j) + (if smem j (ed_inc e) then 1 else 0))%N.
Proof.
  intros p x p' [EB HC HL] H. unfold plain_eval_one in H. cbv zeta in H. rewrite EB in H. rewrite plain_tests in H by auto. cbn [bind] in H.
  set (q := run agraph (p_cur p) (tests p)) in *.
  assert (Hq : q < n). { rewrite <- agraph_size. apply run_lt; [apply (agraph_wf b EO)|rewrite agraph_size; auto]. }
  destruct (size_edges b q false Hq) as [e0 H0]. destruct (size_edges b q true Hq) as [e1 H1].
  rewrite (get_edge_ok b q e0 e1 H0 H1) in H. cbn [bind] in H.
  set (e := if x then e1 else e0) in *. assert (He : edge_at b q x e) by (destruct x; auto).
  exists e. split; [exact He|]. pose proof WF as (_ & WE & _). destruct (WE e (nth_error_In _ _ He)) as (LT & ND & BD).
  destruct (resets_ok (ed_reset e) (p_counter p)) as (c1 & E1 & L1 & P1). { intros j Hj. rewrite HL. apply BD. auto. }
  rewrite E1 in H. cbn [bind] in H. apply bind_ok in H as (c2 & E2 & H). injection H as <-.
  destruct (incs_ok _ _ _ ND E2) as [L2 P2]. cbn [p_cur p_accept]. split; [constructor; cbn; auto; congruence|].
  split; [auto|]. split; [auto|]. intros j. unfold count. cbn [p_counter]. rewrite P2, P1. reflexivity.
Qed.
Lemma plain_wf_run : forall u p p', plain_wf p -> foldM plain_eval_one u p = Ok p' -> plain_wf p'.
Proof.
  induction u as [|x u IH]; intros p p' H E; cbn [foldM] in E; [injection E as <-; auto|].
  apply bind_ok in E as (p1 & E1 & E2). destruct (plain_step _ _ _ H E1) as (e & _ & W1 & _). eauto.
Qed.
End Plain.
