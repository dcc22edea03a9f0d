(** Lemmas for C70: what the subset construction prints is determined by which words lead to the
    same set of states. *)
From Coq Require Import List Arith Bool NArith ZArith Ascii Lia.
Import ListNotations.
From Verif Require Import Base BaseFacts GraphModel Spec GraphFacts FromNfa GraphOps TextModel TextSpec TextFacts TextClaims Canonical.
Local Open Scope list_scope.

(** * Two automata numbered in the order of the subset construction, related state by state *)
Section Same.
Context (a b : Graph) (Wa : wf_graph a) (Wb : wf_graph b).
Context (Na : numbered a) (Nb : numbered b).
Context (Ra : forall q, q < size a -> dfa_reaches a q) (Rb : forall q, q < size b -> dfa_reaches b q).
Context (R : nat -> nat -> Prop).
Context (R_left : forall p p' q, R p q -> R p' q -> p = p') (R_right : forall p q q', R p q -> R p q' -> q = q').
Context (R_init : R 0 0) (R_nxt : forall p q x, R p q -> R (nxt a p x) (nxt b q x)).
Context (R_fin : forall p q, R p q -> fin a p = fin b q).

Lemma same_seq m m' : Forall2 R (seq 0 m) (seq 0 m') -> m = m' /\ forall k, k < m -> R k k.
Proof.
  intros F. assert (E : m = m').
  { assert (E : length (seq 0 m) = length (seq 0 m')) by (induction F; cbn; auto). rewrite !seq_length in E. exact E. }
  split; auto. subst m'. intros k Hk.
  assert (G : forall n s, Forall2 R (seq s n) (seq s n) -> forall i, i < n -> R (s + i) (s + i)).
  { clear. induction n as [|n IH]; intros s F i Hi; [lia|]. cbn [seq] in F. inversion F; subst.
    destruct i as [|i]; [rewrite Nat.add_0_r; auto|]. rewrite Nat.add_succ_r, <- Nat.add_succ_l.
    apply IH; auto. lia. }
  exact (G m 0 F k Hk).
Qed.
Lemma same_steps n :
  (n <= size a /\ n <= size b /\ forall k, k < n -> R k k) \/
  (size a = size b /\ forall k, k < size a -> R k k).
Proof.
  induction n as [|n IH]; [left; split; [lia|split; [lia|intros; lia]]|].
  destruct IH as [(H1 & H2 & H3)|]; [|auto].
  destruct (firsts a n Na H1) as (m & Em & Lm). destruct (firsts b n Nb H2) as (m' & Em' & Lm').
  assert (F : Forall2 R (0 :: flat_map (succs a) (seq 0 n)) (0 :: flat_map (succs b) (seq 0 n))).
  { constructor; [apply R_init|].
    assert (G : forall l, (forall k, In k l -> R k k) -> Forall2 R (flat_map (succs a) l) (flat_map (succs b) l)).
    { induction l as [|k l IHl]; intros Hl; cbn [flat_map]; [constructor|].
      unfold succs at 1 3. cbn [app]. constructor; [apply R_nxt, Hl; simpl; auto|].
      constructor; [apply R_nxt, Hl; simpl; auto|]. apply IHl. intros; apply Hl; simpl; auto. }
    apply G. intros k Hk. apply in_seq in Hk. apply H3. lia. }
  apply (dedup_rel Nat.eq_dec Nat.eq_dec R R_left R_right) in F. rewrite Em, Em' in F.
  apply same_seq in F as [<- HR].
  assert (Hm : 0 < m).
  { assert (I0 : In 0 (seq 0 m)) by (rewrite <- Em; apply dedup_In; simpl; auto). apply in_seq in I0. lia. }
  destruct (le_lt_dec m n) as [Hle|Hlt].
  - right.
    assert (C : forall g, dedup Nat.eq_dec (0 :: flat_map (succs g) (seq 0 n)) = seq 0 m ->
                forall q x, q < n -> nxt g q x < n).
    { intros g E q x Hq. assert (I0 : In (nxt g q x) (seq 0 m)).
      { rewrite <- E. apply dedup_In. right. apply in_flat_map. exists q. split; [apply in_seq; lia|].
        destruct x; simpl; auto. }
      apply in_seq in I0. lia. }
    assert (Sa := closed_all a n Wa Na Ra ltac:(lia) (C a Em)).
    assert (Sb := closed_all b n Wb Nb Rb ltac:(lia) (C b Em')).
    split; [lia|]. intros k Hk. apply H3. lia.
  - left. split; [lia|]. split; [lia|]. intros k Hk. apply HR. lia.
Qed.
Lemma same_states : size a = size b /\ initial_state a = initial_state b /\
  (forall q, q < size a -> fin a q = fin b q) /\ (forall q x, q < size a -> nxt a q x = nxt b q x).
Proof.
  destruct (same_steps (S (size a))) as [(H & _)|[ES HR]]; [lia|].
  split; auto. split; [destruct Na, Nb; congruence|]. split; [intros q Hq; apply R_fin, HR; auto|].
  intros q x Hq. specialize (HR q Hq) as H1. apply (R_nxt q q x) in H1.
  assert (Hl : nxt a q x < size a) by (apply nxt_lt; auto). specialize (HR _ Hl) as H2. eapply R_right; eauto.
Qed.
End Same.

(** A well-formed automaton is determined by its initial state, transitions and accepting states. *)
Lemma graph_same a b : wf_graph a -> wf_graph b -> g_sad a = g_sad b -> size a = size b -> initial_state a = initial_state b ->
  (forall q, q < size a -> fin a q = fin b q) -> (forall q x, q < size a -> nxt a q x = nxt b q x) -> a = b.
Proof.
  intros Wa Wb ED ES EI EF EN. pose proof Wa as Wa0. pose proof Wb as Wb0.
  apply wf_graph_iff in Wa as (_ & Fa & Ea & La & _ & Sa). apply wf_graph_iff in Wb as (_ & Fb & Eb & Lb & _ & Sb).
  rewrite Ea, Eb.
  assert (E1 : g_delta a = g_delta b).
  { apply nth_error_ext. intros q. destruct (lt_dec q (size a)) as [Hq|Hq].
    - pose proof (EN q false Hq) as E0. pose proof (EN q true Hq) as E1. unfold nxt in E0, E1.
      unfold size in *. destruct (nth_error (g_delta a) q) as [[[l x] y]|] eqn:Qa; [|apply nth_error_None in Qa; lia].
      destruct (nth_error (g_delta b) q) as [[[l' x'] y']|] eqn:Qb; [|apply nth_error_None in Qb; lia].
      apply La in Qa. apply Lb in Qb. cbn in E0, E1. congruence.
    - unfold size in *. transitivity (@None (nat * nat * nat)); [|symmetry]; apply nth_error_None; lia. }
  assert (E2 : g_final a = g_final b).
  { apply is_set_ext; auto. intros q. unfold fin in EF. split; intros H.
    - apply smem_In. rewrite <- EF; [apply smem_In; auto|apply Fa; auto].
    - apply smem_In. rewrite EF; [apply smem_In; auto|]. rewrite ES. apply Fb; auto. }
  change (g_init a = g_init b) in EI. rewrite E1, E2, EI, ED. reflexivity.
Qed.

(** Two such automata are the same if the same pairs of words lead to the same state. *)
Lemma pattern_same a b : wf_graph a -> wf_graph b -> numbered a -> numbered b ->
  (forall q, q < size a -> dfa_reaches a q) -> (forall q, q < size b -> dfa_reaches b q) ->
  (forall w, accepts a w = accepts b w) ->
  (forall u v, run a 0 u = run a 0 v <-> run b 0 u = run b 0 v) -> g_sad a = g_sad b -> a = b.
Proof.
  intros Wa Wb Na Nb Ra Rb L C ED.
  destruct (same_states a b Wa Wb Na Nb Ra Rb (fun p q => exists w, run a 0 w = p /\ run b 0 w = q))
    as (H1 & H2 & H3 & H4); [..|apply graph_same; auto].
  - intros p p' q (u & <- & E) (v & <- & E'). apply C. congruence.
  - intros p q q' (u & E & <-) (v & E' & <-). apply C. congruence.
  - exists []. auto.
  - intros p q x (u & <- & <-). exists (u ++ [x]). rewrite !run_app. auto.
  - intros p q (u & <- & <-). specialize (L u). rewrite !accepts_run in L by auto.
    destruct Na as [Ia _], Nb as [Ib _]. rewrite Ia, Ib in L. congruence.
Qed.

(** * The sets of the subset construction *)
Lemma sdelta_ext dn q0n u v : is_set q0n ->
  sdelta dn q0n u = sdelta dn q0n v <-> forall q, (exists i, In i q0n /\ nfa_path dn i u q) <-> (exists i, In i q0n /\ nfa_path dn i v q).
Proof.
  intros HS. split.
  - intros E q. rewrite <- !sdelta_In, E. tauto.
  - intros H. apply is_set_ext; try (apply sdelta_is_set; auto). intros q. rewrite !sdelta_In. apply H.
Qed.
Lemma from_nfa_pattern q0n Fn dn g : is_set q0n -> from_nfa q0n Fn dn = Ok g ->
  forall u v, run g 0 u = run g 0 v <->
    forall q, (exists i, In i q0n /\ nfa_path dn i u q) <-> (exists i, In i q0n /\ nfa_path dn i v q).
Proof.
  intros HS E u v. rewrite <- sdelta_ext by auto.
  pose proof (from_nfa_spec q0n Fn dn HS) as G. rewrite E in G.
  destruct G as (_ & W & H0 & K & HN & HL & HK & H).
  pose proof (from_nfa_run _ _ _ _ _ W H0 HK H u 0 q0n HK) as A.
  pose proof (from_nfa_run _ _ _ _ _ W H0 HK H v 0 q0n HK) as B.
  split; intros EQ.
  - rewrite EQ in A. congruence.
  - rewrite NoDup_nth_error in HN. apply HN; [eapply nth_error_lt; eauto|]. congruence.
Qed.

(** Equal texts come from automata with the same transitions. *)
Lemma dump_run a b t : wf_graph a -> wf_graph b -> (N.of_nat (size a) <= int_max + 1)%N -> (N.of_nat (size b) <= int_max + 1)%N ->
  dump a = Ok t -> dump b = Ok t -> with_sad a [] = with_sad b [].
Proof.
  intros Wa Wb Sa Sb Ea Eb. pose proof (dump_round_trip _ _ Wa Sa Ea) as Q1. pose proof (dump_round_trip _ _ Wb Sb Eb) as Q2.
  rewrite Q1 in Q2. injection Q2 as Q2. unfold with_sad. congruence.
Qed.

Lemma from_nfa_sad q0n Fn dn g : from_nfa q0n Fn dn = Ok g -> g_sad g = [].
Proof.
  unfold from_nfa. destruct (loop _ _ _) as [s|]; cbn [bind]; [|discriminate].
  destruct (get_or_create_state _ _ _) as [[q ?] df]. destruct (force_delta df); cbn [bind]; [|discriminate]. intros E.
  apply graph_new_ok in E as (_ & _ & ->). reflexivity.
Qed.

(** The subset construction gives the same automaton for two nondeterministic automata with the same
    words that bring the same words together. *)
Lemma from_nfa_same q0 F dn q0' F' dn' a b : is_set q0 -> is_set q0' -> from_nfa q0 F dn = Ok a -> from_nfa q0' F' dn' = Ok b ->
  (forall w, nfa_accepts q0 F dn w <-> nfa_accepts q0' F' dn' w) ->
  (forall u v, (forall q, (exists i, In i q0 /\ nfa_path dn i u q) <-> (exists i, In i q0 /\ nfa_path dn i v q)) <->
               (forall q, (exists i, In i q0' /\ nfa_path dn' i u q) <-> (exists i, In i q0' /\ nfa_path dn' i v q))) -> a = b.
Proof.
  intros S S' Ea Eb L P.
  assert (Wa := from_nfa_wf _ _ _ _ S Ea). assert (Wb := from_nfa_wf _ _ _ _ S' Eb).
  pose proof (from_nfa_language _ _ _ _ S Ea) as La. pose proof (from_nfa_language _ _ _ _ S' Eb) as Lb.
  pose proof (from_nfa_pattern _ _ _ _ S Ea) as Pa. pose proof (from_nfa_pattern _ _ _ _ S' Eb) as Pb.
  apply (pattern_same a b Wa Wb (from_nfa_numbered _ _ _ _ S Ea) (from_nfa_numbered _ _ _ _ S' Eb)
           (from_nfa_reachable _ _ _ _ S Ea) (from_nfa_reachable _ _ _ _ S' Eb)).
  - intros w. destruct (La w) as (A1 & A2 & A3). destruct (Lb w) as (B1 & B2 & B3). specialize (L w).
    unfold dfa_accepts, dfa_rejects in *. destruct A3 as [A3|A3]; rewrite A3.
    + symmetry. tauto.
    + symmetry. apply B2. rewrite <- L. apply A2. exact A3.
  - intros u v. rewrite Pa, Pb. apply P.
  - rewrite (from_nfa_sad _ _ _ _ Ea), (from_nfa_sad _ _ _ _ Eb). reflexivity.
Qed.

Lemma nfa_dump_iff q0 F dn q0' F' dn' a b ta tb : is_set q0 -> is_set q0' -> from_nfa q0 F dn = Ok a -> from_nfa q0' F' dn' = Ok b ->
  (N.of_nat (size a) <= int_max + 1)%N -> (N.of_nat (size b) <= int_max + 1)%N -> dump a = Ok ta -> dump b = Ok tb ->
  (ta = tb <->
   (forall w, nfa_accepts q0 F dn w <-> nfa_accepts q0' F' dn' w) /\
   forall u v, (forall q, (exists i, In i q0 /\ nfa_path dn i u q) <-> (exists i, In i q0 /\ nfa_path dn i v q)) <->
               (forall q, (exists i, In i q0' /\ nfa_path dn' i u q) <-> (exists i, In i q0' /\ nfa_path dn' i v q))).
Proof.
  intros S S' Ea Eb Sa Sb Da Db.
  assert (Wa := from_nfa_wf _ _ _ _ S Ea). assert (Wb := from_nfa_wf _ _ _ _ S' Eb).
  pose proof (from_nfa_language _ _ _ _ S Ea) as La. pose proof (from_nfa_language _ _ _ _ S' Eb) as Lb.
  pose proof (from_nfa_pattern _ _ _ _ S Ea) as Pa. pose proof (from_nfa_pattern _ _ _ _ S' Eb) as Pb.
  split.
  - intros <-. assert (Q := dump_run a b ta Wa Wb Sa Sb Da Db).
    assert (QR : forall w, run a 0 w = run b 0 w).
    { intros w. change (run (with_sad a []) 0 w = run (with_sad b []) 0 w). rewrite Q. reflexivity. }
    assert (QA : forall w, accepts a w = accepts b w).
    { intros w. change (accepts (with_sad a []) w = accepts (with_sad b []) w). rewrite Q. reflexivity. }
    split.
    + intros w. destruct (La w) as (<- & _). destruct (Lb w) as (<- & _). unfold dfa_accepts. rewrite QA. tauto.
    + intros u v. rewrite <- Pa, <- Pb, !QR. tauto.
  - intros (L & P). assert (E : a = b) by (eapply (from_nfa_same q0 F dn q0' F' dn'); eauto). congruence.
Qed.

(** * Renumbered states *)
Section Renumbered.
Context (r : nat -> nat) (n : nat) (q0 F : list nat) (d : nfa_table) (q0' F' : list nat) (d' : nfa_table).
Context (S0 : is_set q0) (S0' : is_set q0') (Ld : length d = n) (Ld' : length d' = n).
Context (r_lt : forall q, q < n -> r q < n).
Context (r_inj : forall p q, p < n -> q < n -> r p = r q -> p = q).
Context (q0_lt : forall i, In i q0 -> i < n).
Context (q0_fwd : forall i, In i q0 -> In (r i) q0') (q0_bwd : forall j, In j q0' -> exists i, In i q0 /\ j = r i).
Context (e_fwd : forall q b p, q < n -> nfa_edge d q b p -> p < n /\ nfa_edge d' (r q) b (r p)).
Context (e_bwd : forall q b p', q < n -> nfa_edge d' (r q) b p' -> exists p, nfa_edge d q b p /\ p' = r p).
Context (F_iff : forall q, q < n -> (In q F <-> In (r q) F')).

Lemma ren_fwd w : forall q p, q < n -> nfa_path d q w p -> p < n /\ nfa_path d' (r q) w (r p).
Proof.
  induction w as [|b w IH]; intros q p Hq H; inversion H as [|x c q1 v y HE HP]; subst; [split; auto; constructor|].
  destruct (e_fwd q b q1) as [H1 H2]; auto. destruct (IH q1 p) as [H6 H7]; auto.
  split; auto. econstructor; eauto.
Qed.
Lemma ren_bwd w : forall q p', q < n -> nfa_path d' (r q) w p' -> exists p, p < n /\ nfa_path d q w p /\ p' = r p.
Proof.
  induction w as [|b w IH]; intros q p' Hq H; inversion H as [|x c q1 v y HE HP]; subst; [exists q; split; auto; split; auto; constructor|].
  destruct (e_bwd q b q1) as (p1 & H1 & ->); auto. destruct (e_fwd q b p1) as [H2 _]; auto.
  destruct (IH p1 p') as (p & H6 & H7 & H8); auto. exists p. split; auto. split; auto. econstructor; eauto.
Qed.
Lemma ren_reach w p : p < n ->
  (exists i, In i q0 /\ nfa_path d i w p) <-> (exists i, In i q0' /\ nfa_path d' i w (r p)).
Proof.
  intros Hp. split.
  - intros (i & Hi & H). exists (r i). split; auto. apply ren_fwd in H; auto. tauto.
  - intros (j & Hj & H). apply q0_bwd in Hj as (i & Hi & ->). apply ren_bwd in H as (p1 & H1 & H2 & H3); auto.
    apply r_inj in H3; auto. subst p1. eauto.
Qed.
Lemma ren_sets u v :
  (forall q, (exists i, In i q0 /\ nfa_path d i u q) <-> (exists i, In i q0 /\ nfa_path d i v q)) <->
  (forall q, (exists i, In i q0' /\ nfa_path d' i u q) <-> (exists i, In i q0' /\ nfa_path d' i v q)).
Proof.
  assert (A : forall w p', (exists i, In i q0' /\ nfa_path d' i w p') -> exists p, p < n /\ p' = r p).
  { intros w p' (j & Hj & H). apply q0_bwd in Hj as (i & Hi & ->). apply ren_bwd in H as (p & H1 & H2 & H3); eauto. }
  assert (B : forall w p, (exists i, In i q0 /\ nfa_path d i w p) -> p < n).
  { intros w p (i & Hi & H). apply ren_fwd in H; auto. tauto. }
  split; intros H q; split; intros HQ.
  - destruct (A _ _ HQ) as (p & Hp & ->). apply (ren_reach v p Hp), H, (ren_reach u p Hp), HQ.
  - destruct (A _ _ HQ) as (p & Hp & ->). apply (ren_reach u p Hp), H, (ren_reach v p Hp), HQ.
  - pose proof (B _ _ HQ) as Hp. apply (ren_reach v q Hp), H, (ren_reach u q Hp), HQ.
  - pose proof (B _ _ HQ) as Hp. apply (ren_reach u q Hp), H, (ren_reach v q Hp), HQ.
Qed.
Lemma ren_accepts w : nfa_accepts q0 F d w <-> nfa_accepts q0' F' d' w.
Proof.
  split.
  - intros (i & q & Hi & H & HF). apply ren_fwd in H as [Hq H]; auto.
    exists (r i), (r q). split; auto. split; auto. apply F_iff; auto.
  - intros (j & q & Hj & H & HF). apply q0_bwd in Hj as (i & Hi & ->). apply ren_bwd in H as (p & H1 & H2 & ->); auto.
    exists i, p. split; auto. split; auto. apply F_iff; auto.
Qed.
Lemma ren_from_nfa : exists g, from_nfa q0 F d = Ok g /\ from_nfa q0' F' d' = Ok g.
Proof.
  assert (D : nfa_no_dangling q0 d).
  { intros q w q' Hq H. rewrite Ld. apply ren_fwd in H; auto. tauto. }
  assert (D' : nfa_no_dangling q0' d').
  { intros q w q' Hq H. rewrite Ld'. apply q0_bwd in Hq as (i & Hi & ->). apply ren_bwd in H as (p & H1 & _ & ->); auto. }
  apply (proj1 (from_nfa_ok_iff q0 F d S0)) in D as (a & Ea). apply (proj1 (from_nfa_ok_iff q0' F' d' S0')) in D' as (b & Eb).
  exists a. split; auto. rewrite Eb. f_equal. symmetry.
  eapply (from_nfa_same q0 F d q0' F' d'); eauto using ren_accepts, ren_sets.
Qed.
End Renumbered.

(** An injection of the numbers below n into themselves is onto. *)
Lemma injection_onto r n : (forall q, q < n -> r q < n) -> (forall p q, p < n -> q < n -> r p = r q -> p = q) ->
  forall p, p < n -> exists q, q < n /\ r q = p.
Proof.
  intros L I p Hp.
  assert (N : NoDup (map r (seq 0 n))).
  { assert (G : forall l, NoDup l -> (forall q, In q l -> q < n) -> NoDup (map r l)).
    { induction l as [|x l IH]; intros ND HL; [constructor|]. inversion ND; subst. cbn. constructor.
      - rewrite in_map_iff. intros (y & E & Hy). apply I in E; [subst; auto|apply HL; simpl; auto|apply HL; simpl; auto].
      - apply IH; auto. intros; apply HL; simpl; auto. }
    apply G; [apply seq_NoDup|]. intros q Hq. apply in_seq in Hq. lia. }
  assert (Inc : incl (seq 0 n) (map r (seq 0 n))).
  { apply NoDup_length_incl; auto; [rewrite map_length; auto|].
    intros y Hy. apply in_map_iff in Hy as (q & <- & Hq). apply in_seq in Hq. apply in_seq. specialize (L q). lia. }
  specialize (Inc p). rewrite in_map_iff, in_seq in Inc. destruct Inc as (q & E & Hq); [lia|].
  apply in_seq in Hq. exists q. split; [lia|auto].
Qed.

(** Reversal of a renumbered deterministic automaton. *)
Lemma ren_reversed r g g' : wf_graph g -> wf_graph g' -> size g = size g' ->
  (forall q, q < size g -> r q < size g) -> (forall p q, p < size g -> q < size g -> r p = r q -> p = q) ->
  r (initial_state g) = initial_state g' ->
  (forall q b, q < size g -> nxt g' (r q) b = r (nxt g q b)) -> (forall q, q < size g -> fin g' (r q) = fin g q) ->
  reversed g = reversed g'.
Proof.
  intros W W' ES L I HI HN HF. pose proof (injection_onto r (size g) L I) as O.
  rewrite !reversed_unfold by auto.
  pose proof (init_lt g W) as Hi.
  destruct (ren_from_nfa r (size g) (g_final g) [initial_state g] (rev_delta g) (g_final g') [initial_state g'] (rev_delta g'))
    as (x & E & E'); auto; try congruence.
  - apply wf_graph_iff in W. tauto.
  - apply wf_graph_iff in W'. tauto.
  - unfold rev_delta. rewrite map_length, seq_length. auto.
  - unfold rev_delta. rewrite map_length, seq_length. auto.
  - intros i H. apply smem_In in H. eapply fin_lt; eauto.
  - intros i H. apply smem_In in H. apply smem_In. change (fin g' (r i) = true). rewrite HF; auto. eapply fin_lt; eauto.
  - intros j H. apply smem_In in H. change (fin g' j = true) in H.
    assert (Hj : j < size g) by (rewrite ES; eapply fin_lt; eauto).
    destruct (O j Hj) as (q & Hq & <-). exists q. split; auto. apply smem_In. change (fin g q = true). rewrite <- HF; auto.
  - intros q b p Hq H. apply rev_delta_edge in H as (H1 & H2 & H3). split; auto.
    apply rev_delta_edge. rewrite <- ES. split; auto. split; auto. rewrite HN by auto. congruence.
  - intros q b p' Hq H. apply rev_delta_edge in H as (H1 & H2 & H3). rewrite <- ES in *.
    destruct (O p' H2) as (p & Hp & <-). exists p. split; auto. apply rev_delta_edge. split; auto. split; auto.
    rewrite HN in H3 by auto. apply I in H3; auto. apply nxt_lt; auto.
  - intros q Hq. cbn. rewrite <- HI. split; intros [H|[]]; left; [congruence|]. apply I; auto.
Qed.
