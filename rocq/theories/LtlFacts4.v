(** The automaton of a monitor and its words. *)
From Coq Require Import List Arith Bool Lia.
Import ListNotations.
From Verif Require Import Base BaseFacts GraphModel Spec FromNfa LtlModel LtlSpec LtlFacts1 LtlFacts2 LtlFacts3.

(** * The order of the variables *)
Lemma var2idx_find M n : (forall i j v, i < n -> j < n -> m_var M i = Some v -> m_var M j = Some v -> i = j) ->
  forall k, k <= n -> forall v i, find_key Nat.eq_dec v (var2idx M k) = Some i <-> i < k /\ m_var M i = Some v.
Proof.
  intros U. induction k as [|k IH]; intros HK v i.
  - cbn. split; [discriminate|lia].
  - unfold var2idx in *. rewrite seq_S, fold_left_app. cbn [fold_left Nat.add]. specialize (IH ltac:(lia)).
    set (m := fold_left _ (seq 0 k) []) in *. destruct (m_var M k) as [u|] eqn:EK.
    + destruct (find_key Nat.eq_dec u m) as [j|] eqn:EF.
      * apply IH in EF as (A & B). assert (j = k) by (eapply U; eauto; lia). lia.
      * rewrite find_key_app. destruct (find_key Nat.eq_dec v m) as [j|] eqn:EV.
        -- apply IH in EV as (A & B). split; [intros [= <-]; auto|]. intros (C & G). f_equal. eapply U; eauto; lia.
        -- cbn. destruct (Nat.eq_dec v u) as [->|N].
           ++ split; [intros [= <-]; split; [lia|auto]|]. intros (C & G). f_equal. eapply U; eauto; lia.
           ++ split; [discriminate|]. intros (C & G). destruct (Nat.eq_dec i k) as [->|]; [congruence|].
              assert (None = Some i) by (rewrite <- EV; apply IH; split; [lia|auto]). discriminate.
    + rewrite IH. split; intros (A & B); split; auto; try lia. destruct (Nat.eq_dec i k) as [->|]; [congruence|lia].
Qed.

Section Monitor.
Context (M : monitor) (n : nat).
Hypothesis HM : monitor_ok M n.
Notation v2i := (var2idx M n).
Notation ns := (m_ns M).
Notation ord := (ord v2i n).

Lemma v2i_find v i : find_key Nat.eq_dec v v2i = Some i <-> i < n /\ m_var M i = Some v.
Proof. apply (var2idx_find M n); auto. apply (mo_vars _ _ HM). Qed.
Lemma ordered_ord i b : ordered M n i b -> ord i b.
Proof.
  induction 1; cbn; auto. exists j. split; [apply v2i_find; split; [lia|auto]|]. auto.
Qed.

(** * Truth of a condition *)
Lemma sat_cofs w : forall pre b, ord (length pre) b -> length pre + length w = n ->
  (sat M (pre ++ w) b <-> has_true (cofs v2i (length pre) w b) = true).
Proof.
  induction w as [|x w IH]; intros pre b O L; cbn [cofs length] in *.
  - rewrite app_nil_r. destruct b as [| |v l h]; cbn.
    + split; [intros H; inversion H|discriminate].
    + split; auto. constructor.
    + destruct O as (j & _ & O & _). lia.
  - specialize (IH (pre ++ [x]) (cof v2i (length pre) x b)). rewrite app_length in IH. cbn [length] in IH.
    replace (length pre + 1) with (S (length pre)) in IH by lia. rewrite <- app_assoc in IH. cbn [app] in IH.
    rewrite <- IH; [|apply cof_ord; auto|lia].
    destruct b as [| |v l h]; cbn [cof]; try tauto. destruct O as (j & EJ & LJ & _). rewrite EJ.
    destruct (Nat.eqb_spec j (length pre)) as [->|N]; [|tauto].
    apply v2i_find in EJ as (_ & EV).
    assert (NX : nth_error (pre ++ x :: w) (length pre) = Some x) by (rewrite nth_error_app2, Nat.sub_diag by lia; auto).
    assert (UN : forall i y, m_var M i = Some v -> nth_error (pre ++ x :: w) i = Some y -> y = x).
    { intros i y A B. assert (i < n). { apply nth_error_lt in B. rewrite app_length in B. cbn [length] in B. lia. }
      assert (i = length pre) by (eapply (mo_vars _ _ HM); eauto; lia). subst. congruence. }
    split.
    + intros H. inversion H; subst; match goal with E1 : m_var M _ = Some v, E2 : nth_error _ _ = Some _ |- _ =>
        pose proof (UN _ _ E1 E2); subst x end; auto.
    + intros H. destruct x; [eapply sat_high|eapply sat_low]; eauto.
Qed.
Lemma sat_cofs0 val b : ord 0 b -> length val = n -> (sat M val b <-> has_true (cofs v2i 0 val b) = true).
Proof. intros O L. apply (sat_cofs val [] b O L). Qed.

Lemma has_true_more k : forall i b, i + k = n -> ord i b -> has_true b = true ->
  exists w, length w = k /\ has_true (cofs v2i i w b) = true.
Proof.
  induction k as [|k IH]; intros i b L O H; [exists []; auto|].
  assert (X : exists x, has_true (cof v2i i x b) = true).
  { destruct b as [| |v l h]; cbn [cof]; [discriminate|exists true; auto|]. destruct (find_key Nat.eq_dec v v2i) as [j|]; [|exists true; auto].
    destruct (j =? i); [|exists true; auto]. cbn in H. apply orb_true_iff in H as [H|H]; [exists false|exists true]; auto. }
  destruct X as (x & X). destruct (IH (S i) (cof v2i i x b)) as (w & A & B); auto; [lia|apply cof_ord; auto|].
  exists (x :: w). cbn. auto.
Qed.
Lemma cofs_app w1 : forall w2 i b, cofs v2i i (w1 ++ w2) b = cofs v2i (i + length w1) w2 (cofs v2i i w1 b).
Proof.
  induction w1 as [|x w1 IH]; intros w2 i b; cbn; [rewrite Nat.add_0_r; auto|]. rewrite IH. f_equal. lia.
Qed.
Lemma cofs_ord w : forall i b, ord i b -> ord (i + length w) (cofs v2i i w b).
Proof.
  induction w as [|x w IH]; intros i b O; cbn; [rewrite Nat.add_0_r; auto|]. replace (i + S (length w)) with (S i + length w) by lia.
  apply IH, cof_ord, O.
Qed.
Lemma begun_iff rest b : ord 0 b -> length rest <= n ->
  has_true (cofs v2i 0 rest b) = true <-> exists more, length (rest ++ more) = n /\ sat M (rest ++ more) b.
Proof.
  intros O L. split.
  - intros H. destruct (has_true_more (n - length rest) (length rest) (cofs v2i 0 rest b)) as (more & A & B); auto; [lia|apply (cofs_ord rest 0); auto|].
    exists more. split; [rewrite app_length; lia|]. apply sat_cofs0; auto; [rewrite app_length; lia|]. rewrite cofs_app. exact B.
  - intros (more & A & B). apply sat_cofs0 in B; auto. rewrite cofs_app in B. eapply cofs_has, B.
Qed.
Lemma edge_cond q q' c : q < ns -> In (q', c) (m_out M q) -> ord 0 c /\ has_true c = true /\ q' < ns.
Proof.
  intros Q H. assert (O : ord 0 c) by (eapply ordered_ord, (mo_ordered _ _ HM); eauto). split; auto.
  split; [|eapply (mo_dst _ _ HM); eauto]. destruct (mo_sat _ _ HM q q' c Q H) as (val & L & S).
  apply sat_cofs0 in S; auto. eapply cofs_has, S.
Qed.

(** * The table *)
Definition row_ok (D : NFADelta) (bit : bool) (es : list (nat * bdd)) (l : list State) : Prop :=
  match n with
  | O => l = []
  | S k => exists ls, l = concat ls /\
      Forall2 (fun e li => br (rep v2i n D ns (fst e) k) li (cof v2i 0 bit (snd e))) es ls
  end.
Record ginv (D : NFADelta) (done : nat -> list (nat * bdd)) : Prop := mkGinv {
  g_len : ns <= length D;
  g_closed : closed D;
  g_row : forall q, q < ns -> exists lbl l0 l1, nth_error D q = Some (lbl, l0, l1) /\
      row_ok D false (done q) l0 /\ row_ok D true (done q) l1 }.
Lemma row_ok_mono D D' bit es l : (forall s, ns <= s -> s < length D -> nth_error D' s = nth_error D s) ->
  row_ok D bit es l -> row_ok D' bit es l.
Proof.
  intros H. unfold row_ok. destruct n as [|k] eqn:En; auto. intros (ls & -> & F). exists ls. split; auto.
  induction F as [|e li es ls B F IH]; constructor; auto. cbv beta. eapply br_mono; [|exact B]. intros s. apply rep_mono; auto.
Qed.
Lemma row_ok_add D bit es l e a : row_ok D bit es l ->
  match n with O => a = [] | S k => br (rep v2i n D ns (fst e) k) a (cof v2i 0 bit (snd e)) end ->
  row_ok D bit (es ++ [e]) (l ++ a).
Proof.
  unfold row_ok. destruct n as [|k]; [intros -> ->; auto|]. intros (ls & -> & F) B. exists (ls ++ [a]).
  rewrite concat_app. cbn [concat]. rewrite app_nil_r. split; auto. apply Forall2_app; auto.
Qed.
Lemma ginv_ext D d d' : (forall q, q < ns -> d q = d' q) -> ginv D d -> ginv D d'.
Proof. intros H [A B C]. constructor; auto. intros q Hq. rewrite <- H by auto. auto. Qed.

Lemma add_edge_ginv D done src e : ginv D done -> src < ns -> In e (m_out M src) ->
  exists D', add_edge v2i n src D e = Ok D' /\ ginv D' (fun q => if q =? src then done q ++ [e] else done q).
Proof.
  intros G Hs He. destruct e as [dst c]. destruct (edge_cond src dst c Hs He) as (O & HT & Hd).
  destruct (g_row _ _ G src Hs) as (lbl & l0 & l1 & ER & R0 & R1).
  destruct (add_edge_ok v2i n ns src D dst c lbl l0 l1 O HT (g_len _ _ G) Hd Hs (g_closed _ _ G)) as (D' & a0 & a1 & E & L & C & K & ER' & B); auto.
  { intros Hn. destruct (g_row _ _ G dst Hd) as (lbl' & k0 & k1 & EK & Q0 & Q1). unfold row_ok in *. rewrite Hn in *. subst. eauto. }
  exists D'. split; auto. pose proof (g_len _ _ G) as GL. constructor; auto; [lia|].
  assert (MO : forall s, ns <= s -> s < length D -> nth_error D' s = nth_error D s) by (intros s A1 A2; apply K; auto; lia).
  intros q Hq. destruct (Nat.eqb_spec q src) as [->|N].
  - exists lbl, (l0 ++ a0), (l1 ++ a1). split; auto. split; apply row_ok_add; try (eapply row_ok_mono; eassumption);
      destruct n; cbn [fst snd]; tauto.
  - destruct (g_row _ _ G q Hq) as (lb & k0 & k1 & EQ & Q0 & Q1). exists lb, k0, k1. rewrite K by (auto; lia).
    split; auto. split; eapply row_ok_mono; eauto.
Qed.

Definition table_ok (D : NFADelta) : Prop := ginv D (m_out M).
Theorem table_built all : exists D, ltl_to_nfa_tuple M n all = Ok ([m_init M], seq 0 (if all then length D else ns), D) /\ table_ok D.
Proof.
  unfold ltl_to_nfa_tuple.
  destruct (foldM_ind (fun delta src => foldM (add_edge v2i n src) (m_out M src) delta)
    (fun srcs D => ginv D (fun q => if in_dec Nat.eq_dec q srcs then m_out M q else []))
    (seq 0 ns) (map (fun i => (i, [], [])) (seq 0 ns))) as (D & E & G).
  - constructor.
    + rewrite map_length, seq_length. auto.
    + intros q lbl l0 l1 s E I. rewrite nth_error_map in E. destruct (nth_error (seq 0 ns) q); [|discriminate].
      cbn in E. injection E as <- <- <-. destruct I.
    + intros q Hq. exists q, [], []. rewrite nth_error_map, nth_error_seq by auto. split; auto. cbn [in_dec].
      assert (K : forall bit, row_ok (map (fun i => (i, [], [])) (seq 0 ns)) bit [] []).
      { intros bit. unfold row_ok. destruct n; auto. exists []. split; auto. }
      split; apply K.
  - intros srcs src rest D ES G.
    assert (Hs : src < ns). { assert (In src (seq 0 ns)) by (rewrite ES; apply in_or_app; right; cbn; auto). apply in_seq in H. lia. }
    assert (NS : ~ In src srcs).
    { pose proof (seq_NoDup ns 0) as ND. rewrite ES in ND. apply NoDup_remove_2 in ND. rewrite in_app_iff in ND. tauto. }
    destruct (foldM_ind (add_edge v2i n src)
      (fun es D => ginv D (fun q => if q =? src then es else if in_dec Nat.eq_dec q srcs then m_out M q else []))
      (m_out M src) D) as (D' & E & G').
    + eapply ginv_ext; [|exact G]. intros q _. cbn beta. destruct (Nat.eqb_spec q src) as [->|]; auto.
      destruct (in_dec Nat.eq_dec src srcs); [contradiction|auto].
    + intros es e more D1 EE G1. assert (He : In e (m_out M src)) by (rewrite EE; apply in_or_app; right; cbn; auto).
      destruct (add_edge_ginv D1 _ src e G1 Hs He) as (D2 & E2 & G2). exists D2. split; auto.
      eapply ginv_ext; [|exact G2]. intros q _. cbn beta. destruct (q =? src); auto.
    + exists D'. split; auto. eapply ginv_ext; [|exact G']. intros q _. cbn beta.
      destruct (Nat.eqb_spec q src) as [->|N].
      * destruct (in_dec Nat.eq_dec src (srcs ++ [src])) as [|K]; auto. elim K. apply in_or_app. right. cbn. auto.
      * destruct (in_dec Nat.eq_dec q srcs) as [I|I], (in_dec Nat.eq_dec q (srcs ++ [src])) as [J|J]; auto; rewrite in_app_iff in J; cbn in J; intuition congruence.
  - rewrite E. cbn [bind]. exists D. split; auto. eapply ginv_ext; [|exact G]. intros q Hq. cbn beta.
    destruct (in_dec Nat.eq_dec q (seq 0 ns)) as [|K]; auto. elim K. apply in_seq. lia.
Qed.

(** * Paths *)
Context (D : NFADelta).
Hypothesis HD : table_ok D.

Lemma path_app w1 : forall q w2 q', nfa_path D q (w1 ++ w2) q' <-> exists m, nfa_path D q w1 m /\ nfa_path D m w2 q'.
Proof.
  induction w1 as [|x w1 IH]; intros q w2 q'; cbn.
  - split; [intros H; exists q; split; [constructor|auto]|]. intros (m & A & B). inversion A; subst; auto.
  - split.
    + intros H. inversion H; subst. apply IH in H5 as (m & A & B). exists m. split; auto. econstructor; eauto.
    + intros (m & A & B). inversion A; subst. econstructor; eauto. apply IH. eauto.
Qed.
Lemma path_lt q w q' : q < length D -> nfa_path D q w q' -> q' < length D.
Proof.
  intros H P. induction P as [|q b q1 w q2 (lbl & d0 & d1 & E & I) P IH]; auto. apply IH.
  eapply (g_closed _ _ HD); [exact E|]. apply in_or_app. destruct b; auto.
Qed.

Lemma rep_path dst w : forall k s b t, k <= n -> length w <= k -> has_true b = true -> rep v2i n D ns dst k s b -> nfa_path D s w t ->
  rep v2i n D ns dst (k - length w) t (cofs v2i (n - k) w b) /\ has_true (cofs v2i (n - k) w b) = true.
Proof.
  induction w as [|x w IH]; intros k s b t HK HL HT HR HP; cbn [length cofs] in *.
  - inversion HP; subst. rewrite Nat.sub_0_r. auto.
  - destruct k as [|k]; [lia|]. inversion HP as [|q0 b0 q1 w0 q2 (lbl & d0 & d1 & E & I) P]; subst.
    cbn [rep] in HR. destruct HR as (_ & lbl' & l0 & l1 & E' & B0 & B1). rewrite E in E'. injection E' as <- <- <-.
    assert (B : br (rep v2i n D ns dst k) (if x then d1 else d0) (cof v2i (n - S k) x b)) by (destruct x; auto).
    unfold br in B. destruct (has_true (cof v2i (n - S k) x b)) eqn:HC; [|rewrite B in I; destruct I].
    destruct B as (s' & EB & RB). rewrite EB in I. destruct I as [<-|[]].
    replace (S (n - S k)) with (n - k) by lia. cbn [Nat.sub]. eapply IH; eauto; lia.
Qed.
Lemma rep_path_ex dst w : forall k s b, k <= n -> length w <= k -> rep v2i n D ns dst k s b ->
  has_true (cofs v2i (n - k) w b) = true -> exists t, nfa_path D s w t.
Proof.
  induction w as [|x w IH]; intros k s b HK HL HR HT; cbn [length cofs] in *; [exists s; constructor|].
  destruct k as [|k]; [lia|]. cbn [rep] in HR. destruct HR as (_ & lbl & l0 & l1 & E & B0 & B1).
  assert (B : br (rep v2i n D ns dst k) (if x then l1 else l0) (cof v2i (n - S k) x b)) by (destruct x; auto).
  unfold br in B. pose proof (cofs_has _ _ _ _ HT) as HC. rewrite HC in B. destruct B as (s' & EB & RB).
  replace (S (n - S k)) with (n - k) in HT by lia.
  destruct (IH k s' _ ltac:(lia) ltac:(lia) RB HT) as (t & P). exists t. econstructor; eauto.
  exists lbl, l0, l1. split; auto. rewrite EB. cbn. auto.
Qed.

(** From a monitor state, up to one valuation. *)
Lemma edge_path q w t : q < ns -> w <> [] -> length w <= n -> nfa_path D q w t ->
  exists q' c, In (q', c) (m_out M q) /\ has_true (cofs v2i 0 w c) = true /\ rep v2i n D ns q' (n - length w) t (cofs v2i 0 w c).
Proof.
  intros Q W L P. destruct w as [|x w]; [congruence|]. cbn [length] in L.
  inversion P as [|q0 b0 s1 w0 q2 (lbl & d0 & d1 & E & I) P']; subst.
  destruct (g_row _ _ HD q Q) as (lbl' & l0 & l1 & E' & R0 & R1). rewrite E in E'. injection E' as <- <- <-.
  assert (RX : row_ok D x (m_out M q) (if x then d1 else d0)) by (destruct x; auto).
  unfold row_ok in RX. destruct n as [|k] eqn:En; [lia|]. destruct RX as (ls & EL & F). rewrite EL in I.
  apply in_concat in I as (li & I1 & I2). apply In_nth_error in I1 as (i & I1).
  destruct (proj1 (Forall2_nth _ _ _) F) as (FL & FN).
  destruct (nth_error (m_out M q) i) as [[q' c]|] eqn:EE. 2:{ apply nth_error_None in EE. apply nth_error_lt in I1. lia. }
  specialize (FN i _ _ EE I1). cbn [fst snd] in FN. unfold br in FN.
  destruct (has_true (cof (var2idx M (S k)) 0 x c)) eqn:HC; [|rewrite FN in I2; destruct I2].
  destruct FN as (s' & -> & RB). destruct I2 as [<-|[]].
  exists q', c. split; [eapply nth_error_In; eauto|]. rewrite <- En in *.
  destruct (rep_path q' w k s' _ t ltac:(lia) ltac:(lia) HC RB P') as (A & B).
  replace (n - k) with 1 in * by lia. cbn [cofs length]. split; auto. replace (n - S (length w)) with (k - length w) by lia. auto.
Qed.
Lemma edge_path_ex q w q' c : q < ns -> w <> [] -> length w <= n -> In (q', c) (m_out M q) ->
  has_true (cofs v2i 0 w c) = true -> exists t, nfa_path D q w t /\ rep v2i n D ns q' (n - length w) t (cofs v2i 0 w c).
Proof.
  intros Q W L IE HT. destruct w as [|x w]; [congruence|]. cbn [length cofs] in *.
  destruct (g_row _ _ HD q Q) as (lbl & l0 & l1 & E & R0 & R1).
  assert (RX : row_ok D x (m_out M q) (if x then l1 else l0)) by (destruct x; auto).
  unfold row_ok in RX. destruct n as [|k] eqn:En; [lia|]. destruct RX as (ls & EL & F).
  apply In_nth_error in IE as (i & EE). destruct (proj1 (Forall2_nth _ _ _) F) as (FL & FN).
  destruct (nth_error ls i) as [li|] eqn:I1. 2:{ apply nth_error_None in I1. apply nth_error_lt in EE. lia. }
  specialize (FN i _ _ EE I1). cbn [fst snd] in FN. unfold br in FN. rewrite (cofs_has _ _ _ _ HT) in FN.
  destruct FN as (s' & -> & RB). rewrite <- En in *.
  assert (HT' : has_true (cofs v2i (n - k) w (cof v2i 0 x c)) = true) by (replace (n - k) with 1 by lia; auto).
  destruct (rep_path_ex q' w k s' _ ltac:(lia) ltac:(lia) RB HT') as (t & P). exists t.
  assert (IN : In s' (if x then l1 else l0)).
  { rewrite EL. apply in_concat. exists [s']. split; [eapply nth_error_In; eauto|cbn; auto]. }
  split; [econstructor; eauto; exists lbl, l0, l1; auto|].
  destruct (rep_path q' w k s' _ t ltac:(lia) ltac:(lia) (cofs_has _ _ _ _ HT) RB P) as (A & _).
  replace (n - k) with 1 in A by lia. replace (n - S (length w)) with (k - length w) by lia. auto.
Qed.

(** One valuation. *)
Lemma val_path q w t : q < ns -> length w = n -> n <> 0 -> nfa_path D q w t <-> exists c, In (t, c) (m_out M q) /\ sat M w c.
Proof.
  intros Q L NZ. assert (W : w <> []) by (intros ->; cbn in L; lia). split.
  - intros P. destruct (edge_path q w t Q W ltac:(lia) P) as (q' & c & A & B & C).
    rewrite L, Nat.sub_diag in C. destruct C as (-> & _). exists c. split; auto.
    apply sat_cofs0; auto. eapply edge_cond; eauto.
  - intros (c & A & B). destruct (edge_cond q t c Q A) as (O & _). apply sat_cofs0 in B; auto.
    destruct (edge_path_ex q w t c Q W ltac:(lia) A B) as (t' & P & RP). rewrite L, Nat.sub_diag in RP. destruct RP as (-> & _). auto.
Qed.
Lemma run_lt q vals q' : q < ns -> monitor_run M q vals q' -> q' < ns.
Proof. intros Q R. induction R; auto. apply IHR. eapply (mo_dst _ _ HM); eauto. Qed.
Lemma run_snoc q vals q1 val c q2 : monitor_run M q vals q1 -> In (q2, c) (m_out M q1) -> sat M val c -> monitor_run M q (vals ++ [val]) q2.
Proof. intros R A B. induction R; cbn; [econstructor; eauto; constructor|econstructor; eauto]. Qed.

Lemma run_path q vals q' : n <> 0 -> q < ns -> Forall (fun val => length val = n) vals -> monitor_run M q vals q' ->
  nfa_path D q (concat vals) q'.
Proof.
  intros NZ Q F R. induction R as [|q val c q1 vals q2 I S R IH]; [constructor|]. inversion F; subst. cbn [concat].
  apply path_app. exists q1. split; [apply val_path; eauto|]. apply IH; auto. eapply (mo_dst _ _ HM); eauto.
Qed.
(** Any path: whole valuations, then less than one. *)
Lemma path_split w : n <> 0 -> forall len, length w <= len -> forall q t, q < ns -> nfa_path D q w t ->
  exists vals rest q', w = concat vals ++ rest /\ Forall (fun val => length val = n) vals /\ length rest < n /\
    monitor_run M q vals q' /\ nfa_path D q' rest t.
Proof.
  intros NZ len. revert w. induction len as [|len IH]; intros w L q t Q P.
  - destruct w; [|cbn in L; lia]. exists [], [], q. split; auto. split; auto. split; [cbn; lia|]. split; [constructor|auto].
  - destruct (lt_dec (length w) n) as [S|S].
    + exists [], w, q. split; auto. split; auto. split; auto. split; [constructor|auto].
    + rewrite <- (firstn_skipn n w) in P. apply path_app in P as (m & P1 & P2).
      assert (LF : length (firstn n w) = n) by (rewrite firstn_length; lia).
      apply val_path in P1 as (c & A & B); auto.
      destruct (IH (skipn n w)) with (q := m) (t := t) as (vals & rest & q' & E1 & E2 & E3 & E4 & E5); auto.
      { rewrite skipn_length. lia. }
      { eapply (mo_dst _ _ HM); eauto. }
      exists (firstn n w :: vals), rest, q'. cbn [concat]. rewrite <- app_assoc, <- E1, firstn_skipn. split; auto.
      split; auto. split; auto. split; auto. econstructor; eauto.
Qed.
Lemma part_path q w t : q < ns -> w <> [] -> length w < n -> nfa_path D q w t -> ns <= t.
Proof.
  intros Q W L P. destruct (edge_path q w t Q W ltac:(lia) P) as (q' & c & _ & _ & R).
  destruct (n - length w) eqn:E; [lia|]. cbn in R. tauto.
Qed.
Lemma zero_path q w t : n = 0 -> q < ns -> nfa_path D q w t -> w = [].
Proof.
  intros Z Q P. destruct w as [|x w]; auto. exfalso. inversion P as [|q0 b0 s1 w0 q2 (lbl & d0 & d1 & E & I) P']; subst.
  destruct (g_row _ _ HD q Q) as (lbl' & l0 & l1 & E' & R0 & R1). rewrite E in E'. injection E' as <- <- <-.
  unfold row_ok in *. rewrite Z in *. subst. destruct x; destruct I.
Qed.
Lemma zero_concat vals : n = 0 -> Forall (fun val : list bool => length val = n) vals -> concat vals = [].
Proof.
  intros Z F. induction F as [|v vals H F IH]; auto. cbn. rewrite IH, app_nil_r. destruct v; auto. cbn in H. lia.
Qed.

Theorem accepts_whole w : nfa_accepts [m_init M] (seq 0 ns) D w <-> whole M n w.
Proof.
  pose proof (mo_init _ _ HM) as HI. split.
  - intros (q & t & [<-|[]] & P & F). apply in_seq in F. destruct (Nat.eq_dec n 0) as [Z|NZ].
    + rewrite (zero_path _ _ _ Z HI P). exists [], (m_init M). split; auto. split; auto. constructor.
    + destruct (path_split w NZ (length w) (le_n _) _ _ HI P) as (vals & rest & q' & -> & E2 & E3 & E4 & E5).
      exists vals, q'. split; auto. split; auto. destruct rest as [|x rest]; [rewrite app_nil_r; auto|]. exfalso.
      pose proof (part_path q' (x :: rest) t (run_lt _ _ _ HI E4) ltac:(discriminate) E3 E5). lia.
  - intros (vals & q & F & -> & R). destruct (Nat.eq_dec n 0) as [Z|NZ].
    + rewrite zero_concat by auto. exists (m_init M), (m_init M). split; [cbn; auto|]. split; [constructor|apply in_seq; lia].
    + exists (m_init M), q. split; [cbn; auto|]. split; [apply run_path; auto|]. apply in_seq.
      pose proof (run_lt _ _ _ HI R). lia.
Qed.
Theorem accepts_begun w : nfa_accepts [m_init M] (seq 0 (length D)) D w <-> whole_or_begun M n w.
Proof.
  pose proof (mo_init _ _ HM) as HI. pose proof (g_len _ _ HD) as HL. split.
  - intros (q & t & [<-|[]] & P & F). destruct (Nat.eq_dec n 0) as [Z|NZ].
    + rewrite (zero_path _ _ _ Z HI P). exists [], (m_init M), []. split; auto. split; auto. split; [constructor|auto].
    + destruct (path_split w NZ (length w) (le_n _) _ _ HI P) as (vals & rest & q' & -> & E2 & E3 & E4 & E5).
      exists vals, q', rest. split; auto. split; auto. split; auto. destruct rest as [|x rest]; auto. right.
      assert (Q' := run_lt _ _ _ HI E4).
      destruct (edge_path q' (x :: rest) t Q' ltac:(discriminate) ltac:(lia) E5) as (q2 & c & A & B & _).
      apply begun_iff in B as (more & B1 & B2); [|eapply edge_cond; eauto|lia]. exists q2, c, more. auto.
  - intros (vals & q & rest & F & -> & R & H). assert (Q := run_lt _ _ _ HI R).
    assert (G : exists t, nfa_path D (m_init M) (concat vals ++ rest) t).
    { destruct (Nat.eq_dec n 0) as [Z|NZ].
      - rewrite zero_concat by auto. destruct H as [->|(q' & c & more & _ & L & _)]; [exists (m_init M); constructor|].
        rewrite app_length in L. destruct rest; [|cbn in L; lia]. exists (m_init M). constructor.
      - destruct rest as [|x rest].
        + exists q. rewrite app_nil_r. apply run_path; auto.
        + destruct H as [H|(q' & c & more & A & L & S)]; [discriminate|]. destruct (edge_cond q q' c Q A) as (O & _).
          assert (LR : length (x :: rest) <= n) by (rewrite app_length in L; lia).
          assert (HT : has_true (cofs v2i 0 (x :: rest) c) = true) by (apply begun_iff; eauto).
          destruct (edge_path_ex q (x :: rest) q' c Q ltac:(discriminate) LR A HT) as (t & P & _). exists t.
          apply path_app. exists q. split; auto. apply run_path; auto. }
    destruct G as (t & P). exists (m_init M), t. split; [cbn; auto|]. split; auto. apply in_seq.
    assert (LI : m_init M < length D) by lia. pose proof (path_lt _ _ _ LI P). lia.
Qed.
Lemma no_dangling : nfa_no_dangling [m_init M] D.
Proof. intros q w t [<-|[]] P. eapply path_lt; eauto. pose proof (mo_init _ _ HM). pose proof (g_len _ _ HD). lia. Qed.
End Monitor.

(** * Reversed tables *)
Definition has_succ (bit : bool) (D : NFADelta) (q s : State) : Prop := nfa_edge D q bit s.
Lemma push_at_ok v i q : i < length v -> exists v' l, push_at v i q = Ok v' /\ length v' = length v /\ nth_error v i = Some l /\
  forall j, nth_error v' j = if i =? j then Some (l ++ [q]) else nth_error v j.
Proof.
  intros H. unfold push_at, at_, set_at. destruct (nth_error v i) as [l|] eqn:E; [|apply nth_error_None in E; lia].
  cbn [bind]. destruct (Nat.ltb_spec i (length v)); [|lia]. do 2 eexists. split; [reflexivity|]. split; [apply BaseFacts.upd_length|].
  split; auto. intros j. rewrite LtlFacts1.upd_nth. destruct (Nat.ltb_spec i (length v)); [auto|lia].
Qed.
(** the predecessors recorded so far *)
Definition prev_of (v : list (list State)) (P : State -> State -> Prop) : Prop :=
  forall i l, nth_error v i = Some l -> forall q, In q l <-> P q i.
Lemma push_all q ss : forall v P, prev_of v P -> (forall s, In s ss -> s < length v) ->
  exists v', foldM (fun p s => push_at p s q) ss v = Ok v' /\ length v' = length v /\
    prev_of v' (fun q' i => P q' i \/ (q' = q /\ In i ss)).
Proof.
  induction ss as [|s ss IH]; intros v P HP HL; cbn [foldM].
  - exists v. split; auto. split; auto. intros i l E q'. rewrite (HP i l E q'). cbn. tauto.
  - destruct (push_at_ok v s q) as (v1 & l1 & E1 & L1 & N1 & R1); [apply HL; cbn; auto|]. rewrite E1. cbn [bind].
    destruct (IH v1 (fun q' i => P q' i \/ (q' = q /\ i = s))) as (v2 & E2 & L2 & P2).
    + intros i l E q'. rewrite R1 in E. destruct (Nat.eqb_spec s i) as [->|N].
      * injection E as <-. rewrite in_app_iff, (HP i l1 N1 q'). cbn. intuition congruence.
      * rewrite (HP i l E q'). intuition congruence.
    + intros s' H. rewrite L1. apply HL. cbn. auto.
    + exists v2. split; auto. split; [congruence|]. intros i l E q'. rewrite (P2 i l E q'). cbn. intuition congruence.
Qed.

Theorem reversed_ok D : closed D -> exists Dr, reversed_nfa_delta D = Ok Dr /\ length Dr = length D /\
  forall q b s, nfa_edge Dr q b s <-> nfa_edge D s b q.
Proof.
  intros C. unfold reversed_nfa_delta.
  set (step := fun '(prev0, prev1) q =>
      do '(_, q0s, q1s) <- at_ D q;
      do prev0 <- foldM (fun p q0 => push_at p q0 q) q0s prev0;
      do prev1 <- foldM (fun p q1 => push_at p q1 q) q1s prev1;
      Ok (prev0, prev1)).
  destruct (foldM_ind step (fun qs '(p0, p1) => length p0 = length D /\ length p1 = length D /\
      prev_of p0 (fun q i => In q qs /\ nfa_edge D q false i) /\ prev_of p1 (fun q i => In q qs /\ nfa_edge D q true i))
    (seq 0 (length D)) (repeat [] (length D), repeat [] (length D))) as ((p0 & p1) & E & L0 & L1 & P0 & P1).
  - rewrite repeat_length. split; auto. split; auto.
    assert (K : forall (X : State -> State -> Prop), prev_of (repeat [] (length D)) (fun q i => In q [] /\ X q i)).
    { intros X i l E q. apply nth_error_In, repeat_spec in E. subst. cbn. tauto. }
    split; apply K.
  - intros qs q rest [p0 p1] ES (L0 & L1 & P0 & P1). unfold step.
    assert (Hq : q < length D). { assert (In q (seq 0 (length D))) by (rewrite ES; apply in_or_app; right; cbn; auto). apply in_seq in H. lia. }
    destruct (at_lt D q Hq) as (((lbl & l0) & l1) & EA & EN). rewrite EA. cbn [bind].
    destruct (push_all q l0 p0 _ P0) as (v0 & -> & V0 & W0).
    { intros s Hs. rewrite L0. eapply C; [exact EN|]. apply in_or_app. auto. }
    cbn [bind]. destruct (push_all q l1 p1 _ P1) as (v1 & -> & V1 & W1).
    { intros s Hs. rewrite L1. eapply C; [exact EN|]. apply in_or_app. auto. }
    cbn [bind]. exists (v0, v1). split; auto. split; [congruence|]. split; [congruence|].
    assert (NE : forall (bit : bool) i, nfa_edge D q bit i <-> In i (if bit then l1 else l0)).
    { intros bit i. split.
      - intros (lbl' & d0 & d1 & E & I). rewrite EN in E. injection E as <- <- <-. auto.
      - intros I. exists lbl, l0, l1. auto. }
    split; intros i l E q'.
    + rewrite (W0 i l E q'), in_app_iff. cbn. specialize (NE false i). cbn in NE. split.
      * intros [(A & B)|(-> & B)]; tauto.
      * intros ([A|[<-|[]]] & B); tauto.
    + rewrite (W1 i l E q'), in_app_iff. cbn. specialize (NE true i). cbn in NE. split.
      * intros [(A & B)|(-> & B)]; tauto.
      * intros ([A|[<-|[]]] & B); tauto.
  - rewrite E. cbn [bind].
    set (f := fun q => do l0 <- at_ p0 q; do l1 <- at_ p1 q; Ok (q, l0, l1)).
    destruct (mapM_total f (seq 0 (length D))) as (Dr & EM).
    { intros q Hq. apply in_seq in Hq. unfold f. destruct (at_lt p0 q) as (l0 & -> & _); [lia|]. destruct (at_lt p1 q) as (l1 & -> & _); [lia|].
      cbn. eauto. }
    exists Dr. split; auto. assert (LD : length Dr = length D) by (apply mapM_length in EM; rewrite seq_length in EM; auto).
    split; auto.
    assert (ROW : forall q, q < length D -> exists l0 l1, nth_error Dr q = Some (q, l0, l1) /\ nth_error p0 q = Some l0 /\ nth_error p1 q = Some l1).
    { intros q Hq. destruct (mapM_nth f _ _ q q EM) as (r & B & A); [apply nth_error_seq; auto|].
      unfold f in A. destruct (at_lt p0 q) as (l0 & E0 & N0); [lia|]. destruct (at_lt p1 q) as (l1 & E1 & N1); [lia|].
      rewrite E0, E1 in A. cbn in A. injection A as <-. eauto. }
    intros q b s. split.
    + intros (lbl & d0 & d1 & EN & I). assert (Hq : q < length D) by (rewrite <- LD; apply nth_error_Some; congruence).
      destruct (ROW q Hq) as (l0 & l1 & A & B0 & B1). rewrite EN in A. injection A as -> -> ->.
      destruct b; [apply (P1 _ _ B1 s) in I|apply (P0 _ _ B0 s) in I]; tauto.
    + intros G. assert (G' := G). destruct G' as (lbl & d0 & d1 & EN & I).
      assert (Hq : q < length D). { eapply C; [exact EN|]. apply in_or_app. destruct b; auto. }
      assert (Hs : In s (seq 0 (length D))) by (apply in_seq; apply nth_error_lt in EN; lia).
      destruct (ROW q Hq) as (l0 & l1 & A & B0 & B1). exists q, l0, l1. split; auto.
      destruct b; [apply (P1 _ _ B1 s)|apply (P0 _ _ B0 s)]; auto.
Qed.
Lemma path_snoc D q w m b q' : nfa_path D q w m -> nfa_edge D m b q' -> nfa_path D q (w ++ [b]) q'.
Proof. intros P E. induction P; cbn; econstructor; eauto. constructor. Qed.
Lemma reversed_path D Dr : (forall q b s, nfa_edge Dr q b s <-> nfa_edge D s b q) ->
  forall q w q', nfa_path D q w q' -> nfa_path Dr q' (rev w) q.
Proof.
  intros H q w q' P. induction P as [|q b q1 w q2 E P IH]; [constructor|]. cbn. eapply path_snoc; eauto. apply H. auto.
Qed.
