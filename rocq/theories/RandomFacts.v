(** Facts about the randomised tests (RandomModel.v). *)
From Coq Require Import List Arith Bool NArith Lia.
From Coq Require Import ZifyBool ZifyNat ZifyN.
Import ListNotations.
From Verif Require Import Base BaseFacts GraphModel Spec TextModel LtlModel LtlSpec LtlFacts4 RandomModel RandomSpec.

(** * Words cut into valuations *)
Lemma chop n k : forall w : list bool, length w = k * n -> exists vals, Forall (fun val => length val = n) vals /\ w = concat vals /\ length vals = k.
Proof.
  induction k as [|k IH]; intros w L.
  - exists []. destruct w; [|discriminate]. repeat split; auto.
  - cbn in L. destruct (IH (skipn n w)) as (vals & F & E & LV); [rewrite skipn_length; lia|].
    exists (firstn n w :: vals). split; [constructor; auto; rewrite firstn_length; lia|]. split; [|cbn; congruence].
    cbn. rewrite <- E, firstn_skipn. reflexivity.
Qed.
Lemma concat_len n (vals : list (list bool)) : Forall (fun val => length val = n) vals -> length (concat vals) = length vals * n.
Proof. induction 1 as [|v vals E F IH]; cbn; auto. rewrite app_length. lia. Qed.
Lemma chop_unique n (vals vals' : list (list bool)) : 0 < n -> Forall (fun val => length val = n) vals -> Forall (fun val => length val = n) vals' ->
  concat vals = concat vals' -> vals = vals'.
Proof.
  intros H0 F. revert vals'. induction F as [|v vals E F IH]; intros vals' F' EQ.
  - inversion F' as [|v' vs' E' F'' Q]; auto. subst. apply (f_equal (@length bool)) in EQ. cbn in EQ. rewrite app_length in EQ. lia.
  - inversion F' as [|v' vs' E' F'' Q]; subst.
    + apply (f_equal (@length bool)) in EQ. cbn in EQ. rewrite app_length in EQ. lia.
    + cbn in EQ. assert (K : v = v' /\ concat vals = concat vs').
      { clear - EQ E'. revert v' E' EQ. induction v as [|b v IH]; intros [|b' v'] L EQ; try discriminate; auto.
        injection EQ as -> EQ. destruct (IH v' ltac:(cbn in L; lia) EQ) as [-> ->]. auto. }
      destruct K as [-> K]. f_equal. apply IH; auto.
Qed.

Section Oracle.
Context (M : monitor) (n : nat).
Hypothesis HM : monitor_ok M n.
Notation v2i := (var2idx M n).

Lemma walk_sat pre val post c i : length val = n -> ordered M n i c ->
  exists b, walk v2i (pre ++ val ++ post) (length pre) c = Ok b /\ (b = true <-> sat M val c).
Proof.
  intros L. revert i. induction c as [| |v l IHl h IHh]; intros i O.
  - exists false. split; auto. split; [discriminate|]. inversion 1.
  - exists true. split; auto. split; auto. constructor.
  - inversion O as [| |i' j v' l' h' HJ HV OL OH]. subst i' v' l' h'. cbn [walk]. unfold at_key.
    assert (FK : find_key Nat.eq_dec v v2i = Some j) by (apply (var2idx_find M n (mo_vars _ _ HM) n (le_n _)); split; auto; lia).
    rewrite FK. cbn [bind].
    assert (exists b, nth_error val j = Some b) as (b & NB).
    { destruct (nth_error val j) eqn:E; [eauto|]. apply nth_error_None in E. lia. }
    assert (AT : at_ (pre ++ val ++ post) (length pre + j) = Ok b).
    { unfold at_. rewrite nth_error_app2 by lia. replace (length pre + j - length pre) with j by lia.
      rewrite nth_error_app1 by (apply nth_error_Some; congruence). rewrite NB. reflexivity. }
    rewrite AT. cbn [bind].
    assert (J : forall i b', m_var M i = Some v -> nth_error val i = Some b' -> i = j /\ b' = b).
    { intros i0 b' H1 H2. assert (i0 < n) by (apply nth_error_lt in H2; lia).
      assert (i0 = j) by (apply (mo_vars _ _ HM i0 j v); auto; lia). subst i0. split; congruence. }
    destruct b.
    + destruct (IHh _ OH) as (r & ER & HR). exists r. split; auto. rewrite HR. split; intros H.
      * apply (sat_high _ _ _ _ _ j); auto.
      * inversion H as [|? ? ? k HV' NB' S'|? ? ? k HV' NB' S']; subst; auto. destruct (J k false HV' NB'). discriminate.
    + destruct (IHl _ OL) as (r & ER & HR). exists r. split; auto. rewrite HR. split; intros H.
      * apply (sat_low _ _ _ _ _ j); auto.
      * inversion H as [|? ? ? k HV' NB' S'|? ? ? k HV' NB' S']; subst; auto. destruct (J k true HV' NB'). discriminate.
Qed.

Lemma edges_sat pre val post q es : length val = n -> q < m_ns M -> incl es (m_out M q) -> forall next,
  exists next', foldM (fun next (t : nat * bdd) => let '(dst, cond) := t in
      do b <- walk v2i (pre ++ val ++ post) (length pre) cond; Ok (if b then sinsert dst next else next)) es next = Ok next' /\
    forall q', In q' next' <-> In q' next \/ exists c, In (q', c) es /\ sat M val c.
Proof.
  intros L HQ. induction es as [|(dst, c) es IH]; intros I next.
  - exists next. split; auto. intros q'. split; auto. intros [H|(c & [] & _)]; auto.
  - cbn [foldM]. destruct (walk_sat pre val post c 0 L) as (b & -> & HB).
    { eapply (mo_ordered _ _ HM q dst); auto. apply I. left. reflexivity. }
    cbn [bind]. destruct (IH ltac:(intros x Hx; apply I; right; exact Hx) (if b then sinsert dst next else next)) as (next' & -> & HN).
    exists next'. split; auto. intros q'. rewrite HN. destruct b.
    + rewrite sinsert_In. split.
      * intros [[->|H]|(c' & H & S)]; auto.
        -- right. exists c. split; [left; reflexivity|]. apply HB. reflexivity.
        -- right. exists c'. split; auto. right. auto.
      * intros [H|(c' & [[= -> ->]|H] & S)]; auto. right. eauto.
    + split.
      * intros [H|(c' & H & S)]; auto. right. exists c'. split; auto. right. auto.
      * intros [H|(c' & [[= -> ->]|H] & S)]; auto; [|right; eauto]. apply HB in S. discriminate.
Qed.
Lemma one_valuation_sat pre val post qs : length val = n -> (forall q, In q qs -> q < m_ns M) ->
  exists next, one_valuation M v2i (pre ++ val ++ post) (length pre) qs = Ok next /\
    forall q', In q' next <-> exists q c, In q qs /\ In (q', c) (m_out M q) /\ sat M val c.
Proof.
  intros L HQ. unfold one_valuation.
  assert (G : forall next, exists next', foldM (fun next q => foldM (fun next (t : nat * bdd) => let '(dst, cond) := t in
      do b <- walk v2i (pre ++ val ++ post) (length pre) cond; Ok (if b then sinsert dst next else next)) (m_out M q) next) qs next = Ok next' /\
    forall q', In q' next' <-> In q' next \/ exists q c, In q qs /\ In (q', c) (m_out M q) /\ sat M val c).
  { induction qs as [|q qs IH]; intros next.
    - exists next. split; auto. intros q'. split; auto. intros [H|(q & c & [] & _)]; auto.
    - cbn [foldM]. destruct (edges_sat pre val post q (m_out M q) L (HQ q (or_introl eq_refl)) (incl_refl _) next) as (n1 & -> & H1).
      cbn [bind]. destruct (IH ltac:(intros; apply HQ; right; auto) n1) as (n2 & -> & H2). exists n2. split; auto.
      intros q'. rewrite H2, H1. split.
      + intros [[H|(c & H & S)]|(q0 & c & H & H' & S)]; auto; right; [exists q, c|exists q0, c]; cbn; auto.
      + intros [H|(q0 & c & [->|H] & H' & S)]; auto; [left; right; eauto|right; eauto 6]. }
  destruct (G []) as (next & E & H). exists next. split; auto. intros q'. rewrite H. cbn. tauto.
Qed.

Lemma valuations_run vals : Forall (fun val => length val = n) vals -> forall pre post i qs, length pre = i * n ->
  (forall q, In q qs -> q < m_ns M) ->
  exists b, valuations M v2i (pre ++ concat vals ++ post) n (length vals) i qs = Ok b /\
    (b = true <-> exists q q', In q qs /\ monitor_run M q vals q' /\ m_out M q' <> []).
Proof.
  induction 1 as [|val vals L F IH]; intros pre post i qs LP HQ.
  - cbn [length valuations]. eexists. split; [reflexivity|]. rewrite existsb_exists. split.
    + intros (q & HI & A). exists q, q. split; auto. split; [constructor|]. unfold state_is_accepting in A. destruct (m_out M q); discriminate.
    + intros (q & q' & HI & R & A). inversion R; subst. exists q'. split; auto. unfold state_is_accepting. destruct (m_out M q'); auto.
  - cbn [length valuations concat]. rewrite <- LP.
    destruct (one_valuation_sat pre val (concat vals ++ post) qs L HQ) as (next & E & HN). rewrite <- app_assoc, E. cbn [bind].
    assert (K : forall b, (b = true <-> exists q q', In q next /\ monitor_run M q vals q' /\ m_out M q' <> []) ->
      (b = true <-> exists q q', In q qs /\ monitor_run M q (val :: vals) q' /\ m_out M q' <> [])).
    { intros b ->. split.
      - intros (q & q' & HI & R & A). apply HN in HI as (q0 & c & HI & HE & S). exists q0, q'. split; auto. split; auto. econstructor; eauto.
      - intros (q & q' & HI & R & A). inversion R as [|? ? c q1 ? ? HE S R']; subst. exists q1, q'. split; auto. apply HN. eauto. }
    destruct next as [|q0 next0].
    + exists false. split; auto. apply K. split; [discriminate|]. intros (q & q' & [] & _).
    + replace (pre ++ val ++ concat vals ++ post) with ((pre ++ val) ++ concat vals ++ post) by (rewrite <- app_assoc; reflexivity).
      destruct (IH (pre ++ val) post (S i) (q0 :: next0)) as (b & EB & HB).
      * rewrite app_length. lia.
      * intros q HI. apply HN in HI as (q1 & c & HI & HE & _). eapply (mo_dst _ _ HM q1); eauto.
      * exists b. split; auto.
Qed.

Lemma run_end (ND : no_dead_ends M) vals q q' : monitor_run M q vals q' -> vals <> [] -> m_out M q' <> [].
Proof.
  induction 1 as [|q val c q1 vals q2 HE S R IH]; [congruence|]. intros _. destruct vals as [|v vals].
  - inversion R; subst. eapply ND; eauto.
  - apply IH. discriminate.
Qed.
Lemma oracle_whole w k : no_dead_ends M -> 0 < n -> 0 < k -> length w = k * n ->
  exists b, monitor_accepts M w n = Ok b /\ (b = true <-> whole M n w).
Proof.
  intros ND H0 HK L. destruct (chop n k w L) as (vals & F & -> & LV). unfold monitor_accepts.
  destruct (Nat.eqb_spec n 0); [lia|]. rewrite L, Nat.div_mul, <- LV by lia.
  destruct (valuations_run vals F [] [] 0 [m_init M]) as (b & E & HB).
  - reflexivity.
  - intros q [<-|[]]. apply (mo_init _ _ HM).
  - cbn [app] in E. rewrite app_nil_r in E. exists b. split; auto. rewrite HB. split.
    + intros (q & q' & [<-|[]] & R & _). exists vals, q'. auto.
    + intros (vals' & q' & F' & EQ & R). apply (chop_unique n) in EQ as <-; auto. exists (m_init M), q'.
      split; [left; reflexivity|]. split; auto. eapply run_end; eauto. destruct vals; [cbn in LV; lia|discriminate].
Qed.
End Oracle.

(** * The words of the tests *)
Lemma round_up_ok multiple : 0 < multiple -> forall fuel size, multiple <= fuel + size mod multiple \/ size mod multiple = 0 ->
  exists s, round_up fuel size multiple = Ok s /\ s mod multiple = 0 /\ size <= s < size + multiple.
Proof.
  intros HM. induction fuel as [|fuel IH]; intros size H; cbn [round_up]; destruct (Nat.eqb_spec (size mod multiple) 0) as [E|E].
  - exists size. auto with arith. split; auto. split; auto. lia.
  - exfalso. pose proof (Nat.mod_upper_bound size multiple ltac:(lia)). lia.
  - exists size. split; auto. split; auto. lia.
  - assert (MS : S size mod multiple = S (size mod multiple) \/ S size mod multiple = 0 /\ S (size mod multiple) = multiple).
    { pose proof (Nat.mod_upper_bound size multiple ltac:(lia)).
      pose proof (Nat.div_mod size multiple ltac:(lia)) as DM.
      destruct (Nat.eq_dec (S (size mod multiple)) multiple) as [Q|Q].
      - right. split; auto. apply Nat.mod_divide; [lia|]. exists (S (size / multiple)). lia.
      - left. symmetry. apply (Nat.mod_unique _ _ (size / multiple)); lia. }
    destruct (IH (S size)) as (s & E' & S1 & S2); [lia|]. exists s. split; auto. split; auto.
    enough (s < size + multiple) by lia.
    clear IH E' H. destruct MS as [MS|[MS MS']].
    + (* s is the least multiple above size *)
      destruct (Nat.le_gt_cases (size + multiple) s) as [G|]; auto. exfalso.
      assert (s = size + multiple) by lia. subst s. rewrite Nat.add_comm in S1.
      replace (multiple + size) with (size + 1 * multiple) in S1 by lia. rewrite Nat.mod_add in S1 by lia. lia.
    + destruct (Nat.le_gt_cases (size + multiple) s) as [G|]; auto. exfalso.
      assert (s = size + multiple) by lia. subst s.
      replace (size + multiple) with (size + 1 * multiple) in S1 by lia. rewrite Nat.mod_add in S1 by lia. lia.
Qed.
Lemma mod0_mul s m : 0 < m -> s mod m = 0 -> exists k, s = k * m.
Proof. intros H E. exists (s / m). pose proof (Nat.div_mod s m ltac:(lia)). lia. Qed.
Lemma int2bvec_ok i n : i < 128 -> 0 < n <= 32 -> exists w k, int2bvec i n = Ok w /\ 0 < k /\ length w = k * n.
Proof.
  intros HI HN. unfold int2bvec. destruct (Nat.eqb_spec n 0); [lia|].
  assert (LG : Nat.log2 i + 1 <= 7).
  { destruct (Nat.eq_dec i 0) as [->|]; [cbn; lia|]. assert (Nat.log2 i < 7); [|lia]. apply Nat.log2_lt_pow2; [lia|]. exact HI. }
  destruct (round_up_ok n ltac:(lia) n (Nat.log2 i + 1)) as (s & -> & S1 & S2); [lia|]. cbn [bind].
  destruct (mod0_mul s n ltac:(lia) S1) as (k & ->).
  assert (HS : k * n <= 32).
  { destruct (Nat.le_gt_cases n 7); [lia|]. assert (k < 2) by nia. nia. }
  exists (map (fun b => if b <=? 30 then Nat.testbit i b else existsb (Nat.testbit i) (seq 31 33)) (seq 0 (k * n))), k.
  split; [|split; [nia|rewrite map_length, seq_length; reflexivity]].
  apply mapM_pure. intros b HB. apply in_seq in HB. unfold bit_of. destruct (Nat.leb_spec b 30); auto.
  destruct (Nat.eqb_spec b 31); [auto|lia].
Qed.
Lemma random_bvec_ok draw n : 0 < n -> exists w k, random_bvec draw n = Ok w /\ 0 < k /\ length w = k * n.
Proof.
  intros H. unfold random_bvec. destruct (Nat.eqb_spec n 0); [lia|]. eexists. exists (fst draw / n + 1). split; [reflexivity|].
  rewrite map_length, seq_length. pose proof (Nat.div_mod (fst draw) n ltac:(lia)) as DM. pose proof (Nat.mod_upper_bound (fst draw) n ltac:(lia)).
  revert DM H0. generalize (fst draw / n), (fst draw mod n). intros d m DM H0. split; [lia|]. rewrite Nat.mul_add_distr_r, (Nat.mul_comm d). lia.
Qed.
