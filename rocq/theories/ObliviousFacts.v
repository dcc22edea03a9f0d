(** Two runs of a runner on inputs of the same shape, with any two implementations of the TFHEpp
    functions over rings of the same dimension, go through publicly equal states. *)
From Coq Require Import List Arith Bool NArith ZArith Lia.
Import ListNotations.
From Verif Require Import Base BaseFacts GraphModel TorusModel RunnerModel RunnerFacts RunnerSpec ParModel ParFacts SchedFacts ObliviousSpec.

(** ** Relating two computations *)
Definition req {A B} (R : A -> B -> Prop) (x : res A) (y : res B) : Prop :=
  match x, y with Ok a, Ok b => R a b | Fail f, Fail g => f = g | _, _ => False end.
Lemma req_bind {A B A' B'} (R : A -> B -> Prop) (R' : A' -> B' -> Prop) x y f g :
  req R x y -> (forall a b, R a b -> req R' (f a) (g b)) -> req R' (bind x f) (bind y g).
Proof. destruct x, y; cbn; intros H K; auto; tauto. Qed.
Lemma req_same {A B C} (R : B -> C -> Prop) (x : res A) f g :
  (forall a, x = Ok a -> req R (f a) (g a)) -> req R (bind x f) (bind x g).
Proof. destruct x; cbn; auto. Qed.
Lemma req_fold {A S S'} (R : S -> S' -> Prop) (f : S -> A -> res S) g l : forall s s',
  (forall s s' a, In a l -> R s s' -> req R (f s a) (g s' a)) -> R s s' -> req R (foldM f l s) (foldM g l s').
Proof.
  induction l as [|x l IH]; intros s s' H HR; cbn [foldM]; [exact HR|].
  apply (req_bind R); [apply H; auto; now left|]. intros a b Hab. apply IH; auto. intros; apply H; auto. now right.
Qed.
Lemma req_fold2 {A A' S S'} (R : S -> S' -> Prop) (f : S -> A -> res S) (g : S' -> A' -> res S') l : forall l' s s',
  length l = length l' ->
  (forall s s' a a', R s s' -> req R (f s a) (g s' a')) -> R s s' -> req R (foldM f l s) (foldM g l' s').
Proof.
  induction l as [|x l IH]; intros [|x' l'] s s' L H HR; cbn [foldM] in *; try discriminate; [exact HR|].
  apply (req_bind R); auto.
Qed.
Lemma req_if {A B} (R : A -> B -> Prop) (c : bool) x x' y y' :
  req R x x' -> req R y y' -> req R (if c then x else y) (if c then x' else y').
Proof. destruct c; auto. Qed.
Lemma req_assert {A B} (R : A -> B -> Prop) (c : bool) x x' : req R x x' -> req R (assert_ c x) (assert_ c x').
Proof. unfold assert_. destruct c; cbn; auto. Qed.

Definition same_len {A B} (l : list A) (l' : list B) : Prop := length l = length l'.
Definition anything {A B} (a : A) (b : B) : Prop := True.

Lemma req_at {A B} (l : list A) (l' : list B) i : same_len l l' -> req anything (at_ l i) (at_ l' i).
Proof.
  intros L. destruct (Nat.lt_ge_cases i (length l)) as [H|H].
  - destruct (at_lt l i H) as (v & -> & _). destruct (at_lt l' i) as (v' & -> & _); [unfold same_len in L; lia|]. exact I.
  - rewrite !at_fail by (unfold same_len in L; lia). reflexivity.
Qed.
Lemma req_set_at {A B} (l : list A) (l' : list B) i v v' : same_len l l' -> req same_len (set_at l i v) (set_at l' i v').
Proof.
  intros L. destruct (Nat.lt_ge_cases i (length l)) as [H|H].
  - rewrite !set_at_lt by (unfold same_len in L; lia). cbn. unfold same_len in *. now rewrite !upd_length.
  - unfold set_at. unfold same_len in L. rewrite <- L. destruct (Nat.ltb_spec i (length l)); [lia|reflexivity].
Qed.
Lemma req_par {A B} t (f : nat -> res A) (g : nat -> res B) l l' :
  (forall q, In q t -> req anything (f q) (g q)) -> same_len l l' -> req same_len (par_for t f l) (par_for t g l').
Proof.
  intros H L. unfold par_for. destruct (nodupb t); [|reflexivity].
  apply req_fold; auto. intros s s' a Ha HS. apply (req_bind anything); auto. intros v v' _. now apply req_set_at.
Qed.
Lemma same_resize {A B} (l : list A) (l' : list B) n x x' : same_len (resize l n x) (resize l' n x').
Proof. unfold same_len. now rewrite !resize_length. Qed.
Lemma same_repeat {A B} (x : A) (x' : B) n : same_len (repeat x n) (repeat x' n).
Proof. unfold same_len. now rewrite !repeat_length. Qed.

Section Two.
Context (T T' : tfhe) (same_n : t_n1 T = t_n1 T').
Notation N1 := (t_n1 T).

Lemma req_cmux_body g w w' c c' q : same_len w w' -> req anything (cmux_body T g w c q) (cmux_body T' g w' c' q).
Proof.
  intros L. unfold cmux_body. apply req_same; intros q0 _. apply req_same; intros q1 _.
  apply (req_bind anything); [now apply req_at|]. intros w0 w0' _.
  apply (req_bind anything); [now apply req_at|]. intros w1 w1' _. exact I.
Qed.
Lemma req_backstream_new g i n k z :
  req (fun s s' => pub_back s = pub_back s') (backstream_new T g i n k z) (backstream_new T' g i n k z).
Proof.
  unfold backstream_new. apply req_assert. destruct z; [reflexivity|].
  apply req_same; intros g' _. apply (req_bind same_len).
  - apply req_fold; [|apply same_repeat]. intros w w' st _ L. apply req_same; intros f _. now apply req_set_at.
  - intros w w' L. cbn. unfold pub_back. cbn. now rewrite L.
Qed.
Lemma req_online2_new g i r k z :
  req (fun s s' => pub_back s = pub_back s') (online2_new T g i r k z) (online2_new T' g i r k z).
Proof. unfold online2_new. apply req_same; intros g' _. apply req_backstream_new. Qed.
Lemma req_backstream_eval s s' c c' : pub_back s = pub_back s' ->
  req (fun s s' => pub_back s = pub_back s') (backstream_eval T s c) (backstream_eval T' s' c').
Proof.
  destruct s as [g w n i np wk ti], s' as [g' w' n' i' np' wk' ti']. unfold pub_back. cbn [b_graph b_weight b_input_size b_interval b_nproc b_timer].
  intros [= <- L <- <- <- <-]. unfold backstream_eval.
  cbn [b_graph b_weight b_input_size b_interval b_nproc b_timer b_work].
  apply req_same; intros states _. apply (req_bind same_len).
  { apply req_par; [|apply same_resize]. intros q _. now apply req_cmux_body. }
  intros w1 w1' L1. destruct (i =? 0); [reflexivity|]. destruct (S np mod i =? 0).
  - apply (req_bind same_len).
    + apply req_par; auto. intros q _. apply (req_bind anything); [now apply req_at|]. intros; exact I.
    + intros w2 w2' L2. cbn. now rewrite L2.
  - cbn. now rewrite L1.
Qed.
Lemma req_backstream_result s s' : pub_back s = pub_back s' ->
  req anything (backstream_result T s) (backstream_result T' s').
Proof.
  unfold pub_back. intros [= H1 L _ _ _ _]. unfold backstream_result. rewrite H1.
  apply (req_bind anything); [now apply req_at|]. intros; exact I.
Qed.

Lemma req_lookup_levels ins : forall ins' t t' w w' ti, length ins = length ins' -> same_len t t' -> same_len w w' ->
  req (fun x y => same_len (fst (fst x)) (fst (fst y)) /\ snd x = snd y)
    (lookup_levels T ins t w ti) (lookup_levels T' ins' t' w' ti).
Proof.
  induction ins as [|c ins IH]; intros [|c' ins'] t t' w w' ti L Lt Lw; try discriminate; cbn [lookup_levels].
  - cbn. auto.
  - injection L as L. rewrite L.
    apply (req_bind (fun x y => same_len (fst x) (fst y) /\ same_len (snd x) (snd y))).
    + unfold lookup_level. apply (req_bind same_len).
      * apply req_par; auto. intros q _. apply (req_bind anything); [now apply req_at|]. intros a a' _.
        apply (req_bind anything); [now apply req_at|]. intros; exact I.
      * intros x y H. cbn. auto.
    + intros [x1 x2] [y1 y2] [H1 H2]. cbn [fst snd] in *. now apply IH.
Qed.
Lemma req_lookup_timer ins ins' t t' w w' ti : length ins = length ins' -> same_len t t' ->
  req (fun x y => same_len (fst (fst x)) (fst (fst y)) /\ snd x = snd y)
    (lookup_table_with_timer T t ins w ti) (lookup_table_with_timer T' t' ins' w' ti).
Proof.
  intros L Lt. unfold lookup_table_with_timer. rewrite L. destruct (31 <=? length ins'); [reflexivity|].
  unfold same_len in Lt. rewrite Lt. apply req_assert. destruct (length ins' =? 0).
  - cbn. auto.
  - apply req_lookup_levels; auto. apply same_repeat.
Qed.
Lemma req_lookup ins ins' t t' w w' : length ins = length ins' -> same_len t t' ->
  req (fun x y => same_len (fst x) (fst y)) (lookup_table T t ins w) (lookup_table T' t' ins' w').
Proof.
  intros L Lt. unfold lookup_table. apply (req_bind _ _ _ _ _ _ (req_lookup_timer ins ins' t t' w w' [] L Lt)).
  intros [[x1 x2] x3] [[y1 y2] y3] [H _]. exact H.
Qed.

Lemma req_mult_X_k (a b : trlwe) k : req anything (TRLWELvl1_mult_X_k (t_n1 T) a k) (TRLWELvl1_mult_X_k (t_n1 T') b k).
Proof.
  rewrite <- same_n. unfold TRLWELvl1_mult_X_k, PolyLvl1_mult_X_k.
  destruct (k =? 0); [exact I|]. destruct (k <? N1); [exact I|]. destruct (N1 <? k - N1); [reflexivity|exact I].
Qed.
Lemma req_flut_new g md qs fr z :
  req (fun s s' => pub_flut T s = pub_flut T' s') (flut_new T g md qs fr z) (flut_new T' g md qs fr z).
Proof.
  unfold flut_new. destruct z; [reflexivity|]. apply (req_bind same_len).
  - apply req_fold; [|apply same_repeat]. intros w w' st _ L. destruct (st =? initial_state g); [now apply req_set_at|exact L].
  - intros w w' L. apply req_same; intros memo _. cbn. unfold pub_flut. cbn. now rewrite L.
Qed.
Lemma req_flut_queued s s' : pub_flut T s = pub_flut T' s' ->
  req (fun s s' => pub_flut T s = pub_flut T' s') (flut_eval_queued T s) (flut_eval_queued T' s').
Proof.
  destruct s as [g w q md qs li me ne fr fi se], s' as [g' w' q' md' qs' li' me' ne' fr' fi' se'].
  unfold pub_flut. cbn [f_graph f_weight f_queue f_max f_qsize f_live f_memo f_neval f_freq f_first f_second].
  intros [= <- Lw Lq <- <- <- <- <- <- <- <-]. unfold flut_eval_queued.
  cbn [f_graph f_weight f_queue f_max f_qsize f_live f_memo f_neval f_freq f_first f_second].
  rewrite <- Lq. destruct (length q =? 0); [cbn; now rewrite Lw, Lq|].
  destruct (31 <=? length q); [reflexivity|].
  apply req_same; intros memo _. apply req_same; intros next _. apply req_same; intros idx _.
  destruct (32 <=? md); [reflexivity|]. destruct (if md =? 31 then false else 2 ^ md <=? length next); [reflexivity|].
  cbv zeta. set (second := Nat.min _ _). set (first := _ - second). apply req_assert.
  apply (req_bind same_len).
  { apply req_par; [|apply same_repeat]. intros i1 _. unfold flut_entry.
    apply req_fold; [|exact I]. intros a a' st _ _. apply req_fold; [|exact I]. intros b b' i2 _ _.
    apply req_same; intros st_to _. apply (req_bind anything); [now apply req_at|]. intros x x' _.
    apply req_same; intros id _. apply (req_bind anything); [apply req_mult_X_k|]. intros; exact I. }
  intros t t' Lt. apply (req_bind (fun x y => same_len (fst x) (fst y))).
  { apply req_lookup; auto. rewrite !firstn_length. now rewrite Lq. }
  intros [t1 w1] [t1' w1'] L1. cbn [fst] in L1.
  apply (req_bind anything); [apply req_at, same_resize|]. intros t0 t0' _.
  apply (req_bind same_len).
  { apply req_par; [|apply same_resize]. intros i _. unfold flut_rotate. rewrite <- same_n.
    destruct (2 * N1 <? i * length next); [reflexivity|].
    pose proof (req_mult_X_k t0 t0' (2 * N1 - i * length next)) as X. rewrite <- same_n in X. exact X. }
  intros t2 t2' L2. apply (req_bind (fun x y => same_len (fst x) (fst y))).
  { apply req_lookup; auto. rewrite !skipn_length. now rewrite Lq. }
  intros [t3 w3] [t3' w3'] L3. cbn [fst] in L3.
  apply (req_bind anything); [now apply req_at|]. intros nt nt' _.
  destruct (fr =? 0); [reflexivity|].
  apply (req_bind same_len).
  { apply req_par; auto. intros st _. apply req_same; intros id _. exact I. }
  intros w4 w4' L4. cbn. now rewrite L4.
Qed.
Lemma req_flut_one s s' c c' : pub_flut T s = pub_flut T' s' ->
  req (fun s s' => pub_flut T s = pub_flut T' s') (flut_eval_one T s c) (flut_eval_one T' s' c').
Proof.
  intros H. unfold flut_eval_one. cbv zeta.
  match goal with |- req _ (if _ then Ok ?x else _) (if _ then Ok ?y else _) => set (x1 := x); set (y1 := y) end.
  assert (H1 : pub_flut T x1 = pub_flut T' y1).
  { unfold pub_flut in *. subst x1 y1. cbn [f_graph f_weight f_queue f_max f_qsize f_live f_memo f_neval f_freq f_first f_second] in *.
    rewrite !app_length. cbn [length]. injection H as -> -> -> -> -> -> -> -> -> -> ->. reflexivity. }
  assert (E : length (f_queue T x1) <? f_qsize T x1 = (length (f_queue T' y1) <? f_qsize T' y1)).
  { unfold pub_flut in H1. congruence. }
  rewrite E. destruct (length (f_queue T' y1) <? f_qsize T' y1); [exact H1|now apply req_flut_queued].
Qed.
Lemma req_flut_result s s' : pub_flut T s = pub_flut T' s' ->
  req (fun x y => pub_flut T (snd x) = pub_flut T' (snd y)) (flut_result T s) (flut_result T' s').
Proof.
  intros H. unfold flut_result. apply (req_bind _ _ _ _ _ _ (req_flut_queued s s' H)). clear s s' H. intros s s' H.
  apply (req_bind anything); [|intros; exact H].
  assert (H' := H). unfold pub_flut in H'. injection H' as -> Lw _ _ _ -> _ _ _ _ _.
  apply req_fold; [|exact I]. intros a a' st _ _. apply req_same; intros f _. destruct f; [|exact I].
  apply (req_bind anything); [now apply req_at|]. intros; exact I.
Qed.

Lemma req_block_new g qs z :
  req (fun s s' => pub_block T s = pub_block T' s') (block_new T g qs z) (block_new T' g qs z).
Proof. unfold block_new. destruct z; reflexivity. Qed.
Lemma req_init_weight w f t x x' :
  req anything (block_init_weight T w f t x) (block_init_weight T' w f t x').
Proof. unfold block_init_weight. rewrite <- same_n. destruct (N1 <=? w); [reflexivity|exact I]. Qed.
Lemma req_block_queued s s' : pub_block T s = pub_block T' s' ->
  req (fun s s' => pub_block T s = pub_block T' s') (block_eval_queued T s) (block_eval_queued T' s').
Proof.
  destruct s as [g qs q sel li ti], s' as [g' qs' q' sel' li' ti']. unfold pub_block.
  cbn [k_graph k_qsize k_queue k_selector k_live k_timer].
  intros [= <- <- Lq Hs <- <-]. unfold block_eval_queued.
  cbn [k_graph k_qsize k_queue k_selector k_live k_timer].
  rewrite <- Lq. destruct (length q =? 0); [cbn; now rewrite Lq, Hs|].
  apply req_same; intros levels _. apply req_same; intros n2i _.
  apply (req_bind same_len).
  { apply req_fold; [|apply same_repeat]. intros w w' x _ L.
    apply req_same; intros f _. apply req_same; intros t _. apply (req_bind anything); [now apply req_at|]. intros a a' _.
    apply (req_bind anything); [apply req_init_weight|]. intros b b' _. now apply req_set_at. }
  intros w w' Lw.
  apply (req_bind (fun x y => same_len (fst (fst x)) (fst (fst y)) /\ same_len (snd (fst x)) (snd (fst y)) /\ snd x = snd y)).
  { apply req_fold; [|cbn; repeat split; auto; apply same_repeat].
    intros [[w1 o1] t1] [[w1' o1'] t1'] i _ (H1 & H2 & H3). cbn [fst snd] in *. unfold block_propagate.
    apply req_same; intros states _. apply (req_bind anything); [now apply req_at|]. intros c c' _.
    apply (req_bind same_len); [apply req_par; auto; intros; now apply req_cmux_body|].
    intros o2 o2' L2. cbn. rewrite H3. auto. }
  intros [[w1 o1] t1] [[w1' o1'] t1'] (H1 & H2 & H3). cbn [fst snd] in *. subst t1'.
  destruct (length li =? 1).
  - apply req_same; intros x _. apply (req_bind anything); [now apply req_at|]. intros; reflexivity.
  - destruct sel as [sel|], sel' as [sel'|]; try discriminate; [|reflexivity].
    rewrite <- same_n. destruct (N1 <=? index_width (length li)); [reflexivity|].
    rewrite (fill_all_ok (fun i => CircuitBootstrappingFFTLvl11 T (sei T sel (i + 1)))).
    rewrite (fill_all_ok (fun i => CircuitBootstrappingFFTLvl11 T' (sei T' sel' (i + 1)))).
    cbn [bind]. rewrite <- (map_map (fun i => CircuitBootstrappingFFTLvl11 T (sei T sel (i + 1))) Some), mapM_some.
    rewrite <- (map_map (fun i => CircuitBootstrappingFFTLvl11 T' (sei T' sel' (i + 1))) Some), mapM_some.
    cbn [bind].
    apply (req_bind same_len).
    { apply req_fold; auto. intros o o' i _ L. apply req_same; intros x _.
      apply (req_bind anything); [now apply req_at|]. intros a a' _. now apply req_set_at. }
    intros o o' Lo.
    apply (req_bind (fun x y => same_len (fst (fst x)) (fst (fst y)) /\ snd x = snd y)).
    { apply req_lookup_timer; [now rewrite !map_length|apply same_resize]. }
    intros [[t2 ws2] ti2] [[t2' ws2'] ti2'] [L2 E2]. cbn [fst snd] in *. subst ti2'.
    apply (req_bind anything); [now apply req_at|]. intros; reflexivity.
Qed.
Lemma req_block_one s s' c c' : pub_block T s = pub_block T' s' ->
  req (fun s s' => pub_block T s = pub_block T' s') (block_eval_one T s c) (block_eval_one T' s' c').
Proof.
  intros H. unfold block_eval_one. cbv zeta.
  match goal with |- req _ (if _ then Ok ?x else _) (if _ then Ok ?y else _) => set (x1 := x); set (y1 := y) end.
  assert (H1 : pub_block T x1 = pub_block T' y1).
  { unfold pub_block in *. subst x1 y1. cbn [k_graph k_qsize k_queue k_selector k_live k_timer] in *.
    rewrite !app_length. cbn [length]. injection H as -> -> -> -> -> ->. reflexivity. }
  assert (E : length (k_queue T x1) <? k_qsize T x1 = (length (k_queue T' y1) <? k_qsize T' y1)).
  { unfold pub_block in H1. congruence. }
  rewrite E. destruct (length (k_queue T' y1) <? k_qsize T' y1); [exact H1|now apply req_block_queued].
Qed.
Lemma req_block_result s s' : pub_block T s = pub_block T' s' ->
  req (fun x y => pub_block T (snd x) = pub_block T' (snd y)) (block_result T s) (block_result T' s').
Proof.
  intros H. unfold block_result. apply (req_bind _ _ _ _ _ _ (req_block_queued s s' H)). clear s s' H. intros s s' H.
  assert (H' := H). unfold pub_block in H'. injection H' as _ _ _ Hs _ _.
  destruct (k_selector T s), (k_selector T' s'); try discriminate; [exact H|reflexivity].
Qed.

Lemma req_legacy_new lr g k z :
  req (fun s s' => pub_legacy s = pub_legacy s') (legacy_new T lr g k z) (legacy_new T' lr g k z).
Proof.
  unfold legacy_new. apply req_assert. destruct z; [reflexivity|]. apply (req_bind same_len).
  - apply req_fold; [|apply same_repeat]. intros w w' st _ L. now apply req_set_at.
  - intros w w' L. apply req_assert, req_assert. cbn. unfold pub_legacy. cbn. now rewrite L.
Qed.
Lemma req_legacy_one s s' c c' : pub_legacy s = pub_legacy s' ->
  req (fun s s' => pub_legacy s = pub_legacy s') (legacy_eval_one T s c) (legacy_eval_one T' s' c').
Proof.
  destruct s as [g w i np], s' as [g' w' i' np']. unfold pub_legacy. cbn [l_graph l_weight l_interval l_nproc].
  intros [= <- L <- <-]. unfold legacy_eval_one. cbn [l_graph l_weight l_interval l_nproc].
  assert (SUM : forall ps, req anything (legacy_sum T w ps) (legacy_sum T' w' ps)).
  { intros ps. apply req_fold; [|exact I]. intros a a' p _ _. apply (req_bind anything); [now apply req_at|]. intros; exact I. }
  apply (req_bind same_len).
  { rewrite L. apply req_par; [|apply same_repeat]. intros q _. apply req_same; intros p0 _. apply req_same; intros p1 _.
    apply (req_bind anything); [apply SUM|]. intros a a' _. apply (req_bind anything); [apply SUM|]. intros; exact I. }
  intros w1 w1' L1. destruct (S np mod i =? 0); cbn; rewrite ?map_length; now rewrite L1.
Qed.
End Two.

(** ** Histories *)
Lemma req_play {St St' C C' R R' P} (pub : St -> P) (pub' : St' -> P)
    (f : St -> C -> res St) (f' : St' -> C' -> res St') (a : St -> res (R * St)) (a' : St' -> res (R' * St')) :
  (forall s s' c c', pub s = pub' s' -> req (fun s s' => pub s = pub' s') (f s c) (f' s' c')) ->
  (forall s s', pub s = pub' s' -> req (fun x y => pub (snd x) = pub' (snd y)) (a s) (a' s')) ->
  forall h h' s s', shape h = shape h' -> pub s = pub' s' ->
  req (fun x y => length (fst x) = length (fst y) /\ pub (snd x) = pub' (snd y)) (play f a h s) (play f' a' h' s').
Proof.
  intros HF HA. induction h as [|[c|] h IH]; intros [|[c'|] h'] s s' HS HP; try discriminate; cbn [play].
  - cbn. auto.
  - cbn in HS. injection HS as HS. apply (req_bind _ _ _ _ _ _ (HF s s' c c' HP)). intros; apply IH; auto.
  - cbn in HS. injection HS as HS. apply (req_bind _ _ _ _ _ _ (HA s s' HP)). intros [r s1] [r' s1'] H1. cbn [snd] in H1.
    apply (req_bind _ _ _ _ _ _ (IH h' s1 s1' HS H1)). intros [rs s2] [rs' s2'] [H2 H3]. cbn in *. auto.
Qed.

(** ** Access patterns *)
Definition pre (l : list (bool * addr)) (x : list (bool * addr) * option fault) := (l ++ fst x, snd x).
Lemma trace_rd {V} a k (m : mem V) : trace (Rd a k) m = pre [(false, a)] (trace (k (m a)) m).
Proof. cbn. destruct (trace (k (m a)) m). reflexivity. Qed.
Lemma trace_wr {V} a v k (m : mem V) : trace (Wr a v k) m = pre [(true, a)] (trace k (store m a v)).
Proof. cbn. destruct (trace k (store m a v)). reflexivity. Qed.
Lemma pre_app l1 l2 x : pre l1 (pre l2 x) = pre (l1 ++ l2) x.
Proof. unfold pre. cbn. now rewrite app_assoc. Qed.
Lemma trace_reads {V} srcs (k : prog V) m : trace (reads srcs k) m = pre (map (fun a => (false, a)) srcs) (trace k m).
Proof.
  induction srcs as [|a srcs IH]; [unfold pre; cbn; now destruct (trace k m)|].
  cbn [reads map]. rewrite trace_rd, IH, pre_app. reflexivity.
Qed.
Fixpoint pat (srcs : list addr) (dst : addr) (n : nat) : list (bool * addr) :=
  match n with O => [(true, dst)] | S n => map (fun a => (false, a)) srcs ++ (true, dst) :: pat srcs dst n end.
Lemma trace_fill T srcs dst junk v k m : exists m1,
  trace (fill T srcs dst junk v k) m = pre (pat srcs dst (length junk)) (trace k m1) /\
  m1 dst = v /\ forall a, a <> dst -> m1 a = m a.
Proof.
  unfold fill. revert m. induction junk as [|j junk IH]; intros m; cbn [busy length pat].
  - exists (store m dst v). rewrite trace_wr. split; [reflexivity|]. split; [apply store_same|].
    intros a H. apply store_other. auto.
  - destruct (IH (store m dst j)) as (m1 & E & D & F). exists m1. rewrite trace_reads, trace_wr, E, !pre_app.
    split; [|split; [auto|]].
    + f_equal. now rewrite <- app_assoc.
    + intros a H. rewrite F by auto. apply store_other. auto.
Qed.

Section Access.
Context (T T' : tfhe) (same_n : t_n1 T = t_n1 T').
Notation N1 := (t_n1 T).

Lemma trace_ref b n i k k' (m : mem (cell T)) (m' : mem (cell T')) :
  (i < n -> trace (k (b, i)) m = trace (k' (b, i)) m') -> trace (ref T b n i k) m = trace (ref T' b n i k') m'.
Proof. intros H. unfold ref. destruct (Nat.ltb_spec i n); auto. Qed.
Lemma trace_lift {A} (r : res A) k k' (m : mem (cell T)) (m' : mem (cell T')) :
  (forall x, trace (k x) m = trace (k' x) m') -> trace (lift r k) m = trace (lift r k') m'.
Proof. intros H. destruct r; cbn; auto. Qed.
Lemma trace_rlwe b (l l' : list trlwe) i k k' (m : mem (cell T)) (m' : mem (cell T')) :
  vec T m b l -> vec T' m' b l' -> same_len l l' -> i < length l ->
  (forall c c', trace (k c) m = trace (k' c') m') ->
  trace (rd_rlwe T (b, i) k) m = trace (rd_rlwe T' (b, i) k') m'.
Proof.
  intros V V' L H K. unfold rd_rlwe. rewrite !trace_rd.
  destruct (at_lt l i H) as (v & _ & E). rewrite (V _ _ E).
  destruct (at_lt l' i) as (v' & _ & E'); [unfold same_len in L; lia|]. rewrite (V' _ _ E').
  f_equal. apply K.
Qed.
Lemma trace_fills srcs dst junk junk' v v' k k' (m : mem (cell T)) (m' : mem (cell T')) : length junk = length junk' ->
  (forall m1 m1', m1 dst = v -> m1' dst = v' -> (forall a, a <> dst -> m1 a = m a) -> (forall a, a <> dst -> m1' a = m' a) ->
     trace k m1 = trace k' m1') ->
  trace (fill T srcs dst junk v k) m = trace (fill T' srcs dst junk' v' k') m'.
Proof.
  intros L H. destruct (trace_fill T srcs dst junk v k m) as (m1 & -> & D & F).
  destruct (trace_fill T' srcs dst junk' v' k' m') as (m1' & -> & D' & F'). rewrite L. f_equal. now apply H.
Qed.

Lemma access_cmux g c c' w w' n junk junk' q (m : mem (cell T)) (m' : mem (cell T')) :
  vec T m B_weight w -> vec T' m' B_weight w' -> same_len w w' -> length junk = length junk' ->
  trace (cmux_task T g c (length w) n junk q) m = trace (cmux_task T' g c' (length w') n junk' q) m'.
Proof.
  intros V V' L LJ. unfold cmux_task. rewrite <- L.
  apply trace_lift; intros q0. apply trace_lift; intros q1.
  apply trace_ref; intros H0. apply trace_ref; intros H1. apply trace_ref; intros H2.
  apply (trace_rlwe _ w w'); auto. intros. apply (trace_rlwe _ w w'); auto. intros. apply trace_fills; auto.
Qed.
Lemma access_bootstrap w w' junk junk' q (m : mem (cell T)) (m' : mem (cell T')) :
  vec T m B_weight w -> vec T' m' B_weight w' -> same_len w w' -> length junk = length junk' ->
  trace (bootstrap_task T (length w) junk q) m = trace (bootstrap_task T' (length w') junk' q) m'.
Proof.
  intros V V' L LJ. unfold bootstrap_task. rewrite <- L. apply trace_ref; intros H0.
  apply (trace_rlwe _ w w'); auto. intros. apply trace_fills; auto.
Qed.
Lemma access_lookup c c' t t' n junk junk' j (m : mem (cell T)) (m' : mem (cell T')) :
  vec T m B_table t -> vec T' m' B_table t' -> same_len t t' -> length junk = length junk' ->
  trace (lookup_task T c (length t) n junk j) m = trace (lookup_task T' c' (length t') n junk' j) m'.
Proof.
  intros V V' L LJ. unfold lookup_task. rewrite <- L.
  apply trace_ref; intros H0. apply trace_ref; intros H1. apply trace_ref; intros H2.
  apply (trace_rlwe _ t t'); auto. intros. apply (trace_rlwe _ t t'); auto. intros. apply trace_fills; auto.
Qed.
Lemma access_entry g memo st2idx nnext first w w' nt junk junk' i1 work : forall (m : mem (cell T)) (m' : mem (cell T')) acc acc',
  vec T m B_weight w -> vec T' m' B_weight w' -> same_len w w' -> (forall k, length (junk k) = length (junk' k)) ->
  m (B_table, i1) = C_rlwe T acc -> m' (B_table, i1) = C_rlwe T' acc' ->
  trace (entry_task T g memo st2idx nnext first (length w) nt junk i1 work) m =
  trace (entry_task T' g memo st2idx nnext first (length w') nt junk' i1 work) m'.
Proof.
  induction work as [|[st i2] work IH]; intros m m' acc acc' V V' L LJ A A'; [reflexivity|].
  cbn [entry_task]. rewrite <- L. apply trace_lift; intros st_to. apply trace_ref; intros H0. apply trace_lift; intros idx.
  apply (trace_rlwe _ w w'); auto. intros x x'.
  pose proof (req_mult_X_k T T' same_n x x' (i2 * nnext + idx)) as X.
  destruct (TRLWELvl1_mult_X_k (t_n1 T) x _), (TRLWELvl1_mult_X_k (t_n1 T') x' _); cbn in X; try tauto;
    cbn [lift]; [|subst; reflexivity].
  apply trace_ref; intros H1. unfold rd_rlwe. rewrite !trace_rd, A, A'. f_equal.
  apply trace_fills; auto. intros m1 m1' D D' F F'.
  unfold same_len in L. rewrite L at 2. eapply IH; eauto.
  - intros i v Hi. rewrite F by discriminate. auto.
  - intros i v Hi. rewrite F' by discriminate. auto.
Qed.
Lemma access_rotate nnext t t' junk junk' i (m : mem (cell T)) (m' : mem (cell T')) :
  vec T m B_table t -> vec T' m' B_table t' -> same_len t t' -> length junk = length junk' ->
  trace (rotate_task T nnext (length t) junk i) m = trace (rotate_task T' nnext (length t') junk' i) m'.
Proof.
  intros V V' L LJ. unfold rotate_task. rewrite <- L, <- same_n.
  apply trace_ref; intros H0. apply trace_ref; intros H1. apply (trace_rlwe _ t t'); auto. intros x x'.
  destruct (2 * N1 <? i * nnext); [reflexivity|].
  pose proof (req_mult_X_k T T' same_n x x' (2 * N1 - i * nnext)) as X. rewrite <- same_n in X.
  destruct (TRLWELvl1_mult_X_k N1 x _), (TRLWELvl1_mult_X_k N1 x' _); cbn in X; try tauto;
    cbn [lift]; [|subst; reflexivity].
  apply trace_fills; auto.
Qed.
Lemma access_refresh bs st2idx t t' n junk junk' st (m : mem (cell T)) (m' : mem (cell T')) :
  vec T m B_table t -> vec T' m' B_table t' -> same_len t t' -> 0 < length t -> length junk = length junk' ->
  trace (refresh_task T bs st2idx n junk st) m = trace (refresh_task T' bs st2idx n junk' st) m'.
Proof.
  intros V V' L HL LJ. unfold refresh_task. apply trace_lift; intros idx. apply (trace_rlwe _ t t'); auto. intros x x'.
  apply trace_ref; intros H0. apply trace_fills; auto.
Qed.
Lemma access_extract sel sel' n junk junk' i (m : mem (cell T)) (m' : mem (cell T')) :
  m (B_sel, 0) = C_rlwe T sel -> m' (B_sel, 0) = C_rlwe T' sel' -> length junk = length junk' ->
  trace (extract_task T n junk i) m = trace (extract_task T' n junk' i) m'.
Proof.
  intros V V' LJ. unfold extract_task. apply trace_ref; intros H0. unfold rd_rlwe. rewrite !trace_rd, V, V'. f_equal.
  apply trace_fills; auto.
Qed.
Lemma access_cb (c c' : nat -> tlwe) nws n junk junk' i (m : mem (cell T)) (m' : mem (cell T')) :
  (forall i, i < nws -> m (B_ws4, i) = C_lwe T (c i)) -> (forall i, i < nws -> m' (B_ws4, i) = C_lwe T' (c' i)) ->
  length junk = length junk' ->
  trace (cb_task T nws n junk i) m = trace (cb_task T' nws n junk' i) m'.
Proof.
  intros V V' LJ. unfold cb_task. apply trace_ref; intros H0. apply trace_ref; intros H1.
  unfold rd_lwe. rewrite !trace_rd, V, V' by auto. f_equal. apply trace_fills; auto.
Qed.
End Access.
