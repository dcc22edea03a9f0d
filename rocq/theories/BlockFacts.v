(** OnlineDFARunner4 (BLOCK): lemmas. *)
From Coq Require Import List Arith Bool NArith ZArith Lia.
From Coq Require Import ZifyBool ZifyNat ZifyN.
Import ListNotations.
From Verif Require Import Base BaseFacts GraphModel Spec GraphFacts GraphOps TorusModel TfheSpec TorusFacts TfheFacts
  RunnerModel RunnerFacts LookupFacts RunnerSpec ReachFacts FlutFacts.

Lemma index_width_bound : forall n, 0 < n -> n <= 2 ^ index_width n.
Proof. intros n H. unfold index_width. pose proof (Nat.log2_spec n H). replace (Nat.log2 n + 1) with (S (Nat.log2 n)) by lia. lia. Qed.
Lemma index_width_mono : forall n m, n <= m -> index_width n <= index_width m.
Proof. intros n m H. unfold index_width. pose proof (Nat.log2_le_mono n m H). lia. Qed.

Lemma block_index_ok : forall g next, NoDup next -> (forall q, In q next -> q < size g) ->
  exists v, block_index g next = Ok v /\ length v = size g /\
    forall i q, nth_error next i = Some q -> nth_error v q = Some (Some i).
Proof.
  intros g next ND HL. unfold block_index.
  assert (G : forall n, n <= length next -> exists v,
     foldM (fun v i => do q <- at_ next i; set_at v q (Some i)) (seq 0 n) (repeat None (size g)) = Ok v /\ length v = size g /\
     forall i q, i < n -> nth_error next i = Some q -> nth_error v q = Some (Some i)).
  { induction n as [|n IH]; intros Hn.
    - exists (repeat None (size g)). cbn. split; [auto|]. split; [apply repeat_length|lia].
    - destruct IH as (v & E & LV & P); [lia|]. rewrite seq_S, foldM_app, E. cbn [bind foldM Nat.add].
      destruct (nth_error_some_lt next n) as [q Eq]; [lia|]. unfold at_. rewrite Eq. cbn [bind].
      rewrite set_at_lt by (rewrite LV; apply HL; eapply nth_error_In; eauto). cbn [bind].
      eexists. split; [reflexivity|]. split; [rewrite upd_length; auto|].
      intros i p Hi Hp. rewrite upd_nth, LV. destruct (Nat.eqb_spec q p) as [->|NE].
      + assert (i = n) as -> by (eapply is_set_nth_inj; eauto).
        replace (p <? size g) with true by (symmetry; apply Nat.ltb_lt, HL; eapply nth_error_In; eauto). reflexivity.
      + cbn [andb]. apply P; auto. assert (i <> n) by congruence. lia. }
  destruct (G (length next) (le_n _)) as (v & E & LV & P). exists v. split; [exact E|]. split; [exact LV|].
  intros i q H. apply P; auto. eapply nth_error_lt; eauto.
Qed.

Lemma Forall2_nth : forall {A B} (R : A -> B -> Prop) l l', Forall2 R l l' ->
  forall i a b, nth_error l i = Some a -> nth_error l' i = Some b -> R a b.
Proof. induction 1; intros [|i] c d Hc Hd; cbn in *; try discriminate; [congruence|eauto]. Qed.
Lemma skipn_nth : forall {A} (v : list A) i b, nth_error v i = Some b -> skipn i v = b :: skipn (S i) v.
Proof.
  induction v as [|x v IH]; intros [|i] b H; try discriminate; [injection H as <-; reflexivity|].
  cbn [nth_error] in H. cbn [skipn]. rewrite (IH i b H). reflexivity.
Qed.
Lemma put_length : forall p i v, length (put p i v) = length p.
Proof. intros. unfold put. apply upd_length. Qed.
(** Coefficients of an initial weight *)
Lemma put_fold : forall (f : nat -> Z) width b n, length b = n -> width < n ->
  length (fold_left (fun b i => put b (i + 1) (f i)) (seq 0 width) b) = n /\
  nth 0 (fold_left (fun b i => put b (i + 1) (f i)) (seq 0 width) b) 0%Z = nth 0 b 0%Z /\
  forall i, i < width -> eqm (nth (S i) (fold_left (fun b i => put b (i + 1) (f i)) (seq 0 width) b) 0%Z) (f i).
Proof.
  intros f. induction width as [|w IH]; intros b n LB LW.
  - cbn. split; [auto|]. split; [auto|lia].
  - destruct (IH b n LB ltac:(lia)) as (I1 & I2 & I3). rewrite seq_S, fold_left_app. cbn [fold_left Nat.add].
    set (b' := fold_left _ (seq 0 w) b) in *. split; [rewrite put_length; auto|]. split; [rewrite nth_put_other by lia; auto|].
    intros i Hi. destruct (Nat.eq_dec i w) as [->|NE].
    + replace (w + 1) with (S w) by lia. rewrite nth_put_same by lia. apply w32_m.
    + rewrite nth_put_other by lia. apply I3. lia.
Qed.

Section Block.
Context (T : tfhe) (s0 s1 : list Z) (bit : trgsw T -> bool -> Prop) (E : noise).
Hypothesis OK : tfhe_ok T s0 s1 bit E.
Hypothesis NN : noise_nonneg E.
Notation phR := (trlwe_phase (t_n1 T) s1).
Notation N1 := (t_n1 T).

Lemma init_weight_ok : forall width final t, width < N1 ->
  exists w, block_init_weight T width final (Some t) (trivial_TRLWELvl1_zero N1) = Ok w /\
    eqm (phR w 0) (msg_0_1o2 final) /\ forall i, i < width -> eqm (phR w (S i)) (msg_1o8 (Nat.testbit t i)).
Proof.
  intros width final t Hw. unfold block_init_weight. destruct (Nat.leb_spec N1 width); [lia|].
  cbv zeta. set (f := fun i => if block_bit (Some t) i then t_1o8 else (- t_1o8)%Z).
  unfold trivial_TRLWELvl1_zero. cbn [fst snd].
  set (b0 := put (repeat 0%Z N1) 0 (if final then t_1o2 else 0%Z)).
  assert (L0 : length b0 = N1) by (unfold b0; rewrite put_length, repeat_length; reflexivity).
  destruct (put_fold f width b0 N1 L0 Hw) as (P1 & P2 & P3).
  eexists. split; [reflexivity|]. split.
  - rewrite trivial_phase by (try apply (ok_n1 _ _ _ _ _ OK)). etransitivity; [apply eqm_refl'; exact P2|]. unfold b0. rewrite nth_put_same by (rewrite repeat_length; lia).
    unfold msg_0_1o2. apply w32_m.
  - intros i Hi. rewrite trivial_phase by lia. etransitivity; [apply (P3 i Hi)|]. reflexivity.
Qed.

Context (g : Graph) (Wg : wf_graph g) (qsize : nat).
Hypothesis HwN : index_width (size g) < N1.
Hypothesis Hw31 : index_width (size g) < 31.
Hypothesis HM : block_margin g qsize E.
Notation init := (initial_state g).

(** What a selector holds, when the current state is number t *)
Definition holds (e : Z) (width : nat) (final : bool) (t : nat) (w : trlwe) : Prop :=
  near e (phR w 0) (msg_0_1o2 final) /\ forall i, i < width -> near e (phR w (S i)) (msg_1o8 (Nat.testbit t i)).

Lemma holds_cmux : forall e width f t c b w1 w0 w, width < N1 -> bit c b -> holds e width f t w -> w = (if b then w1 else w0) ->
  holds (e + e_cmux E) width f t (cmux T c w1 w0).
Proof.
  intros e width f t c b w1 w0 w HW Hc [H1 H2] ->. split.
  - eapply near_le; [eapply near_trans; [apply (ok_cmux _ _ _ _ _ OK c b w1 w0 0 Hc), (ok_n1 _ _ _ _ _ OK)|exact H1]|lia].
  - intros i Hi. eapply near_le; [eapply near_trans; [apply (ok_cmux _ _ _ _ _ OK c b w1 w0 (S i) Hc); lia|apply H2, Hi]|lia].
Qed.

Record block_inv (u v : list bool) (s : block T) : Prop := mkBInv {
  bi_graph : k_graph T s = g;
  bi_q : k_qsize T s = qsize;
  bi_live : reach_set g (length u) (k_live T s);
  bi_queue : Forall2 bit (k_queue T s) v;
  bi_sel : match k_selector T s with
           | None => u = []
           | Some w => u <> [] /\ exists t, nth_error (k_live T s) t = Some (run g init u) /\
               holds (block_noise g qsize E) (index_width (length (k_live T s))) (fin g (run g init u)) t w
           end }.

(** Propagation through the queue *)
Lemma propagate_ok : forall levels queue v next width (lab : nat -> nat) tm, width < N1 ->
  Forall2 bit queue v -> length levels = S (length v) ->
  (forall k l, nth_error levels k = Some l -> NoDup l /\ forall p, In p l -> p < size g) ->
  (forall k l l' p b, nth_error levels k = Some l -> nth_error levels (S k) = Some l' -> In p l -> In (nxt g p b) l') ->
  nth_error levels (length v) = Some next ->
  forall weight out, length weight = size g -> length out = size g ->
  (forall p, In p next -> exists w, nth_error weight p = Some w /\ holds 0 width (fin g p) (lab p) w) ->
  forall n, n <= length v ->
  exists weight' out' tm', foldM (block_propagate T g levels queue) (rev (seq (length v - n) n)) (weight, out, tm) = Ok (weight', out', tm') /\
    length weight' = size g /\ length out' = size g /\
    forall l, nth_error levels (length v - n) = Some l -> forall p, In p l -> exists w, nth_error weight' p = Some w /\
      holds (Z.of_nat n * e_cmux E) width (fin g (run g p (skipn (length v - n) v))) (lab (run g p (skipn (length v - n) v))) w.
Proof.
  intros levels queue v next width lab tm HW HQ LL HL1 HL2 EN weight out LW LO HWt.
  induction n as [|n IH]; intros Hn.
  - exists weight, out, tm. cbn [seq rev foldM]. split; [reflexivity|]. split; [auto|]. split; [auto|].
    rewrite Nat.sub_0_r. intros l El p Hp. rewrite EN in El. injection El as <-.
    rewrite skipn_all. cbn [run fold_left]. destruct (HWt p Hp) as (w & Ew & Hw). eauto.
  - destruct IH as (wt & ot & tm1 & EF & L1 & L2 & P); [lia|].
    set (i := length v - S n). replace (length v - n) with (S i) in * by (subst i; lia).
    cbn [seq rev]. rewrite foldM_app, EF. cbn [bind foldM].
    unfold block_propagate at 1. 
    destruct (nth_error_some_lt levels i) as [l El]; [lia|].
    destruct (nth_error_some_lt levels (S i)) as [l' El']; [lia|].
    pose proof (Forall2_len _ _ _ HQ) as LQ.
    destruct (nth_error_some_lt queue i) as [c Ec]; [subst i; lia|].
    destruct (nth_error_some_lt v i) as [b Eb]; [subst i; lia|].
    unfold at_ at 1. rewrite El. cbn [bind]. unfold at_ at 1. rewrite Ec. cbn [bind].
    destruct (HL1 i l El) as [ND HB].
    assert (Hcb : bit c b).
    { eapply Forall2_nth; eauto. }
    assert (BODY : forall p, In p l -> exists w0 w1, nth_error wt (nxt g p false) = Some w0 /\
       nth_error wt (nxt g p true) = Some w1 /\ cmux_body T g wt c p = Ok (cmux T c w1 w0)).
    { intros p Hp. destruct (P l' El' _ (HL2 i l l' p false El El' Hp)) as (w0 & E0 & _).
      destruct (P l' El' _ (HL2 i l l' p true El El' Hp)) as (w1 & E1 & _). exists w0, w1. split; [auto|]. split; [auto|].
      unfold cmux_body. rewrite !next_state_nxt by auto. cbn [bind]. unfold at_. rewrite E0, E1. reflexivity. }
    destruct (par_for_ok (cmux_body T g wt c) l ot ND) as (o & EO & LO' & PO & _).
    { intros p Hp. rewrite L2. auto. }
    { intros p Hp. destruct (BODY p Hp) as (w0 & w1 & _ & _ & ->). eauto. }
    rewrite EO. cbn [bind]. do 3 eexists. split; [reflexivity|]. split; [congruence|]. split; [auto|].
    intros l2 El2 p Hp. injection El2 as <-.
    destruct (BODY p Hp) as (w0 & w1 & E0 & E1 & EB). destruct (PO p Hp) as (w & Ew & Hw).
    rewrite EB in Ew. injection Ew as <-. eexists. split; [exact Hw|].
    assert (SK : skipn i v = b :: skipn (S i) v).
    { apply skipn_nth, Eb. }
    rewrite SK. cbn [run fold_left].
    destruct (P l' El' _ (HL2 i l l' p b El El' Hp)) as (w & E2 & Hw2).
    replace (Z.of_nat (S n) * e_cmux E)%Z with (Z.of_nat n * e_cmux E + e_cmux E)%Z by lia.
    eapply holds_cmux; [exact HW|exact Hcb|exact Hw2|]. destruct b; congruence.
Qed.

(** The initial weights *)
Lemma block_weights_ok : forall next n2i width, NoDup next -> (forall p, In p next -> p < size g) -> width < N1 ->
  (forall i p, nth_error next i = Some p -> nth_error n2i p = Some (Some i)) ->
  exists weight, foldM (fun weight q =>
                   do f <- is_final_state g q;
                   do t <- at_ n2i q;
                   do w <- at_ weight q;
                   do w' <- block_init_weight T width f t w;
                   set_at weight q w') next (repeat (trivial_TRLWELvl1_zero N1) (size g)) = Ok weight /\
    length weight = size g /\
    forall i p, nth_error next i = Some p -> exists w, nth_error weight p = Some w /\ holds 0 width (fin g p) i w.
Proof.
  intros next n2i width ND HL HW HI.
  assert (G : forall l, NoDup l -> incl l next -> forall weight, length weight = size g ->
    (forall p, In p l -> nth_error weight p = Some (trivial_TRLWELvl1_zero N1)) ->
    exists weight', foldM (fun weight q =>
                   do f <- is_final_state g q;
                   do t <- at_ n2i q;
                   do w <- at_ weight q;
                   do w' <- block_init_weight T width f t w;
                   set_at weight q w') l weight = Ok weight' /\ length weight' = size g /\
      (forall p, ~ In p l -> nth_error weight' p = nth_error weight p) /\
      forall i p, In p l -> nth_error next i = Some p -> exists w, nth_error weight' p = Some w /\ holds 0 width (fin g p) i w).
  { induction l as [|x l IH]; intros NDl IN weight LWt HZ.
    - exists weight. cbn. split; [auto|]. split; [auto|]. split; [auto|]. intros i p [].
    - inversion NDl as [|? ? NI NDl']; subst. cbn [foldM].
      assert (In x next) as Hx by (apply IN; left; auto).
      pose proof (HL x Hx) as Lx. rewrite is_final_fin by auto. cbn [bind].
      destruct (In_nth_error _ _ Hx) as [ix Eix]. unfold at_ at 1. rewrite (HI _ _ Eix). cbn [bind].
      unfold at_ at 1. rewrite HZ by (left; auto). cbn [bind].
      destruct (init_weight_ok width (fin g x) ix HW) as (w & Ew & W0 & WS). rewrite Ew. cbn [bind].
      rewrite set_at_lt by lia. cbn [bind].
      destruct (IH NDl' (fun y Hy => IN y (or_intror Hy)) (upd x w weight)) as (wt & EF & LF & PF & QF).
      { rewrite upd_length; auto. }
      { intros p Hp. rewrite upd_neq by (intros ->; contradiction). apply HZ. right; auto. }
      exists wt. split; [exact EF|]. split; [exact LF|]. split.
      + intros p Hp. rewrite PF by (intros C; apply Hp; right; auto). apply upd_neq. intros ->. apply Hp. left; auto.
      + intros i p [<-|Hp] Ei; [|apply QF; auto].
        assert (i = ix) as -> by exact (is_set_nth_inj _ ND _ _ _ Ei Eix).
        exists w. split; [rewrite PF by auto; apply upd_eq; lia|].
        split; [apply near_eqm; [lia|exact W0]|]. intros j Hj. apply near_eqm; [lia|]. apply WS, Hj. }
  destruct (G next ND (incl_refl _) (repeat (trivial_TRLWELvl1_zero N1) (size g))) as (wt & EF & LF & _ & QF).
  - apply repeat_length.
  - intros p Hp. apply nth_error_repeat. auto.
  - exists wt. split; [exact EF|]. split; [exact LF|]. intros i p Hi. apply QF; auto. eapply nth_error_In; eauto.
Qed.

Lemma holds_le : forall e e' width f t w, holds e width f t w -> (e <= e')%Z -> holds e' width f t w.
Proof. intros e e' width f t w [H1 H2] L. split; [eapply near_le; eauto|]. intros i Hi. eapply near_le; eauto. Qed.
Lemma nth_error_last : forall {A} (l : list A) d n, length l = S n -> nth_error l n = Some (last l d).
Proof.
  intros A l d. induction l as [|x l IH]; intros n H; [discriminate|]. cbn in H. destruct l as [|y l].
  - cbn in H. injection H as <-. reflexivity.
  - destruct n as [|n]; [discriminate|]. cbn [nth_error]. rewrite IH by (cbn in *; lia). reflexivity.
Qed.

Lemma block_eval_ok : forall u v s, block_inv u v s -> length v <= Nat.max qsize 1 -> v <> [] ->
  exists s', block_eval_queued T s = Ok s' /\ block_inv (u ++ v) [] s'.
Proof.
  intros u v s HI LV NEv. destruct HI as [Eg Eq HL HQ HS].
  destruct NN as (A1 & A2 & A3 & A4 & A5 & A6). pose proof (ok_n1 _ _ _ _ _ OK) as Hn.
  unfold block_eval_queued. cbv zeta. rewrite Eg, Eq. pose proof (Forall2_len _ _ _ HQ) as LQ. rewrite LQ.
  destruct (Nat.eqb_spec (length v) 0) as [Z0|Z0]; [destruct v; [congruence|discriminate]|].
  set (live := k_live T s) in *.
  destruct (track_live_states_correct g live (length v) Wg (fun p => reach_lt g Wg _ _ p HL)) as (L & EL & LL & H0 & HLv).
  rewrite EL. cbn [bind]. set (next := last L []).
  assert (EN : nth_error L (length v) = Some next) by (apply nth_error_last; auto).
  assert (HLR : forall k l, nth_error L k = Some l -> is_set l /\ forall p, In p l <-> exists q w, In q live /\ length w = k /\ run g q w = p).
  { intros k l Ek. destruct (HLv k l Ek) as [S1 P1]. split.
    - destruct k; [|apply S1; lia]. rewrite H0 in Ek. injection Ek as <-. apply HL.
    - intros p. rewrite P1. split; intros (r & w & Hr & Lw & R); exists r, w; (split; [auto|]); (split; [auto|]);
        rewrite run_from_run in * by (auto; apply (reach_lt g Wg _ _ _ HL Hr)); congruence. }
  assert (HR : reach_set g (length u + length v) next).
  { destruct (HLR _ _ EN) as [S1 P1]. eapply reach_step; eauto. }
  assert (ND : NoDup next) by (apply is_set_NoDup, HR).
  assert (NB : forall p, In p next -> p < size g) by (intros p; apply (reach_lt g Wg _ _ p HR)).
  destruct (block_index_ok g next ND NB) as (n2i & EI & LI & HIx). rewrite EI. cbn [bind].
  assert (NW : index_width (length next) <= index_width (size g)) by (apply index_width_mono, (reach_len g Wg _ _ HR)).
  set (nw := index_width (length next)) in *.
  destruct (block_weights_ok next n2i nw ND NB ltac:(lia) HIx) as (weight & EW & LW & PW). rewrite EW. cbn [bind].
  (* label of a state: its index among the next live states *)
  set (lab := fun p => match nth_error n2i p with Some (Some i) => i | _ => 0 end).
  assert (PW' : forall p, In p next -> exists w, nth_error weight p = Some w /\ holds 0 nw (fin g p) (lab p) w).
  { intros p Hp. destruct (In_nth_error _ _ Hp) as [i Ei]. unfold lab. rewrite (HIx _ _ Ei). apply PW, Ei. }
  destruct (propagate_ok L (k_queue T s) v next nw lab (k_timer T s) ltac:(lia) HQ LL) with
     (weight := weight) (out := repeat (trivial_TRLWELvl1_zero N1) (size g)) (n := length v)
     as (wt & ot & tm & EP & LWt & LOt & PP); auto.
  { intros k l Ek. destruct (HLR k l Ek) as [S1 P1]. split; [apply is_set_NoDup, S1|].
    intros p Hp. apply P1 in Hp as (r & w & Hr & _ & <-). apply run_lt; auto. apply (reach_lt g Wg _ _ _ HL Hr). }
  { intros k l l' p b Ek Ek' Hp. destruct (HLR k l Ek) as [_ P1]. destruct (HLR (S k) l' Ek') as [_ P2].
    apply P1 in Hp as (r & w & Hr & Lw & <-). apply P2. exists r, (w ++ [b]). rewrite app_length, run_app. cbn.
    split; [auto|]. split; [lia|reflexivity]. }
  { apply repeat_length. }
  rewrite Nat.sub_diag in EP, PP. rewrite EP. cbn [bind].
  specialize (PP live H0). cbn [skipn] in PP.
  set (cur := run g init u) in *.
  assert (HC : In cur live) by (apply HL; exists u; auto).
  assert (RV : forall p, run g p v = run g p v) by auto.
  assert (LAB : nth_error next (lab (run g init (u ++ v))) = Some (run g init (u ++ v))).
  { assert (In (run g init (u ++ v)) next) as Hin by (apply HR; exists (u ++ v); rewrite app_length; auto).
    destruct (In_nth_error _ _ Hin) as [i Ei]. unfold lab. rewrite (HIx _ _ Ei). exact Ei. }
  assert (BN : forall width, width <= index_width (size g) ->
      (Z.of_nat (length v) * e_cmux E + Z.of_nat width * e_cmux E <= block_noise g qsize E)%Z).
  { intros width Hw. unfold block_noise. fold (index_width (size g)). nia. }
  assert (NE2 : u ++ v <> []) by (destruct u; [exact NEv|discriminate]).
  destruct (Nat.eqb_spec (length live) 1) as [L1|L1].
  - assert (EC : live = [cur]).
    { destruct live as [|x [|y live']]; cbn in L1; try lia. destruct HC as [->|[]]. reflexivity. }
    unfold at_ at 1. rewrite EC. cbn [nth_error bind].
    destruct (PP cur HC) as (w & Ew & Hw). unfold at_. rewrite Ew. cbn [bind].
    eexists. split; [reflexivity|]. constructor; cbn [k_graph k_qsize k_queue k_selector k_live k_timer]; auto.
    + rewrite app_length. exact HR.
    + split; [exact NE2|]. exists (lab (run g init (u ++ v))). split; [exact LAB|].
      subst cur. rewrite <- run_app in Hw. eapply holds_le; [exact Hw|]. pose proof (BN 0 ltac:(lia)). lia.
  - set (width := index_width (length live)) in *.
    assert (WW : width <= index_width (size g)) by (apply index_width_mono, (reach_len g Wg _ _ HL)).
    destruct (k_selector T s) as [sel|].
    2:{ exfalso. subst u. destruct HL as [IS HL]. apply L1.
        assert (forall p, In p live -> p = init) as A.
        { intros p Hp. apply HL in Hp as ([|] & Lw & <-); [reflexivity|discriminate]. }
        pose proof (is_set_NoDup _ IS) as NDl. destruct live as [|x [|y l]]; [destruct HC|reflexivity|].
        exfalso. inversion NDl as [|? ? NI _]; subst. apply NI. left. rewrite (A x), (A y) by (cbn; auto). reflexivity. }
    destruct HS as [NEu (t & Et & HSel)]. fold live in Et.
    destruct (Nat.leb_spec N1 width); [lia|].
    set (body := fun i => Ok (Some (CircuitBootstrappingFFTLvl11 T (sei T sel (i + 1))))).
    destruct (par_for_ok body (seq 0 width) (repeat None width) (seq_NoDup _ _)) as (cond & EC & LC & PC & _).
    { intros q Hq. apply in_seq in Hq. rewrite repeat_length. lia. }
    { intros q Hq. unfold body. eauto. }
    rewrite EC. cbn [bind]. rewrite repeat_length in LC.
    assert (PC' : forall i, i < width -> nth_error cond i = Some (Some (cbfft T (sei T sel (i + 1))))).
    { intros i Hi. destruct (PC i) as (c & Ec & Hc); [apply in_seq; lia|]. unfold body in Ec. injection Ec as <-. exact Hc. }
    set (cts := map (fun i => cbfft T (sei T sel (i + 1))) (seq 0 width)).
    assert (EM : mapM (fun c => match c with Some c => Ok c | None => Fail FUndefined end) cond = Ok cts).
    { assert (cond = map (fun i => Some (cbfft T (sei T sel (i + 1)))) (seq 0 width)) as ->.
      { apply nth_error_ext. intros i. destruct (Nat.lt_ge_cases i width) as [Hi|Hi].
        - rewrite PC', nth_error_map, nth_error_seq by auto. reflexivity.
        - rewrite (proj2 (nth_error_None cond i)) by lia. symmetry. apply nth_error_None. rewrite map_length, seq_length. auto. }
      unfold cts. clear. induction (seq 0 width) as [|x l IH]; cbn [map mapM bind]; [reflexivity|]. cbn [bind]. rewrite IH. reflexivity. }
    rewrite EM. cbn [bind].
    (* gathering the weights of the live states *)
    assert (GA : forall n, n <= length live -> exists out, foldM (fun out i => do q <- at_ live i; do w <- at_ wt q; set_at out i w) (seq 0 n) ot = Ok out /\
       length out = size g /\ forall i p, i < n -> nth_error live i = Some p -> nth_error out i = nth_error wt p).
    { pose proof (reach_len g Wg _ _ HL) as RL. fold live in RL.
      induction n as [|n IH]; intros Hnn.
      - exists ot. cbn. split; [auto|]. split; [auto|]. lia.
      - destruct IH as (o & EO & LO & PO); [lia|]. rewrite seq_S, foldM_app, EO. cbn [bind foldM Nat.add].
        destruct (nth_error_some_lt live n) as [p Ep]; [lia|]. unfold at_ at 1. rewrite Ep. cbn [bind].
        destruct (PP p (nth_error_In _ _ Ep)) as (w & Ew & _). unfold at_. rewrite Ew. cbn [bind].
        rewrite set_at_lt by lia. cbn [bind]. eexists. split; [reflexivity|]. split; [rewrite upd_length; auto|].
        intros i r Hi Er. destruct (Nat.eq_dec i n) as [->|NEi].
        + rewrite upd_eq by lia. congruence.
        + rewrite upd_neq by lia. apply PO; auto. lia. }
    destruct (GA (length live) (le_n _)) as (out & EO & LO & PO). rewrite EO. cbn [bind].
    set (table := resize out (2 ^ width) (trivial_TRLWELvl1_zero N1)).
    assert (LT : length table = 2 ^ width) by apply resize_length.
    assert (Lt : t < length live) by (eapply nth_error_lt; eauto).
    assert (TW : t < 2 ^ width).
    { eapply Nat.lt_le_trans; [exact Lt|]. apply index_width_bound. lia. }
    assert (BITS : Forall2 bit cts (val_bits width t)).
    { unfold cts, val_bits. assert (G : forall l, (forall i, In i l -> i < width) ->
         Forall2 bit (map (fun i => cbfft T (sei T sel (i + 1))) l) (map (Nat.testbit t) l)).
      { induction l as [|i l IH]; intros Hl; cbn [map]; constructor; [|apply IH; intros; apply Hl; right; auto].
        assert (Hi : i < width) by (apply Hl; left; auto). destruct HSel as [_ HSel]. specialize (HSel i Hi).
        assert (PH : near (block_noise g qsize E) (tlwe_phase N1 s1 (sei T sel (i + 1))) (msg_1o8 (Nat.testbit t i))).
        { replace (i + 1) with (S i) by lia. eapply near_l; [apply (ok_sei _ _ _ _ _ OK); lia|exact HSel]. }
        unfold block_margin in HM. pose proof (near_nonneg _ _ _ PH).
        destruct (Nat.testbit t i); cbn [msg_1o8] in PH.
        - apply (ok_cb_pos _ _ _ _ _ OK). eapply near_positive; [exact PH| | |exact A6]; unfold t_1o8, t_1o2 in *; lia.
        - apply (ok_cb_neg _ _ _ _ _ OK). eapply near_negative; [exact PH| | |exact A6]; unfold t_1o8, t_1o2 in *; lia. }
      apply G. intros i Hi. apply in_seq in Hi. lia. }
    assert (LCt : length cts = width) by (unfold cts; rewrite map_length, seq_length; reflexivity).
    destruct (lookup_timer_ok T s0 s1 bit E OK NN cts (val_bits width t) table
        (resize wt (2 ^ width) (trivial_TRLWELvl1_zero N1)) (tm ++ [(T_CIRCUIT_BOOTSTRAPPING, width)]) BITS)
      as (table' & tmp' & timer' & ET & w & w' & Ew & Ew' & PL); [lia|congruence|].
    rewrite ET. cbn [bind]. unfold at_. rewrite Ew'. cbn [bind].
    rewrite bits_val_of in Ew by auto. rewrite LCt in PL.
    assert (EWt : nth_error wt cur = Some w).
    { unfold table in Ew. rewrite resize_nth in Ew by auto.
      pose proof (reach_len g Wg _ _ HL) as RL. fold live in RL.
      destruct (Nat.ltb_spec t (length out)); [|lia]. rewrite (PO t cur Lt Et) in Ew. exact Ew. }
    destruct (PP cur HC) as (w2 & Ew2 & [Hw0 HwS]). rewrite EWt in Ew2. injection Ew2 as <-.
    eexists. split; [reflexivity|]. constructor; cbn [k_graph k_qsize k_queue k_selector k_live k_timer]; auto.
    + rewrite app_length. exact HR.
    + split; [exact NE2|]. exists (lab (run g init (u ++ v))). split; [exact LAB|].
      subst cur. rewrite <- run_app in Hw0, HwS. pose proof (BN width WW) as BNw. split.
      * eapply near_le; [eapply near_trans; [apply PL; auto|exact Hw0]|lia].
      * intros i Hi. eapply near_le; [eapply near_trans; [apply PL; lia|apply HwS, Hi]|lia].
Qed.

Lemma block_new_inv : exists s, block_new T g qsize false = Ok s /\ block_inv [] [] s.
Proof.
  eexists. split; [reflexivity|]. constructor; cbn [k_graph k_qsize k_queue k_selector k_live k_timer]; auto.
  split; [cbn; auto|]. intros p. split.
  - intros [<-|[]]. exists []. auto.
  - intros ([|] & L & <-); [left; reflexivity|discriminate].
Qed.

Lemma block_feed_ok : forall u v s c b, block_inv u v s -> bit c b -> S (length v) <= Nat.max qsize 1 ->
  exists s', block_eval_one T s c = Ok s' /\
    if S (length v) <? qsize then block_inv u (v ++ [b]) s' else block_inv (u ++ v ++ [b]) [] s'.
Proof.
  intros u v s c b HI Hc LV. unfold block_eval_one. cbv zeta. cbn [k_queue k_qsize].
  rewrite (bi_q _ _ _ HI), app_length, (Forall2_len _ _ _ (bi_queue _ _ _ HI)).
  replace (length v + length [c]) with (S (length v)) by (cbn; lia).
  assert (HI' : block_inv u (v ++ [b]) (mkBlock T (k_graph T s) qsize (k_queue T s ++ [c]) (k_selector T s) (k_live T s) (k_timer T s))).
  { destruct HI as [Eg Eq HL HQ HS]. constructor; cbn [k_graph k_qsize k_queue k_selector k_live k_timer]; auto.
    apply Forall2_app; auto. }
  destruct (Nat.ltb_spec (S (length v)) qsize) as [L|L]; [eauto|].
  apply block_eval_ok; [exact HI'|rewrite app_length; cbn; lia|destruct v; discriminate].
Qed.

Lemma block_ask_ok : forall u v s, block_inv u v s -> length v <= Nat.max qsize 1 ->
  if (length (u ++ v) =? 0) then block_result T s = Fail FAssert
  else exists c s', block_result T s = Ok (c, s') /\ block_inv (u ++ v) [] s' /\
         accepts g (u ++ v) = Ok (decrypt_TLWELvl1_to_bit N1 c s1).
Proof.
  intros u v s HI LV. pose proof (ok_n1 _ _ _ _ _ OK) as Hn.
  assert (DONE : forall u s, block_inv u [] s -> u <> [] -> exists c,
     (match k_selector T s with None => Fail FAssert | Some sel => Ok (sei T sel 0, s) end) = Ok (c, s) /\
     accepts g u = Ok (decrypt_TLWELvl1_to_bit N1 c s1)).
  { intros u' s' H NE. pose proof (bi_sel _ _ _ H) as HS. destruct (k_selector T s') as [sel|]; [|contradiction].
    destruct HS as [_ (t & _ & [H1 _])]. eexists. split; [reflexivity|]. rewrite accepts_run by auto. f_equal. symmetry.
    eapply decrypt_near; [eapply near_l; [apply (ok_sei _ _ _ _ _ OK); exact Hn|exact H1]|].
    unfold block_margin in HM. destruct NN as (A1 & A2 & A3 & A4 & A5 & A6). unfold t_1o8, t_1o4 in *. lia. }
  unfold block_result. destruct v as [|b v].
  - unfold block_eval_queued. cbv zeta. rewrite (Forall2_len _ _ _ (bi_queue _ _ _ HI)). cbn [length Nat.eqb bind].
    rewrite app_nil_r. destruct (Nat.eqb_spec (length u) 0) as [Z0|Z0].
    + pose proof (bi_sel _ _ _ HI) as HS. destruct (k_selector T s); [|reflexivity]. destruct HS as [NE _]. destruct u; [congruence|discriminate].
    + destruct (DONE u s HI) as (c & EC & DC); [intros ->; cbn in Z0; congruence|]. exists c, s. auto.
  - destruct (Nat.eqb_spec (length (u ++ b :: v)) 0) as [Z0|_]; [rewrite app_length in Z0; cbn in Z0; lia|].
    destruct (block_eval_ok u (b :: v) s HI LV) as (s' & E' & I'); [discriminate|]. rewrite E'. cbn [bind].
    destruct (DONE _ s' I') as (c & EC & DC); [destruct u; discriminate|]. exists c, s'. auto.
Qed.

Lemma block_play : forall h hb, encrypts bit h hb -> forall u v s, block_inv u v s -> length v < Nat.max qsize 1 ->
  (u ++ v = [] -> match hb with None :: _ => False | _ => True end) ->
  exists outs s', play (block_eval_one T) (block_result T) h s = Ok (outs, s') /\
    map (fun c => Ok (decrypt_TLWELvl1_to_bit N1 c s1)) outs = verdicts g (u ++ v) hb.
Proof.
  intros h hb HE. induction HE as [|x y h hb Hxy HE IH]; intros u v s HI LV H0.
  - cbn. eauto.
  - destruct Hxy as [c b Hc|]; cbn [play verdicts].
    + destruct (block_feed_ok u v s c b HI Hc ltac:(lia)) as (s' & E' & I'). rewrite E'. cbn [bind].
      destruct (Nat.ltb_spec (S (length v)) qsize) as [L|L].
      * destruct (IH u (v ++ [b]) s' I') as (outs & s'' & EO & PO).
        -- rewrite app_length. cbn. lia.
        -- intros C. apply app_eq_nil in C as [_ C]. destruct v; discriminate.
        -- exists outs, s''. rewrite app_assoc in PO. auto.
      * destruct (IH (u ++ v ++ [b]) [] s' I') as (outs & s'' & EO & PO).
        -- cbn. lia.
        -- intros C. rewrite app_nil_r in C. apply app_eq_nil in C as [_ C]. destruct v; discriminate.
        -- exists outs, s''. rewrite app_nil_r, app_assoc in PO. auto.
    + pose proof (block_ask_ok u v s HI ltac:(lia)) as HA.
      destruct (Nat.eqb_spec (length (u ++ v)) 0) as [Z0|Z0].
      { destruct (u ++ v); [|discriminate]. destruct (H0 eq_refl). }
      destruct HA as (c & s' & E' & I' & AC). rewrite E'. cbn [bind].
      destruct (IH (u ++ v) [] s' I') as (outs & s'' & EO & PO); [cbn; lia|intros C; rewrite app_nil_r in C; rewrite C in Z0; cbn in Z0; congruence|].
      rewrite EO. cbn [bind]. eexists. exists s''. split; [reflexivity|]. cbn [map]. rewrite PO, AC, app_nil_r. reflexivity.
Qed.
End Block.
