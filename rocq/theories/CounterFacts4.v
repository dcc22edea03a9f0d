(** BTTRunner: one round, histories of calls, dump. *)
From Coq Require Import List Arith Bool NArith NArith.Ndigits ZArith Lia Permutation.
From Coq Require Import ZifyBool ZifyNat ZifyN.
Import ListNotations.
From Verif Require Import Base BaseFacts GraphModel Spec GraphFacts GraphOps TorusModel TfheSpec TorusFacts TfheFacts RunnerModel RunnerFacts
  RunnerSpec LookupFacts ReachFacts FlutFacts BlockFacts CounterModel CounterSpec CounterFacts1 CounterFacts2 CounterFacts3.
Local Open Scope nat_scope.

Lemma nth_last : forall {A} (l : list A) d m, length l = S m -> nth_error l m = Some (last l d).
Proof.
  intros A l d. induction l as [|x l IH]; intros m H; [discriminate|]. cbn in H. destruct l as [|y l].
  - cbn in H. injection H as <-. reflexivity.
  - destruct m as [|m]; [discriminate|]. cbn [nth_error]. rewrite IH by (cbn in *; lia). reflexivity.
Qed.

Section R.
Context (T : tfhe) (G : gates T) (s0 s1 : list Z) (bit : trgsw T -> bool -> Prop) (E : noise) (GE : gate_noise).
Hypothesis OK : tfhe_ok T s0 s1 bit E.
Hypothesis GOK : gates_ok T G s0 bit GE.
Hypothesis NN : noise_nonneg E.
Notation phR := (trlwe_phase (t_n1 T) s1).
Notation N1 := (t_n1 T).
Context (b : BTT).
Hypothesis WF : btt_wf b.
Hypothesis TP : tests_pure b.
Hypothesis LZ : lonely_zero b.
Notation spec := (bt_spec b).
Notation k := (length (bt_spec b)).
Notation n := (btt_size b).
Notation g := (agraph b).
Hypothesis HN : 64 < N1 / 2.
Hypothesis HK : N1 / 2 + k <= N1.
Hypothesis H31 : Nat.log2_up n < 31.
Hypothesis HM : btt_margin b E GE.
Context (order : nat -> nat -> red).
Hypothesis HO : forall ev j w v, nth_error spec j = Some (w, v) -> valid_order w (order ev j).
Context (qsize : nat).

Local Notation wh := (w_holds T s1 E b).
Local Notation shp := (shaped b).
Local Notation cts_hold := (ctrs T s1 b).

Lemma W64 : forall w v, In (w, v) spec -> w <= 64.
Proof. intros w v H. destruct WF as (_ & _ & W). apply (W w v H). Qed.
Let Wg : wf_graph g := agraph_wf b (wf_edges b WF).
Lemma gsz : size g = n. Proof. apply agraph_size. Qed.

(** ** One task *)
Lemma task_gen : forall state weight c x p e0 e1 w0 w1 in0 in1 e t a I zs, shp state -> bit c x ->
  edge_at b p false e0 -> edge_at b p true e1 ->
  nth_error weight (ed_to e0) = Some (Some w0) -> nth_error weight (ed_to e1) = Some (Some w1) ->
  alter_weight T w0 (ed_accept e0) (ed_reset e0) (ed_inc e0) = Ok in0 ->
  alter_weight T w1 (ed_accept e1) (ed_reset e1) (ed_inc e1) = Ok in1 ->
  shp in0 -> shp in1 -> wh e t a I zs (if x then in1 else in0) ->
  exists W, btt_task T b state weight c p = Ok (Some W) /\ wh (e + e_cmux E) t a I zs W.
Proof.
  intros state weight c x p e0 e1 w0 w1 in0 in1 e t a I zs HS Hc H0 H1 E0 E1 A0 A1 S0 S1 HW.
  unfold btt_task. rewrite (get_edge_ok b p e0 e1 H0 H1). cbn [bind]. unfold at_. rewrite E0. cbn [bind]. rewrite A0. cbn [bind].
  rewrite E1. cbn [bind]. rewrite A1. cbn [bind]. unfold weight_from. destruct HS as [LS HS]. rewrite LS.
  destruct (init_general_ok T s0 s1 bit E OK b HN HK W64 k 0%N (le_n _)) as (g0 & EG & _). rewrite EG. cbn [bind].
  destruct (weight_cmux_ok T s0 s1 bit E OK b HN HK W64 e t a I zs (mkWeight g0 (w_counter state)) c x in1 in0 Hc) as (W & EW & HW'); auto.
  { split; auto. }
  rewrite EW. cbn [bind]. eauto.
Qed.

(** ** Propagation *)
Definition lands (e : Z) (lab : nat -> N) (zs : nat -> Z) (r : nat) (x : bool) (W : Weight) : Prop :=
  exists ed, edge_at b r x ed /\
    wh e (lab (ed_to ed)) (ed_accept ed) (fun j => smem j (ed_inc ed))
       (fun j => if smem j (ed_reset ed) then target_of b j else zs j) W.

Lemma propagate : forall state inputs zv x levels next lab zs weight, shp state ->
  Forall2 bit inputs (zv ++ [x]) -> length zv = k -> length levels = S (S k) ->
  (forall i l, nth_error levels i = Some l -> NoDup l /\ forall p, In p l -> p < n) ->
  (forall i l l' p y, nth_error levels i = Some l -> nth_error levels (S i) = Some l' -> In p l -> In (nxt g p y) l') ->
  (forall i l p y ed, nth_error levels i = Some l -> i < k -> In p l -> edge_at b p y ed -> ed_accept ed = false /\ ed_reset ed = [] /\ ed_inc ed = []) ->
  nth_error levels (S k) = Some next -> length weight = n ->
  (forall p, In p next -> exists W, nth_error weight p = Some (Some W) /\ wh 0 (lab p) false (fun _ => false) zs W) ->
  exists weight', eval_block_cmuxs T b state weight inputs levels = Ok weight' /\
    forall l, nth_error levels 0 = Some l -> forall p, In p l -> exists W, nth_error weight' p = Some (Some W) /\
      lands (Z.of_nat (S k) * e_cmux E) lab zs (run g p zv) x W.
Proof.
  intros state inputs zv x levels next lab zs weight HS HQ LZv LL HL1 HL2 HP EN LW HW.
  unfold eval_block_cmuxs. pose proof (Forall2_len _ _ _ HQ) as LQ. rewrite app_length in LQ. cbn [length] in LQ.
  rewrite LQ, LZv. replace (k + 1) with (S k) by lia.
  match goal with |- context [foldM ?f (rev _) _] => set (step := f) end.
  assert (F : forall m, m <= k -> exists wt ot, foldM step (rev (seq (k - m) (S m))) (weight, repeat None (length weight)) = Ok (wt, ot) /\
     length wt = n /\ length ot = n /\
     forall l, nth_error levels (k - m) = Some l -> forall p, In p l -> exists W, nth_error wt p = Some (Some W) /\
      lands (Z.of_nat (S m) * e_cmux E) lab zs (run g p (skipn (k - m) zv)) x W).
  { induction m as [|m IH]; intros Hm.
    - rewrite Nat.sub_0_r. cbn [seq rev app foldM]. unfold step.
      destruct (nth_error_some_lt levels k) as [l El]; [lia|].
      destruct (nth_error_some_lt inputs k) as [c Ec]; [lia|].
      assert (Hc : bit c x). { eapply (BlockFacts.Forall2_nth _ _ _ HQ k); [exact Ec|]. rewrite nth_error_app2 by lia. rewrite LZv, Nat.sub_diag. reflexivity. }
      unfold at_. rewrite Ec, El. cbn [bind]. destruct (HL1 k l El) as [ND HB].
      assert (BODY : forall p, In p l -> exists W, btt_task T b state weight c p = Ok (Some W) /\ lands (Z.of_nat 1 * e_cmux E) lab zs p x W).
      { intros p Hp. destruct (size_edges b p false (HB p Hp)) as [e0 H0]. destruct (size_edges b p true (HB p Hp)) as [e1 H1].
        pose proof (HL2 k l next p false El EN Hp) as N0. pose proof (HL2 k l next p true El EN Hp) as N1'.
        rewrite (agraph_nxt b p false e0 H0 (HB p Hp)) in N0. rewrite (agraph_nxt b p true e1 H1 (HB p Hp)) in N1'.
        destruct (HW _ N0) as (w0 & E0 & W0). destruct (HW _ N1') as (w1 & E1 & W1).
        pose proof (proj1 (proj2 WF)) as WE. destruct (WE e0 (nth_error_In _ _ H0)) as (_ & ND0 & BD0). destruct (WE e1 (nth_error_In _ _ H1)) as (_ & ND1 & BD1).
        destruct (alter_ok T s0 s1 bit E OK NN b HN HK W64 0 _ zs w0 (ed_accept e0) (ed_reset e0) (ed_inc e0) ltac:(lia) W0 ND0 BD0) as (i0 & A0 & V0).
        destruct (alter_ok T s0 s1 bit E OK NN b HN HK W64 0 _ zs w1 (ed_accept e1) (ed_reset e1) (ed_inc e1) ltac:(lia) W1 ND1 BD1) as (i1 & A1 & V1).
        pose proof (w_holds_shaped _ _ _ _ _ _ _ _ _ _ V0) as SH0. pose proof (w_holds_shaped _ _ _ _ _ _ _ _ _ _ V1) as SH1.
        set (ed := if x then e1 else e0).
        assert (He : edge_at b p x ed) by (unfold ed; clear - H0 H1; destruct x; auto).
        assert (VX : wh 0 (lab (ed_to ed)) (ed_accept ed) (fun j => smem j (ed_inc ed))
                  (fun j => if smem j (ed_reset ed) then target_of b j else zs j) (if x then i1 else i0))
          by (unfold ed; clear - V0 V1; destruct x; auto).
        destruct (task_gen state weight c x p e0 e1 w0 w1 i0 i1 _ _ _ _ _ HS Hc H0 H1 E0 E1 A0 A1 SH0 SH1 VX) as (W & EW & VW).
        exists W. split; [exact EW|]. exists ed. split; [exact He|]. replace (Z.of_nat 1 * e_cmux E)%Z with (0 + e_cmux E)%Z by lia. exact VW. }
      destruct (par_for_ok (btt_task T b state weight c) l (repeat None (length weight)) ND) as (o & EO & LO & PO & _).
      { intros p Hp. rewrite repeat_length, LW. auto. }
      { intros p Hp. destruct (BODY p Hp) as (W & -> & _). eauto. }
      rewrite EO. cbn [bind]. do 2 eexists. split; [reflexivity|]. split; [rewrite LO, repeat_length; auto|]. split; [auto|].
      intros l2 El2 p Hp. injection El2 as <-. replace (skipn k zv) with (@nil bool) by (rewrite <- LZv; symmetry; apply skipn_all). cbn [run fold_left].
      destruct (BODY p Hp) as (W & EB & HB'). destruct (PO p Hp) as (W' & EW' & HW'). rewrite EB in EW'. injection EW' as <-. eauto.
    - destruct IH as (wt & ot & EF & L1 & L2 & P); [lia|].
      set (i := k - S m). replace (k - m) with (S i) in * by (subst i; lia).
      change (seq i (S (S m))) with (i :: seq (S i) (S m)). cbn [rev]. rewrite foldM_app.
      assert (EF' : foldM step (rev (seq (S i) (S m))) (weight, repeat None (length weight)) = Ok (wt, ot)) by exact EF.
      change (rev (seq (S (S i)) m) ++ [S i]) with (rev (seq (S i) (S m))). rewrite EF'. cbn [bind foldM].
      unfold step at 1.
      destruct (nth_error_some_lt levels i) as [l El]; [lia|].
      destruct (nth_error_some_lt levels (S i)) as [l' El']; [lia|].
      destruct (nth_error_some_lt inputs i) as [c Ec]; [subst i; lia|].
      destruct (nth_error_some_lt zv i) as [y Ey]; [subst i; lia|].
      assert (Hc : bit c y). { eapply (BlockFacts.Forall2_nth _ _ _ HQ i); [exact Ec|]. rewrite nth_error_app1 by (subst i; lia). exact Ey. }
      unfold at_. rewrite Ec, El. cbn [bind]. destruct (HL1 i l El) as [ND HB].
      assert (SK : skipn i zv = y :: skipn (S i) zv) by (apply skipn_nth, Ey).
      assert (BODY : forall p, In p l -> exists W, btt_task T b state wt c p = Ok (Some W) /\
           lands (Z.of_nat (S (S m)) * e_cmux E) lab zs (run g p (skipn i zv)) x W).
      { intros p Hp. destruct (size_edges b p false (HB p Hp)) as [e0 H0]. destruct (size_edges b p true (HB p Hp)) as [e1 H1].
        pose proof (HL2 i l l' p false El El' Hp) as N0. pose proof (HL2 i l l' p true El El' Hp) as N1'.
        pose proof (agraph_nxt b p false e0 H0 (HB p Hp)) as X0. pose proof (agraph_nxt b p true e1 H1 (HB p Hp)) as X1. rewrite X0 in N0. rewrite X1 in N1'.
        destruct (P l' El' _ N0) as (w0 & E0 & d0 & D0 & V0). destruct (P l' El' _ N1') as (w1 & E1 & d1 & D1 & V1).
        destruct (HP i l p false e0 El ltac:(subst i; lia) Hp H0) as (Q1 & Q2 & Q3).
        destruct (HP i l p true e1 El ltac:(subst i; lia) Hp H1) as (R1 & R2 & R3).
        assert (A0 : alter_weight T w0 (ed_accept e0) (ed_reset e0) (ed_inc e0) = Ok w0) by (rewrite Q1, Q2, Q3; reflexivity).
        assert (A1 : alter_weight T w1 (ed_accept e1) (ed_reset e1) (ed_inc e1) = Ok w1) by (rewrite R1, R2, R3; reflexivity).
        pose proof (w_holds_shaped _ _ _ _ _ _ _ _ _ _ V0) as SH0. pose proof (w_holds_shaped _ _ _ _ _ _ _ _ _ _ V1) as SH1.
        rewrite SK. cbn [run fold_left].
        replace (Z.of_nat (S (S m)) * e_cmux E)%Z with (Z.of_nat (S m) * e_cmux E + e_cmux E)%Z by lia.
        destruct y.
        - destruct (task_gen state wt c true p e0 e1 w0 w1 w0 w1 _ _ _ _ _ HS Hc H0 H1 E0 E1 A0 A1 SH0 SH1 V1) as (W & EW & VW).
          exists W. split; [exact EW|]. exists d1. rewrite X1. split; [exact D1|exact VW].
        - destruct (task_gen state wt c false p e0 e1 w0 w1 w0 w1 _ _ _ _ _ HS Hc H0 H1 E0 E1 A0 A1 SH0 SH1 V0) as (W & EW & VW).
          exists W. split; [exact EW|]. exists d0. rewrite X0. split; [exact D0|exact VW]. }
      destruct (par_for_ok (btt_task T b state wt c) l ot ND) as (o & EO & LO & PO & _).
      { intros p Hp. rewrite L2. auto. }
      { intros p Hp. destruct (BODY p Hp) as (W & -> & _). eauto. }
      rewrite EO. cbn [bind]. do 2 eexists. split; [reflexivity|]. split; [congruence|]. split; [auto|].
      intros l2 El2 p Hp. injection El2 as <-.
      destruct (BODY p Hp) as (W & EB & HB'). destruct (PO p Hp) as (W' & EW' & HW'). rewrite EB in EW'. injection EW' as <-. eauto. }
  destruct (F k (le_n _)) as (wt & ot & EF & _ & _ & P). rewrite Nat.sub_diag in EF, P.
  rewrite EF. cbn [bind]. exists wt. split; [reflexivity|]. exact P.
Qed.

(** ** The weights a round starts from *)
Lemma start_weights : forall state next n2i zs, cts_hold (e_br E) zs state -> NoDup next -> (forall p, In p next -> p < n) ->
  (forall i p, nth_error next i = Some p -> nth_error n2i p = Some (Some i)) ->
  exists weight, foldM (fun weight q =>
                   do t <- at_ n2i q;
                   do w <- weight_from T (match t with Some i => N.of_nat i | None => 18446744073709551615%N end) state;
                   set_at weight q (Some w)) next (repeat None n) = Ok weight /\ length weight = n /\
    forall i p, nth_error next i = Some p -> exists W, nth_error weight p = Some (Some W) /\ wh 0 (N.of_nat i) false (fun _ => false) zs W.
Proof.
  intros state next n2i zs HC ND HL HI.
  assert (F : forall l, NoDup l -> incl l next -> forall weight, length weight = n ->
    exists weight', foldM (fun weight q =>
                   do t <- at_ n2i q;
                   do w <- weight_from T (match t with Some i => N.of_nat i | None => 18446744073709551615%N end) state;
                   set_at weight q (Some w)) l weight = Ok weight' /\ length weight' = n /\
      (forall p, ~ In p l -> nth_error weight' p = nth_error weight p) /\
      forall i p, In p l -> nth_error next i = Some p -> exists W, nth_error weight' p = Some (Some W) /\ wh 0 (N.of_nat i) false (fun _ => false) zs W).
  { induction l as [|x l IH]; intros NDl IN weight LWt.
    - exists weight. cbn. split; [auto|]. split; [auto|]. split; [auto|]. intros i p [].
    - inversion NDl as [|? ? NI NDl']; subst. cbn [foldM].
      assert (In x next) as Hx by (apply IN; left; auto). pose proof (HL x Hx) as Lx.
      destruct (In_nth_error _ _ Hx) as [ix Eix]. unfold at_ at 1. rewrite (HI _ _ Eix). cbn [bind].
      destruct (weight_from_ok T s0 s1 bit E OK b HN HK W64 zs (N.of_nat ix) state HC) as (w & Ew & Hw). rewrite Ew. cbn [bind].
      rewrite set_at_lt by lia. cbn [bind].
      destruct (IH NDl' (fun y Hy => IN y (or_intror Hy)) (upd x (Some w) weight)) as (wt & EF & LF & PF & QF).
      { rewrite upd_length; auto. }
      exists wt. split; [exact EF|]. split; [exact LF|]. split.
      + intros p Hp. rewrite PF by (intros C; apply Hp; right; auto). apply upd_neq. intros ->. apply Hp. left; auto.
      + intros i p [<-|Hp] Ei; [|apply QF; auto].
        assert (i = ix) as -> by exact (is_set_nth_inj _ ND _ _ _ Ei Eix).
        exists w. split; [rewrite PF by auto; apply upd_eq; lia|exact Hw]. }
  destruct (F next ND (incl_refl _) (repeat None n)) as (wt & EF & LF & _ & QF).
  - apply repeat_length.
  - exists wt. split; [exact EF|]. split; [exact LF|]. intros i p Hi. apply QF; auto. eapply nth_error_In; eauto.
Qed.

(** ** Invariant *)
Record round_inv (u : list bool) (p : plain) (s : runner T) : Prop := mkRI {
  ri_btt : r_btt T s = b;
  ri_graph : r_graph T s = g;
  ri_q : r_qsize T s = qsize;
  ri_live : reach_set g (length u * S k) (r_live T s);
  ri_plain : foldM plain_eval_one u (plain_new b) = Ok p;
  ri_acc : near (btt_noise b E) (phR (w_general (r_state T s)) 0) (msg_1o8 (p_accept p));
  ri_idx : exists t, nth_error (r_live T s) t = Some (p_cur p) /\
     forall i, i < 64 -> near (btt_noise b E) (phR (w_general (r_state T s)) (S i)) (msg_1o8 (N.testbit_nat (N.of_nat t) i));
  ri_bor : forall j, j < k -> (exists y, near (btt_noise b E) (phR (w_general (r_state T s)) (N1 / 2 + j)) (msg_1o8 y)) \/
     eqm (phR (w_general (r_state T s)) (N1 / 2 + j)) 0;
  ri_ctr : cts_hold (e_br E) (fun j => target_of b j - Z.of_N (count p j))%Z (r_state T s) }.

Lemma bits_N : forall t width, map (N.testbit_nat (N.of_nat t)) (seq 0 width) = val_bits width t.
Proof.
  intros. unfold val_bits. apply map_ext. intros i. rewrite <- Ntestbit_Nbit. apply N_testbit_nat.
Qed.
Lemma log2_up_bound : forall m, 0 < m -> m <= 2 ^ Nat.log2_up m.
Proof. intros m H. apply Nat.log2_log2_up_spec in H. lia. Qed.

Lemma noise_parts : forall width, width <= Nat.log2_up n -> (Z.of_nat (S k) * e_cmux E + Z.of_nat width * e_cmux E <= btt_noise b E)%Z.
Proof. intros width Hw. destruct NN as (A1 & _). unfold btt_noise. nia. Qed.

Lemma round_ok : forall u p s x p' c, round_inv u p s -> r_queue T s = [c] -> bit c x -> plain_eval_one p x = Ok p' ->
  Forall2 (fun c '(w, t) => (c < t + 2 ^ N.of_nat w)%N) (p_counter p) spec ->
  exists s', runner_eval_queued T G order s = Ok s' /\ r_queue T s' = [] /\ round_inv (u ++ [x]) p' s'.
Proof.
  intros u p s x p' c [Eb Eg Eq HL HPl HA (t & Et & HI) HB HC] EQ Hc HP HF.
  pose proof NN as (A1 & A2 & A3 & A4 & A5 & A6).
  pose proof (plain_wf_run b WF u _ _ (plain_new_wf b WF) HPl) as PW.
  destruct (plain_step b WF p x p' PW HP) as (ed & Hed & PW' & Pc & Pa & Pn).
  unfold runner_eval_queued. rewrite EQ. cbn [length Nat.eqb]. cbv zeta. rewrite Eb, Eg, Eq.
  set (live := r_live T s) in *. set (state := r_state T s) in *.
  destruct (conditions_ok T G s0 s1 bit E GE OK GOK NN b HN HK W64 (order (r_evals T s)) _ state (btt_noise b E) HM HC) as (cond & ECo & FCo).
  { intros j w v Hj. eapply HO; eauto. }
  rewrite ECo. cbn [bind].
  assert (TS : map (fun j => match nth_error spec j with Some (w, _) => ((target_of b j - Z.of_N (count p j)) mod 2 ^ Z.of_nat w =? 0)%Z | None => false end) (seq 0 k) = tests b p).
  { unfold tests. apply map_ext_in. intros j Hj. apply in_seq in Hj. destruct (nth_error_some_lt spec j) as [[w v] Es]; [lia|].
    unfold target_of. rewrite Es. assert (Hv : (v < 2 ^ N.of_nat w)%N). { apply (proj2 (proj2 WF) w v). eapply nth_error_In; eauto. }
    pose proof (BlockFacts.Forall2_nth _ _ _ HF j _ _ (nth_count b p j (pw_len b p PW) ltac:(lia)) Es) as Hcn. cbn in Hcn.
    assert (PE : Z.of_N (2 ^ N.of_nat w) = (2 ^ Z.of_nat w)%Z) by (rewrite N2Z.inj_pow, nat_N_Z; reflexivity).
    set (P2 := (2 ^ Z.of_nat w)%Z) in *. set (cn := count p j) in *.
    destruct (N.eqb_spec cn v) as [->|NE].
    - rewrite Z.sub_diag, Z.mod_0_l by lia. reflexivity.
    - apply Z.eqb_neq. intros Z0. apply Z.mod_divide in Z0; [|lia]. destruct Z0 as [d Hd]. assert (d = 0 \/ d <= -1 \/ 1 <= d)%Z as [->|D] by lia; nia. }
  rewrite TS in FCo. set (zv := tests b p) in *.
  assert (LZv : length zv = k) by (unfold zv, tests; rewrite map_length, seq_length; reflexivity).
  assert (FIn : Forall2 bit (cond ++ [c]) (zv ++ [x])) by (apply Forall2_app; auto).
  pose proof (Forall2_len _ _ _ FIn) as LIn. rewrite (app_length zv), LZv in LIn. cbn [length] in LIn. rewrite LIn.
  replace (k + 1) with (S k) by lia.
  destruct (track_live_states_correct g live (S k) Wg (fun q => reach_lt g Wg _ _ q HL)) as (L & EL & LL & H0 & HLv).
  rewrite EL. cbn [bind]. set (next := last L []).
  assert (EN : nth_error L (S k) = Some next) by (apply nth_last; auto).
  assert (HLR : forall i l, nth_error L i = Some l -> is_set l /\ forall q, In q l <-> exists r w, In r live /\ length w = i /\ run g r w = q).
  { intros i l Ek. destruct (HLv i l Ek) as [S1 P1]. split.
    - destruct i; [|apply S1; lia]. rewrite H0 in Ek. injection Ek as <-. apply HL.
    - intros q. rewrite P1. split; intros (r & w & Hr & Lw & R); exists r, w; (split; [auto|]); (split; [auto|]);
        rewrite run_from_run in * by (auto; apply (reach_lt g Wg _ _ _ HL Hr)); congruence. }
  assert (HR : reach_set g (length u * S k + S k) next).
  { destruct (HLR _ _ EN) as [S1 P1]. eapply reach_step; eauto. }
  assert (ND : NoDup next) by (apply is_set_NoDup, HR).
  assert (NB : forall q, In q next -> q < size g) by (intros q; apply (reach_lt g Wg _ _ q HR)).
  destruct (block_index_ok g next ND NB) as (n2i & EI & LI & HIx). unfold block_index in EI. rewrite EI. cbn [bind].
  set (zs := fun j => (target_of b j - Z.of_N (count p j))%Z) in *.
  destruct (start_weights state next n2i zs HC ND ltac:(rewrite <- gsz; exact NB) HIx) as (weight & EW & LW & PW1). rewrite EW. cbn [bind].
  set (lab := fun q => match nth_error n2i q with Some (Some i) => N.of_nat i | _ => 0%N end).
  destruct (propagate state (cond ++ [c]) zv x L next lab zs weight) as (wt & EP & PP); auto.
  { eapply ctrs_shaped, HC. }
  { intros i l Ei. destruct (HLR i l Ei) as [S1 P1]. split; [apply is_set_NoDup, S1|]. rewrite <- gsz.
    intros q Hq. apply P1 in Hq as (r & w & Hr & _ & <-). apply run_lt; auto. apply (reach_lt g Wg _ _ _ HL Hr). }
  { intros i l l' q y Ei Ei' Hq. destruct (HLR i l Ei) as [_ P1]. destruct (HLR (S i) l' Ei') as [_ P2].
    apply P1 in Hq as (r & w & Hr & Lw & <-). apply P2. exists r, (w ++ [y]). rewrite app_length, run_app. cbn.
    split; [auto|]. split; [lia|reflexivity]. }
  { intros i l q y d Ei Hi Hq Hd. destruct (HLR i l Ei) as [_ P1]. apply P1 in Hq as (r & w & Hr & Lw & <-).
    apply HL in Hr as (w0 & Lw0 & <-). rewrite <- run_app in Hd. apply (TP (w0 ++ w) (run g 0 (w0 ++ w)) y d).
    - apply (walk_run b (wf_edges b WF)). apply WF.
    - rewrite app_length, Lw0, Lw, Nat.add_comm, Nat.mod_add, Nat.mod_small by lia. lia.
    - exact Hd. }
  { intros q Hq. destruct (In_nth_error _ _ Hq) as [i Ei]. unfold lab. rewrite (HIx _ _ Ei). apply PW1, Ei. }
  rewrite EP. cbn [bind]. specialize (PP live H0).
  pose proof (reach_len g Wg _ _ HL) as RL. rewrite gsz in RL. fold live in RL.
  assert (Hcur : In (p_cur p) live) by (eapply nth_error_In; eauto).
  assert (Lt : t < length live) by (eapply nth_error_lt; eauto).
  set (width := Nat.log2_up (length live)).
  assert (WW : width <= Nat.log2_up n) by (apply Nat.log2_up_le_mono; auto).
  (* the selected weight *)
  assert (SEL : exists W, (if length live =? 1
       then do o <- at_ wt 0; match o with Some w => Ok w | None => Fail FBadOptional end
       else do selectors <- get_selectors T G width state;
         do ws <- mapM (fun i => do q <- at_ live i; do o <- at_ wt q;
                                 match o with Some w => Ok w | None => Fail FBadOptional end) (seq 0 (length live));
         do dummy <- weight_from T 0 state;
         do table <- wlookup_table T (resize ws (2 ^ width) dummy) selectors;
         at_ table 0) = Ok W /\ lands (btt_noise b E) lab zs (run g (p_cur p) zv) x W).
  { assert (UP : forall w W, w <= Nat.log2_up n -> lands (Z.of_nat (S k) * e_cmux E + Z.of_nat w * e_cmux E) lab zs (run g (p_cur p) zv) x W ->
        lands (btt_noise b E) lab zs (run g (p_cur p) zv) x W).
    { intros w W Hw (d & D1 & D2). exists d. split; [exact D1|]. eapply (w_holds_le T s1 E b HN HK W64); [exact D2|]. apply noise_parts, Hw. }
    destruct (Nat.eqb_spec (length live) 1) as [L1|L1].
    - assert (EC : live = [p_cur p]).
      { destruct live as [|z [|y live']]; cbn in L1; try lia. destruct Hcur as [->|[]]. reflexivity. }
      assert (C0 : p_cur p = 0).
      { apply (LZ (length u)). intros w q' Lw Hw. assert (In q' live) as Hin.
        { apply HL. exists w. split; [exact Lw|]. symmetry. apply (run_walk b (wf_edges b WF) 0 w q' Hw). apply WF. }
        rewrite EC in Hin. destruct Hin as [->|[]]. reflexivity. }
      destruct (PP (p_cur p) Hcur) as (W & EW' & HW'). rewrite C0 in EW'. unfold at_. rewrite EW'. cbn [bind]. exists W. split; [reflexivity|].
      apply (UP 0); [lia|]. destruct HW' as (d & D1 & D2). exists d. split; [exact D1|]. eapply (w_holds_le T s1 E b HN HK W64); [exact D2|]. lia.
    - pose proof HM as (M1 & M2 & M3 & M4 & M5 & M6).
      assert (W64' : width <= 64) by lia.
      destruct (selectors_ok T G s0 s1 bit E GE OK GOK b HN HK W64 (btt_noise b E) (N.of_nat t) state width HI W64' M3) as (sel & ESl & FSl); [lia|].
      rewrite ESl. cbn [bind].
      assert (GA : exists ws, mapM (fun i => do q <- at_ live i; do o <- at_ wt q;
                                 match o with Some w => Ok w | None => Fail FBadOptional end) (seq 0 (length live)) = Ok ws /\
          length ws = length live /\ forall i q, nth_error live i = Some q -> exists W, nth_error ws i = Some W /\ nth_error wt q = Some (Some W)).
      { set (f := fun i : nat => _).
        assert (AL : forall i q, nth_error live i = Some q -> exists W, f i = Ok W /\ nth_error wt q = Some (Some W)).
        { intros i q Ei. destruct (PP q (nth_error_In _ _ Ei)) as (W & EW' & _). exists W. split; [|exact EW'].
          unfold f, at_. rewrite Ei. cbn [bind]. rewrite EW'. reflexivity. }
        destruct (mapM_total f (seq 0 (length live))) as [ws Ews].
        { intros i Hi. apply in_seq in Hi. destruct (nth_error_some_lt live i) as [q Eqi]; [lia|]. destruct (AL i q Eqi) as (W & -> & _). eauto. }
        exists ws. split; [exact Ews|]. pose proof (mapM_length _ _ _ Ews) as LWs. rewrite seq_length in LWs. split; [auto|].
        intros i q Ei. destruct (AL i q Ei) as (W & EfW & EwW). pose proof (nth_error_lt _ _ _ Ei) as Hi.
        destruct (nth_error_some_lt ws i) as [W' EW']; [lia|].
        pose proof (mapM_nth f (seq 0 (length live)) ws i) as MN. rewrite nth_error_seq in MN by auto. cbn [Nat.add] in MN.
        exists W. split; [|exact EwW]. destruct (MN i Ews eq_refl) as (W2 & EW2 & Ef2). rewrite EfW in Ef2. injection Ef2 as <-. exact EW2. }
      destruct GA as (ws & EWs & LWs & PWs). rewrite EWs. cbn [bind].
      destruct (weight_from_ok T s0 s1 bit E OK b HN HK W64 zs 0 state HC) as (dm & EDm & HDm). rewrite EDm. cbn [bind].
      assert (TW : t < 2 ^ width). { eapply Nat.lt_le_trans; [exact Lt|]. apply log2_up_bound. lia. }
      rewrite bits_N in FSl. pose proof (Forall2_len _ _ _ FSl) as LSl. unfold val_bits in LSl. rewrite map_length, seq_length in LSl.
      destruct (PWs t (p_cur p) Et) as (W & EWt & EwW). destruct (PP (p_cur p) Hcur) as (W' & EW' & d & D1 & D2).
      rewrite EwW in EW'. injection EW' as <-.
      assert (LR : length (resize ws (2 ^ width) dm) = 2 ^ width) by apply resize_length.
      assert (FS : Forall shp (resize ws (2 ^ width) dm)).
      { apply Forall_forall. intros y Hy. apply In_nth_error in Hy as [i Hi]. pose proof (nth_error_lt _ _ _ Hi) as Li. rewrite LR in Li.
        destruct (Nat.lt_ge_cases i (length live)) as [Hl|Hl].
        - destruct (nth_error_some_lt live i Hl) as [q Eqi]. destruct (PWs i q Eqi) as (Y & EY & EYw).
          rewrite resize_nth in Hi by auto. destruct (Nat.ltb_spec i (length ws)); [|lia]. rewrite EY in Hi. injection Hi as <-.
          destruct (PP q (nth_error_In _ _ Eqi)) as (Y' & EY' & d' & _ & D2'). rewrite EYw in EY'. injection EY' as <-.
          eapply w_holds_shaped, D2'.
        - rewrite resize_nth in Hi by auto. destruct (Nat.ltb_spec i (length ws)); [lia|]. injection Hi as <-. eapply w_holds_shaped, HDm. }
      destruct (wlookup_ok T s0 s1 bit E OK b HN HK W64 (Z.of_nat (S k) * e_cmux E) (lab (ed_to d)) (ed_accept d) (fun j => smem j (ed_inc d))
        (fun j => if smem j (ed_reset d) then target_of b j else zs j) sel (val_bits width t) (resize ws (2 ^ width) dm) W FSl) as (tb & W' & ETb & ETw & HW'); try lia.
      { congruence. }
      { exact FS. }
      { rewrite bits_val_of by auto. rewrite resize_nth by auto. destruct (Nat.ltb_spec t (length ws)); [exact EWt|lia]. }
      { exact D2. }
      rewrite ETb. cbn [bind]. unfold at_. rewrite ETw. exists W'. split; [reflexivity|].
      apply (UP width); [exact WW|]. exists d. split; [exact D1|]. rewrite LSl in HW'. exact HW'. }
  destruct SEL as (W & ESel & d & D1 & D2). fold width. rewrite ESel. cbn [bind].
  assert (d = ed) as -> by (unfold edge_at in *; congruence). clear D1.
  pose proof HM as (M1 & M2 & M3 & M4 & M5 & M6).
  destruct (update_counters_ok T G s0 s1 bit E GE OK GOK NN b HN HK W64 (btt_noise b E) _ _ _ _ W (e_br E + e_iks E + g_out GE + btt_noise b E) D2) as (W' & EU & EGn & HCt); try lia.
  rewrite EU. cbn [bind]. eexists. split; [reflexivity|]. split; [reflexivity|].
  destruct D2 as [Q1 Q2 Q3 Q4].
  constructor; cbn [r_btt r_graph r_qsize r_queue r_state r_live]; auto.
  - rewrite app_length. cbn [length]. replace ((length u + 1) * S k) with (length u * S k + S k) by lia. exact HR.
  - rewrite foldM_app, HPl. cbn [bind foldM]. rewrite HP. reflexivity.
  - rewrite EGn, Pa. exact Q1.
  - assert (Hin : In (p_cur p') next).
    { rewrite Pc. destruct (HLR _ _ EN) as [_ P2]. apply P2. exists (p_cur p), (zv ++ [x]). split; [exact Hcur|]. split; [rewrite app_length, LZv; cbn; lia|].
      rewrite run_app. cbn [run fold_left]. apply (agraph_nxt b _ _ _ Hed). rewrite <- gsz. apply run_lt; [exact Wg|]. rewrite gsz. apply (pw_cur b p PW). }
    destruct (In_nth_error _ _ Hin) as [i Ei]. exists i. split; [exact Ei|]. intros z Hz. rewrite EGn.
    assert (lab (ed_to ed) = N.of_nat i) as EL2. { unfold lab. rewrite <- Pc, (HIx _ _ Ei). reflexivity. }
    rewrite <- EL2. apply Q2, Hz.
  - intros j Hj. left. eexists. rewrite EGn. apply Q3, Hj.
  - eapply ctrs_ext; [|exact HCt]. intros j Hj. cbv beta. rewrite Pn. unfold zs. destruct (smem j (ed_reset ed)), (smem j (ed_inc ed)); cbn [Z.b2z]; lia.
Qed.

Lemma new_ok : exists s, runner_new T b qsize = Ok s /\ r_queue T s = [] /\ round_inv [] (plain_new b) s.
Proof.
  pose proof HM as (M1 & M2 & M3 & M4 & M5 & M6).
  unfold runner_new. rewrite (to_graph_ok b (wf_edges b WF)). cbn [bind].
  destruct (weight_new_ok T s0 s1 bit E OK NN b HN HK W64) as (W & EW & P1 & P2 & P3 & P4). rewrite EW. cbn [bind].
  eexists. split; [reflexivity|]. split; [reflexivity|].
  constructor; cbn [r_btt r_graph r_qsize r_queue r_state r_live]; auto.
  - split; [cbn; auto|]. intros q. cbn [length Nat.mul]. split.
    + intros [<-|[]]. exists []. auto.
    + intros ([|] & Lw & <-); [left; reflexivity|discriminate].
  - eapply near_le; [exact P1|lia].
  - exists 0. split; [reflexivity|]. intros i Hi. eapply near_le; [apply P2, Hi|lia].
  - eapply ctrs_ext; [|exact P4]. intros j Hj. unfold count, plain_new. cbn [p_counter]. rewrite nth_repeat. lia.
Qed.

Lemma push_inv : forall u p s c, round_inv u p s ->
  round_inv u p (mkRunner T (r_btt T s) (r_graph T s) (r_qsize T s) (r_queue T s ++ [c]) (r_state T s) (r_live T s) (r_evals T s)).
Proof. intros u p s c [A B C D F H I J K]. constructor; auto. Qed.

Definition waiting (v : list bool) (hb : list (option bool)) : Prop :=
  v = [] \/ (length v = 1 /\ 1 < qsize /\ match hb with Some _ :: _ => False | _ => True end).

Lemma btt_play : forall h hb, encrypts bit h hb -> forall u v p q s expected pf,
  round_inv u p s -> Forall2 bit (r_queue T s) v -> foldM plain_eval_one v p = Ok q -> waiting v hb ->
  (qsize <= 1 \/ prompt hb) -> counts_fit b (u ++ v ++ inputs hb) ->
  play plain_eval_one (fun p => Ok (plain_result p, p)) hb q = Ok (expected, pf) ->
  exists outs s' u' v' p', play (runner_eval_one T G order) (runner_result T G order) h s = Ok (outs, s') /\
    map (fun c => TLWELvl1_decrypt N1 c s1) outs = expected /\
    round_inv u' p' s' /\ Forall2 bit (r_queue T s') v' /\ foldM plain_eval_one v' p' = Ok pf.
Proof.
  pose proof HM as (M1 & M2 & M3 & M4 & M5 & M6). pose proof NN as (A1 & A2 & A3 & A4 & A5 & A6).
  intros h hb HE. induction HE as [|ev eb h hb Hev HE IH]; intros u v p q s expected pf HI HQ HV HWt HPr HCF HPl.
  - cbn [play] in *. injection HPl as <- <-. exists [], s, u, v, p. auto.
  - assert (FIT : forall x w, inputs (eb :: hb) = x :: w \/ v = [x] -> v = [] \/ v = [x] ->
       Forall2 (fun c '(w, t) => (c < t + 2 ^ N.of_nat w)%N) (p_counter p) spec).
    { intros x w [Hx|Hx] [->|Hv].
      - eapply (HCF u x w p); [|apply (ri_plain _ _ _ HI)]. rewrite <- Hx. reflexivity.
      - eapply (HCF u x (inputs (eb :: hb)) p); [|apply (ri_plain _ _ _ HI)]. rewrite Hv. reflexivity.
      - discriminate.
      - eapply (HCF u x (inputs (eb :: hb)) p); [|apply (ri_plain _ _ _ HI)]. rewrite Hv. reflexivity. }
    destruct Hev as [c x Hc|]; cbn [play] in HPl |- *.
    + destruct HWt as [->|(_ & _ & [])]. cbn [foldM] in HV. injection HV as <-. inversion HQ as [HQ0|]; subst.
      apply bind_ok in HPl as (p1 & HP1 & HPl). symmetry in HQ0.
      pose proof (push_inv u p s c HI) as HI'. unfold runner_eval_one at 1. cbv zeta. cbn [r_queue r_qsize]. rewrite HQ0, (ri_q _ _ _ HI). cbn [app length].
      destruct (Nat.ltb_spec 1 qsize) as [Hq|Hq].
      * cbn [bind]. rewrite HQ0 in HI'. cbn [app] in HI'. rewrite (ri_q _ _ _ HI) in HI'.
        destruct (IH u [x] p p1 _ expected pf HI') as (outs & s' & u' & v' & p' & R1 & R2 & R3 & R4 & R5); auto.
        -- cbn [r_queue]. constructor; auto.
        -- cbn [foldM]. rewrite HP1. reflexivity.
        -- right. split; [auto|]. split; [auto|]. destruct HPr as [HPr|HPr]; [lia|]. cbn [prompt] in HPr. destruct hb as [|[y|] hb]; auto.
        -- destruct HPr as [HPr|HPr]; [lia|]. right. cbn [prompt] in HPr. destruct hb as [|[y|] hb]; cbn; auto. contradiction.
        -- exists outs, s', u', v', p'. auto.
      * rewrite HQ0 in HI'. cbn [app] in HI'. rewrite (ri_q _ _ _ HI) in HI'.
        destruct (round_ok u p _ x p1 c HI' eq_refl Hc HP1) as (s1' & ER & EQ1 & HI1).
        { apply (FIT x (inputs hb)); auto. }
        rewrite ER. cbn [bind].
        destruct (IH (u ++ [x]) [] p1 p1 s1' expected pf HI1) as (outs & s' & u' & v' & p' & R1 & R2 & R3 & R4 & R5); auto.
        -- rewrite EQ1. constructor.
        -- left. reflexivity.
        -- rewrite <- app_assoc. exact HCF.
        -- exists outs, s', u', v', p'. auto.
    + apply bind_ok in HPl as ([r p1] & HP1 & HPl). injection HP1 as <- <-.
      apply bind_ok in HPl as ([rs p2] & HPl & HEx). injection HEx as <- <-.
      assert (EV : exists s1', runner_eval_queued T G order s = Ok s1' /\ r_queue T s1' = [] /\ round_inv (u ++ v) q s1').
      { destruct HWt as [->|(Lv & Hq & _)].
        - cbn [foldM] in HV. injection HV as <-. inversion HQ as [HQ0|]; subst. exists s. unfold runner_eval_queued. rewrite <- HQ0. cbn [length Nat.eqb].
          split; [reflexivity|]. split; [auto|]. rewrite app_nil_r. exact HI.
        - destruct v as [|x [|y v]]; cbn in Lv; try lia. inversion HQ as [|c0 x0 l l' Hc0 HQ' EQ0]; subst. inversion HQ'; subst.
          cbn [foldM] in HV. apply bind_ok in HV as (q' & HV & HV'). injection HV' as <-.
          apply (round_ok u p s x q' c0 HI (eq_sym EQ0) Hc0 HV). apply (FIT x []); auto. }
      destruct EV as (s1' & ER & EQ1 & HI1). unfold runner_result at 1. rewrite ER. cbn [bind].
      unfold get_accept, get_general_bit. destruct (Nat.leb_spec N1 0); [lia|]. cbn [bind].
      destruct (IH (u ++ v) [] q q s1' rs p2 HI1) as (outs & s' & u' & v' & p' & R1 & R2 & R3 & R4 & R5); auto.
      * rewrite EQ1. constructor.
      * left. reflexivity.
      * rewrite <- app_assoc. exact HCF.
      * rewrite R1. cbn [bind]. exists (sei T (w_general (r_state T s1')) 0 :: outs), s', u', v', p'. split; [reflexivity|]. split; [|auto].
        cbn [map]. rewrite R2. f_equal. unfold TLWELvl1_decrypt, plain_result.
        erewrite sym_bit_eqm; [eapply (sym_bit_near (btt_noise b E)); [|lia]|].
        2:{ rewrite phase_of_TLWE_ok by (apply (ok_n1 _ _ _ _ _ OK)). apply (ok_sei _ _ _ _ _ OK). lia. }
        apply (ri_acc _ _ _ HI1).
Qed.

(** ** dump *)
Lemma small_bits : forall t i, t < n -> 31 <= i -> N.testbit_nat (N.of_nat t) i = false.
Proof.
  intros t i Ht Hi. rewrite <- Ntestbit_Nbit, N_testbit_nat. apply (testbit_above t 31); [|exact Hi].
  pose proof (log2_up_bound n ltac:(lia)) as LB.
  assert (2 ^ Nat.log2_up n <= 2 ^ 31) by (apply Nat.pow_le_mono_r; lia). lia.
Qed.

Lemma dump_ok : forall u p s, round_inv u p s -> (forall w v, In (w, v) spec -> w <= 32) -> k <= 31 ->
  exists info, runner_dump T s s1 = Ok (p_accept p, p_cur p, info,
    map (fun j => match nth_error spec j with Some (w, v) => Z.to_N ((Z.of_N v - Z.of_N (count p j)) mod 2 ^ Z.of_nat w) | None => 0%N end) (seq 0 k)).
Proof.
  intros u p s HI H32 K31. pose proof HM as (M1 & M2 & M3 & M4 & M5 & M6). pose proof NN as (A1 & A2 & A3 & A4 & A5 & A6).
  pose proof (ok_n1 _ _ _ _ _ OK) as Hn. pose proof (half_le T b HN HK) as Hh.
  destruct HI as [Eb Eg Eq HL HPl HA (t & Et & HIx) HB HC].
  unfold runner_dump, weight_decrypt. cbv zeta.
  set (gen := w_general (r_state T s)) in *.
  rewrite (phase_bit T s0 s1 bit E OK (btt_noise b E) gen (p_accept p) 0 HA) by lia.
  assert (Ht : t < n).
  { pose proof (reach_len g Wg _ _ HL) as RL. rewrite gsz in RL. apply nth_error_lt in Et. lia. }
  (* the state number *)
  assert (ST : foldM (fun r i => if sym_bit (cf (phase_of_TRLWELvl1 N1 gen s1) (i + 1))
                          then if 31 <=? i then Fail FUndefined else Ok (N.lor r (N.shiftl 1 (N.of_nat i)))
                          else Ok r) (seq 0 64) 0%N = Ok (N.of_nat t)).
  { assert (F : forall m, m <= 64 -> foldM (fun r i => if sym_bit (cf (phase_of_TRLWELvl1 N1 gen s1) (i + 1))
                          then if 31 <=? i then Fail FUndefined else Ok (N.lor r (N.shiftl 1 (N.of_nat i)))
                          else Ok r) (seq 0 m) 0%N = Ok (Z.to_N (Z.of_nat t mod 2 ^ Z.of_nat m))).
    { induction m as [|m IH]; intros Hm.
      - cbn [seq foldM]. change (2 ^ Z.of_nat 0)%Z with 1%Z. rewrite Z.mod_1_r. reflexivity.
      - rewrite seq_S, foldM_app, IH by lia. cbn [bind foldM Nat.add].
        replace (m + 1) with (S m) by lia.
        rewrite (phase_bit T s0 s1 bit E OK (btt_noise b E) gen (N.testbit_nat (N.of_nat t) m) (S m) (HIx m ltac:(lia))) by lia.
        rewrite <- (lor_bit _ (Z.of_nat t) m ltac:(lia) eq_refl).
        assert (TB : Z.testbit (Z.of_nat t) (Z.of_nat m) = N.testbit_nat (N.of_nat t) m).
        { rewrite <- Ntestbit_Nbit, <- Z.testbit_of_N, !nat_N_Z. reflexivity. }
        rewrite TB. destruct (Nat.leb_spec 31 m) as [H|H].
        + rewrite small_bits by auto. reflexivity.
        + destruct (N.testbit_nat (N.of_nat t) m); reflexivity. }
    rewrite F by lia. f_equal. rewrite Z.mod_small; [lia|]. split; [lia|].
    assert (t < 2 ^ 31). { pose proof (log2_up_bound n ltac:(lia)) as LB. assert (2 ^ Nat.log2_up n <= 2 ^ 31) by (apply Nat.pow_le_mono_r; lia). lia. }
    assert (Z.of_nat t < Z.of_nat (2 ^ 31))%Z as HZ by (apply Nat2Z.inj_lt; auto). rewrite Nat2Z.inj_pow in HZ.
    eapply Z.lt_trans; [exact HZ|]. reflexivity. }
  rewrite ST. cbn [bind]. destruct HC as [LC HC]. rewrite LC.
  assert (IN : forall l r, (forall j, In j l -> j < k) -> exists info, foldM (fun r i => if sym_bit (cf (phase_of_TRLWELvl1 N1 gen s1) (N1 / 2 + i))
                      then if 31 <=? i then Fail FUndefined else Ok (N.lor r (N.shiftl 1 (N.of_nat i)))
                      else Ok r) l r = Ok info).
  { induction l as [|j l IH]; intros r Hl; [cbn; eauto|]. cbn [foldM].
    assert (j < k) by (apply Hl; left; auto).
    destruct (sym_bit _); [destruct (Nat.leb_spec 31 j); [lia|]|]; cbn [bind]; apply IH; intros; apply Hl; right; auto. }
  destruct (IN (seq 0 k) 0%N) as (info & EI). { intros j Hj. apply in_seq in Hj. lia. }
  rewrite EI. cbn [bind].
  set (out := map _ (seq 0 k)).
  assert (EM : mapM (fun c => counter_decrypt T c s1) (w_counter (r_state T s)) = Ok out).
  { assert (F : forall cs js, Forall2 (fun c j => exists w v, nth_error spec j = Some (w, v) /\ ctr_holds T s1 (e_br E) w v (target_of b j - Z.of_N (count p j)) c) cs js ->
       mapM (fun c => counter_decrypt T c s1) cs = Ok (map (fun j => match nth_error spec j with Some (w, v) => Z.to_N ((Z.of_N v - Z.of_N (count p j)) mod 2 ^ Z.of_nat w) | None => 0%N end) js)).
    { induction 1 as [|c j cs js (w & v & Es & Hc) _ IHF]; [reflexivity|]. cbn [mapM map].
      rewrite (decrypt_ok T s0 s1 bit E OK _ _ _ _ _ Hc) by (try lia; eapply H32, nth_error_In; eauto). cbn [bind]. rewrite IHF. cbn [bind].
      unfold target_of. rewrite Es. reflexivity. }
    apply F. apply BaseFacts.Forall2_nth. split; [rewrite seq_length; exact LC|].
    intros i c j Hc Hj. pose proof (nth_error_lt _ _ _ Hj) as Li. rewrite seq_length in Li. rewrite nth_error_seq in Hj by auto. injection Hj as <-. cbn [Nat.add].
    destruct (spec_nth b i Li) as (w & v & Es). exists w, v. split; [exact Es|]. destruct (HC i w v Es) as (c' & Ec' & Hc'). congruence. }
  rewrite EM. cbn [bind]. rewrite Nnat.Nat2N.id. unfold at_. rewrite Et. cbn [bind]. exists info. reflexivity.
Qed.
End R.
