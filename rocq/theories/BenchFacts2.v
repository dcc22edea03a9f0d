(** The benchmark program: how many operations BLOCK performs, and which numbers of live states are
    printed. *)
From Coq Require Import String.
From Coq Require Import List Arith Bool NArith ZArith Ascii Permutation Lia.
Import ListNotations.
From Verif Require Import Base BaseFacts GraphModel Spec GraphFacts GraphOps GraphMore TextModel DotModel BitsModel TorusModel TfheSpec
  RunnerModel RunnerFacts LookupFacts RunnerSpec ReachFacts ParFacts BlockFacts FlutFacts TimeModel PropsTime CmdModel CmdSpec
  BenchModel BenchSpec BenchFacts.
Local Open Scope list_scope.

Lemma nth_error_lst : forall {A} (l : list A) d n, length l = S n -> nth_error l n = Some (last l d).
Proof.
  intros A l d. induction l as [|x l IH]; intros n E; [discriminate|]. cbn [length] in E. injection E as E.
  destruct l as [|y l]; [cbn in E; subst; reflexivity|]. destruct n; [discriminate|]. apply IH, E.
Qed.
Lemma nth_error_some_lt {A} (l : list A) n : n < length l -> exists x, nth_error l n = Some x.
Proof. intros H. destruct (nth_error l n) eqn:E; [eauto|]. apply nth_error_None in E. lia. Qed.

Fixpoint reach_list (g : Graph) (n : nat) : list nat :=
  match n with
  | O => [initial_state g]
  | S n => sinsert_range [] (map (fun p => nxt g p false) (reach_list g n) ++ map (fun p => nxt g p true) (reach_list g n))
  end.
Lemma reach_list_set g n : reach_set g n (reach_list g n).
Proof.
  induction n as [|n [IS HL]]; cbn [reach_list].
  - split; [cbn; auto|]. intros p. split.
    + intros [<-|[]]. exists []. auto.
    + intros ([|] & L & <-); [left; reflexivity|discriminate].
  - split; [apply is_set_sinsert_range; exact I|]. intros p. rewrite sinsert_range_In, in_app_iff, !in_map_iff. split.
    + intros [[]|[(r & <- & Hr)|(r & <- & Hr)]]; apply HL in Hr as (w & Lw & <-).
      * exists (w ++ [false]). rewrite app_length, run_app. cbn. split; [lia|auto].
      * exists (w ++ [true]). rewrite app_length, run_app. cbn. split; [lia|auto].
    + intros (w & Lw & <-). destruct (exists_last (l := w)) as (w' & b & ->); [intros ->; discriminate|].
      rewrite app_length in Lw. cbn in Lw. rewrite run_app. cbn. right.
      destruct b; [right|left]; exists (run g (initial_state g) w'); (split; [reflexivity|]); apply HL; exists w'; split; auto; lia.
Qed.
(** The number of states reachable with exactly n inputs. *)
Lemma width_exists g : wf_graph g -> forall n, width g n (length (reach_list g n)).
Proof. intros W n. apply reach_width; auto. apply reach_list_set. Qed.

Section BlockCost.
Context (T : tfhe) (g : Graph) (Wg : wf_graph g) (q : nat).
Context (W : nat -> nat) (HW : forall n, width g n (W n)).

Record bshape (n p : nat) (s : RunnerModel.block T) : Prop := mkBShape {
  bs_graph : k_graph T s = g;
  bs_q : k_qsize T s = q;
  bs_live : reach_set g n (k_live T s);
  bs_queue : length (k_queue T s) = p }.

Lemma reach_W n l : reach_set g n l -> length l = W n.
Proof. intros H. apply (width_unique g n); auto. apply reach_width; auto. Qed.
Lemma W_pos n : 0 < W n.
Proof.
  destruct (reach_exists g n) as (l & H). rewrite <- (reach_W n l H).
  destruct l as [|x l]; [|cbn; lia]. exfalso. destruct H as [_ H].
  apply (H (run g (initial_state g) (repeat false n))). exists (repeat false n). rewrite repeat_length. auto.
Qed.
Lemma W_size n : W n <= size g.
Proof. destruct (reach_exists g n) as (l & H). rewrite <- (reach_W n l H). eapply reach_len; eauto. Qed.

Lemma propagate_timer levels queue idxs : forall st st',
  foldM (block_propagate T g levels queue) idxs st = Ok st' ->
  snd st' = snd st ++ map (fun i => (T_CMUX, length (nth i levels []))) idxs.
Proof.
  induction idxs as [|i idxs IH]; intros [[w o] tm] st' H; cbn [foldM map] in *.
  - injection H as <-. rewrite app_nil_r. reflexivity.
  - apply bind_ok in H as (st1 & E1 & H). rewrite (IH _ _ H). unfold block_propagate in E1.
    apply bind_ok in E1 as (l & El & E1). apply bind_ok in E1 as (c & _ & E1). apply bind_ok in E1 as (o' & _ & [= <-]).
    cbn [snd]. rewrite <- app_assoc. cbn [app]. apply at_ok in El. rewrite (nth_error_nth _ _ _ El). reflexivity.
Qed.
Lemma levels_timer inputs : forall table tmp tm table' tmp' tm',
  lookup_levels T inputs table tmp tm = Ok (table', tmp', tm') ->
  tm' = tm ++ map (fun j => (T_CMUX, 2 ^ j)) (rev (seq 0 (length inputs))).
Proof.
  induction inputs as [|c inputs IH]; intros table tmp tm table' tmp' tm' H; cbn [lookup_levels] in H.
  - injection H as _ _ <-. rewrite app_nil_r. reflexivity.
  - apply bind_ok in H as ([t1 t2] & _ & H). apply IH in H. rewrite H.
    cbn [length]. rewrite seq_S, rev_app_distr. cbn [rev app map Nat.add]. rewrite <- app_assoc. reflexivity.
Qed.
Lemma lookup_timer table inputs ws tm table' ws' tm' :
  lookup_table_with_timer T table inputs ws tm = Ok (table', ws', tm') ->
  length inputs < 31 /\ tm' = tm ++ map (fun j => (T_CMUX, 2 ^ j)) (rev (seq 0 (length inputs))).
Proof.
  unfold lookup_table_with_timer. destruct (Nat.leb_spec 31 (length inputs)); [discriminate|].
  destruct (_ =? _); cbn [assert_]; [|discriminate]. destruct (Nat.eqb_spec (length inputs) 0) as [Z0|_].
  - intros [= _ _ <-]. rewrite Z0. split; [lia|]. cbn. rewrite app_nil_r. reflexivity.
  - intros H1. split; auto. eapply levels_timer; eauto.
Qed.
Lemma tot_cmux_map {A} t (f : A -> nat) l : tot t (map (fun i => (T_CMUX, f i)) l) = if rt_eqb t T_CMUX then list_sum (map f l) else 0.
Proof.
  unfold tot. rewrite map_map. cbn [fst snd]. destruct (rt_eqb t T_CMUX); [reflexivity|].
  induction l; cbn; auto.
Qed.
Lemma sum_pow2 n : list_sum (map (fun j => 2 ^ j) (rev (seq 0 n))) = 2 ^ n - 1.
Proof.
  rewrite map_rev. induction n as [|n IH]; [reflexivity|].
  rewrite seq_S, map_app, rev_app_distr, list_sum_app, IH. cbn [map rev app list_sum fold_right Nat.add].
  pose proof (Nat.pow_nonzero 2 n ltac:(lia)). cbn [Nat.pow]. lia.
Qed.
Lemma list_sum_rev l : list_sum (rev l) = list_sum l.
Proof. induction l as [|x l IH]; [reflexivity|]. cbn [rev]. rewrite list_sum_app, IH. unfold list_sum. cbn [fold_right]. lia. Qed.

Lemma block_eval_struct n p s s' : bshape n p s -> 0 < p -> block_eval_queued T s = Ok s' ->
  bshape (n + p) 0 s' /\ exists tm, k_timer T s' = k_timer T s ++ tm /\
    tot T_CMUX tm = eval_cmuxes W n (n + p) /\ tot T_CIRCUIT_BOOTSTRAPPING tm = eval_bootstraps W n /\
    tot T_BOOTSTRAPPING tm = 0 /\
    forall e, In e tm -> 0 < snd e /\ (snd e <= size g \/ (N.of_nat (snd e) < 2 ^ 31)%N).
Proof.
  intros [Hg Hq HL HQ] Hp H. unfold block_eval_queued in H. cbv zeta in H. rewrite Hg, HQ in H.
  destruct (Nat.eqb_spec p 0); [lia|].
  destruct (track_live_states_correct g (k_live T s) p Wg (fun x => reach_lt g Wg _ _ x HL)) as (L & EL & LL & H0 & HLv).
  rewrite EL in H. cbn [bind] in H. set (next := last L []) in *.
  assert (HR : forall k l, nth_error L k = Some l -> reach_set g (n + k) l).
  { intros k l Ek. destruct k as [|k].
    - rewrite H0 in Ek. injection Ek as <-. rewrite Nat.add_0_r. exact HL.
    - destruct (HLv (S k) l Ek) as [S1 P1]. eapply reach_step; [exact HL|apply S1; lia|].
      intros x. rewrite P1. split; intros (r & w & Hr & Lw & R); exists r, w; (split; [auto|]); (split; [auto|]);
        rewrite run_from_run in * by (auto; apply (reach_lt g Wg _ _ _ HL Hr)); congruence. }
  assert (EN : nth_error L p = Some next) by (apply nth_error_lst; auto).
  assert (CM : list_sum (map (fun i => length (nth i L [])) (rev (seq 0 p))) = list_sum (map W (seq n p))).
  { rewrite map_rev, list_sum_rev. f_equal. 
    assert (G : forall k m, m + k <= p -> map (fun i => length (nth i L [])) (seq m k) = map W (seq (n + m) k)).
    { induction k as [|k IH]; intros m Hm; [reflexivity|]. cbn [seq map]. f_equal.
      - destruct (nth_error_some_lt L m ltac:(lia)) as [l El]. rewrite (nth_error_nth _ _ _ El). apply reach_W, HR, El.
      - rewrite IH by lia. rewrite Nat.add_succ_r. reflexivity. }
    rewrite (G p 0) by lia. rewrite Nat.add_0_r. reflexivity. }
  assert (PL : forall e, In e (map (fun i => (T_CMUX, length (nth i L []))) (rev (seq 0 p))) -> 0 < snd e /\ snd e <= size g).
  { intros e He. apply in_map_iff in He as (i & <- & Hi). apply in_rev, in_seq in Hi. cbn [snd].
    destruct (nth_error_some_lt L i ltac:(lia)) as [l El]. rewrite (nth_error_nth _ _ _ El), (reach_W _ _ (HR _ _ El)).
    split; [apply W_pos|apply W_size]. }
  apply bind_ok in H as (n2i & _ & H). apply bind_ok in H as (weight & _ & H).
  apply bind_ok in H as ([[wt ot] tm] & EP & H). apply propagate_timer in EP. cbn [snd] in EP.
  unfold eval_cmuxes, eval_bootstraps. rewrite <- (reach_W _ _ HL).
  replace (n + p - n) with p by lia. 
  destruct (length (k_live T s) =? 1) eqn:EL1.
  - apply bind_ok in H as (x & _ & H). apply bind_ok in H as (sel & _ & [= <-]).
    split; [constructor; cbn; auto|]. cbn [k_timer]. eexists. split; [exact EP|].
    rewrite !tot_cmux_map. cbn [rt_eqb]. rewrite CM. do 3 (split; [lia|]). intros e He. destruct (PL e He). auto.
  - destruct (k_selector T s) as [sel|]; [|discriminate].
    destruct (Nat.leb_spec (t_n1 T) (index_width (length (k_live T s)))); [discriminate|].
    apply bind_ok in H as (cond & EC & H). apply par_for_inv in EC as (_ & LC & _). rewrite repeat_length in LC.
    apply bind_ok in H as (cts & EM & H). apply mapM_length in EM.
    apply bind_ok in H as (out & _ & H). apply bind_ok in H as ([[tb ws] tm'] & ET & H).
    apply lookup_timer in ET as (L31 & ET). apply bind_ok in H as (sel' & _ & [= <-]).
    rewrite EM, LC in *. set (wd := index_width (length (k_live T s))) in *.
    change (index_bits (length (k_live T s))) with wd.
    split; [constructor; cbn; auto|]. cbn [k_timer].
    eexists. split; [rewrite ET, EP, <- !app_assoc; reflexivity|].
    rewrite !tot_app, !tot_cmux_map. cbn [rt_eqb]. rewrite CM, sum_pow2. cbn [tot map rt_eqb fst snd list_sum fold_right].
    do 3 (split; [unfold tot; cbn [map rt_eqb fst snd list_sum fold_right]; lia|]).
    assert (WP : 0 < wd) by (unfold wd, index_width; lia).
    intros e He. rewrite !in_app_iff in He. destruct He as [He|[He|He]].
    + destruct (PL e He). auto.
    + destruct He as [<-|[]]. cbn [snd]. split; [exact WP|]. right. lia.
    + apply in_map_iff in He as (j & <- & Hj). apply in_rev, in_seq in Hj. cbn [snd].
      pose proof (Nat.pow_nonzero 2 j ltac:(lia)). split; [lia|]. right. rewrite Nnat.Nat2N.inj_pow.
      apply N.pow_lt_mono_r; lia.
Qed.

Lemma block_play_struct h : forall n p s s' outs, bshape n p s -> p < Nat.max q 1 ->
  play (block_eval_one T) (block_result T) h s = Ok (outs, s') ->
  Forall2 (fun m r => reach_set g m (k_live T r)) (consumed q n p h) (trail (block_eval_one T) (block_result T) h s) /\
  exists tm, k_timer T s' = k_timer T s ++ tm /\
    tot T_CMUX tm = cmuxes W n (flushes q n p h) /\ tot T_CIRCUIT_BOOTSTRAPPING tm = bootstraps W n (flushes q n p h) /\
    tot T_BOOTSTRAPPING tm = 0 /\
    forall e, In e tm -> 0 < snd e /\ (snd e <= size g \/ (N.of_nat (snd e) < 2 ^ 31)%N).
Proof.
  induction h as [|[c|] h IH]; intros n p s s' outs HS HP H; cbn [play consumed flushes trail] in *.
  - injection H as _ <-. split; [constructor|]. exists []. rewrite app_nil_r. do 4 (split; [reflexivity|]). intros e [].
  - apply bind_ok in H as (s1 & E1 & H). rewrite E1.
    unfold block_eval_one in E1. cbv zeta in E1. cbn [k_queue k_qsize] in E1.
    rewrite (bs_q _ _ _ HS), app_length, (bs_queue _ _ _ HS) in E1. cbn [length] in E1. rewrite Nat.add_1_r in E1.
    assert (HS' : bshape n (S p) (mkBlock T (k_graph T s) q (k_queue T s ++ [c]) (k_selector T s) (k_live T s) (k_timer T s))).
    { destruct HS. constructor; cbn; auto. rewrite app_length. cbn. lia. }
    destruct (Nat.ltb_spec (S p) q) as [L|L].
    + injection E1 as <-. destruct (IH n (S p) _ _ _ HS' ltac:(lia) H) as (H1 & H2). split; [|exact H2].
      constructor; [apply HS|exact H1].
    + destruct (block_eval_struct _ _ _ _ HS' ltac:(lia) E1) as (HS1 & tm & T1 & T2 & T3 & T4 & T5).
      destruct (IH (n + S p) 0 _ _ _ HS1 ltac:(lia) H) as (H1 & tm2 & U1 & U2 & U3 & U4 & U5). split.
      * constructor; [apply HS|exact H1].
      * exists (tm ++ tm2). rewrite U1, T1. cbn [k_timer]. rewrite <- app_assoc. split; [reflexivity|].
        rewrite !tot_app, U2, U3, U4, T2, T3, T4. cbn [cmuxes bootstraps]. do 3 (split; [lia|]).
        intros e He. apply in_app_iff in He as [He|He]; auto.
  - apply bind_ok in H as ([c s1] & E1 & H). apply bind_ok in H as ([o s2] & H & [= _ <-]). rewrite E1.
    unfold block_result in E1. apply bind_ok in E1 as (s1' & E1 & E2).
    destruct (k_selector T s1'); [|discriminate]. injection E2 as _ <-.
    destruct (Nat.eqb_spec p 0) as [->|NZ].
    + unfold block_eval_queued in E1. cbv zeta in E1. rewrite (bs_queue _ _ _ HS) in E1. cbn in E1. injection E1 as <-.
      eapply IH; eauto.
    + destruct (block_eval_struct _ _ _ _ HS ltac:(lia) E1) as (HS1 & tm & T1 & T2 & T3 & T4 & T5).
      destruct (IH (n + p) 0 _ _ _ HS1 ltac:(lia) H) as (H1 & tm2 & U1 & U2 & U3 & U4 & U5). split; [exact H1|].
      exists (tm ++ tm2). rewrite U1, T1. rewrite <- app_assoc. split; [reflexivity|].
      rewrite !tot_app, U2, U3, U4, T2, T3, T4. cbn [cmuxes bootstraps]. do 3 (split; [lia|]).
      intros e He. apply in_app_iff in He as [He|He]; auto.
Qed.
Lemma block_new_struct : exists s, block_new T g q false = Ok s /\ bshape 0 0 s /\ k_timer T s = [].
Proof.
  eexists. split; [reflexivity|]. split; [|reflexivity]. constructor; cbn; auto.
  split; [cbn; auto|]. intros x. split.
  - intros [<-|[]]. exists []. auto.
  - intros ([|] & L & <-); [left; reflexivity|discriminate].
Qed.
End BlockCost.

(** * FLUT: live states *)
Section FlutLive.
Context (T : tfhe) (s0 s1 : list Z) (bit : trgsw T -> bool -> Prop) (E : noise).
Hypothesis OK : tfhe_ok T s0 s1 bit E.
Hypothesis NN : noise_nonneg E.
Context (g : Graph) (Wg : wf_graph g) (max q freq : nat).
Hypothesis Hq0 : 0 < q.
Hypothesis Hq : q < 31.
Hypothesis Hfreq : 0 < freq.
Hypothesis Hmax : max < 31.
Hypothesis HmaxN : table_fits (t_n1 T) max q g.
Hypothesis HM : flut_margin (size g * 2 ^ (q / 2)) q freq E.
Notation inv := (flut_inv T s1 bit E g max q freq).

Lemma flut_play_live h hb : encrypts bit h hb -> forall u v s outs s', inv u v s -> length v < q ->
  play (flut_eval_one T) (flut_result T) h s = Ok (outs, s') ->
  Forall2 (fun m r => reach_set g m (f_live T r)) (consumed q (length u) (length v) hb)
    (trail (flut_eval_one T) (flut_result T) h s).
Proof.
  intros HE. induction HE as [|x y h hb Hxy HE IH]; intros u v s outs s' HI LV H; [constructor|].
  destruct Hxy as [c b Hc|]; cbn [play consumed trail] in *.
  - apply bind_ok in H as (s2 & E2 & H). rewrite E2. constructor; [apply HI|].
    pose proof (flut_feed_ok T s0 s1 bit E OK NN g Wg max q freq Hq Hfreq Hmax HmaxN HM u v s c b HI Hc (or_introl LV)) as HF.
    destruct (Nat.ltb_spec (S (length v)) q) as [L|L].
    + destruct HF as (s3 & E3 & I3). rewrite E2 in E3. injection E3 as <-.
      specialize (IH u (v ++ [b]) s2 outs s' I3). rewrite app_length in IH. cbn [length] in IH. rewrite Nat.add_1_r in IH.
      apply IH; auto.
    + destruct HF as [?|(next & HR & HO)]; [lia|]. rewrite E2 in HO. cbn [flut_outcome] in HO. destruct HO as [_ I3].
      specialize (IH (u ++ v ++ [b]) [] s2 outs s' I3). rewrite !app_length in IH. cbn [length] in IH. rewrite Nat.add_1_r in IH.
      apply IH; auto.
  - apply bind_ok in H as ([c s2] & E2 & H). apply bind_ok in H as ([o s3] & H & [= _ <-]). rewrite E2.
    destruct (flut_ask_ok T s0 s1 bit E OK NN g Wg max q freq Hq Hfreq Hmax HmaxN HM u v s HI ltac:(lia)) as (next & _ & HO).
    rewrite E2 in HO. destruct HO as (_ & I3 & _).
    specialize (IH (u ++ v) [] s2 o s3 I3). rewrite app_length in IH. cbn [length] in IH.
    destruct (Nat.eqb_spec (length v) 0) as [Z0|Z0].
    + rewrite Z0, Nat.add_0_r in IH. eapply IH; eauto.
    + eapply IH; eauto.
Qed.
End FlutLive.
