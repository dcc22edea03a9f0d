(** Theorems about counters and binarised temporal testers (counter.cpp): C47, C48, C50. *)
From Coq Require Import List Arith Bool NArith ZArith Lia Permutation.
From Coq Require Import ZifyBool ZifyNat ZifyN.
Import ListNotations.
From Verif Require Import Base BaseFacts GraphModel TorusModel TfheSpec TorusFacts TfheFacts RunnerModel RunnerSpec
  CounterModel CounterSpec CounterFacts1 CounterFacts2 CounterFacts3 CounterFacts4.
Local Open Scope nat_scope.

(** ** C48: an encrypted counter counts down modulo 2^width *)
Theorem C48_counter : forall T G s0 s1 bit E GE e, tfhe_ok T s0 s1 bit E -> gates_ok T G s0 bit GE -> noise_nonneg E ->
  counter_margin E GE e ->
  forall w v ops h, w <= 64 -> Forall2 (same_call T s0 e) ops h ->
  let z := (counted (Z.of_N v) h mod 2 ^ Z.of_nat w)%Z in
  exists c, (do c0 <- counter_new T w v; foldM (counter_call T G) ops c0) = Ok c /\
    (forall order, valid_order w order -> exists x, counter_is_zero T G order c = Ok x /\ bit (cb01 T G x) (z =? 0)%Z) /\
    (w <= 32 -> counter_decrypt T c s1 = Ok (Z.to_N z)).
Proof.
  intros T G s0 s1 bit E GE e OK GOK NN HM w v ops h HW HF. cbv zeta.
  pose proof NN as (A1 & A2 & A3 & A4 & A5 & A6). pose proof HM as (M1 & M2 & M3 & M4 & M5 & M6).
  destruct (reset_ok T s0 s1 bit E OK (mkCounter [] w v)) as (c0 & E0 & H0); [exact HW|]. cbn [c_width c_init] in H0.
  unfold counter_new. rewrite E0. cbn [bind].
  assert (H0' : ctr_holds T s1 (e_br E) w v (Z.of_N v) c0) by (eapply ctr_holds_le; [exact H0|lia]).
  destruct (counter_calls T G s0 s1 bit E GE OK GOK NN e HM w v HW ops h HF c0 _ H0') as (c & EC & HC).
  exists c. split; [exact EC|]. split.
  - intros order HO. eapply (is_zero_ok T G s0 s1 bit E GE OK GOK NN c (e_br E) w v _ order HC HO); lia.
  - intros H32. eapply decrypt_ok; [exact OK|exact HC|lia|exact H32].
Qed.
(** A counter of more than 64 bits cannot be created. *)
Theorem C48_too_wide : forall T w v, 64 < w -> counter_new T w v = Fail FUndefined.
Proof. intros T w v H. unfold counter_new, counter_reset. cbn [c_width]. destruct (Nat.ltb_spec 64 w); [reflexivity|lia]. Qed.
(** Decrypting a counter of 33 bits or more whose bit 32 is set is undefined. *)
Definition wide_T : tfhe := toy 1 2 [1]%Z [1; 0]%Z 0.
Theorem C48_decrypt_wide_refuted : exists c, counter_new wide_T 33 (2 ^ 32)%N = Ok c /\ counter_decrypt wide_T c [1; 0]%Z = Fail FUndefined.
Proof. eexists. split; [reflexivity|]. vm_compute. reflexivity. Qed.

(** From left to right: the order of a sequential reduction *)
Definition chain (w : nat) : red := fold_left (fun t i => RNode t (RLeaf i)) (seq 1 w) (RLeaf 0).
Lemma chain_valid : forall w, valid_order w (chain w).
Proof.
  intros w. unfold valid_order, chain.
  assert (F : forall l t, leaves (fold_left (fun t i => RNode t (RLeaf i)) l t) = leaves t ++ l).
  { induction l as [|i l IH]; intros t; cbn [fold_left]; [symmetry; apply app_nil_r|]. rewrite IH. cbn [leaves]. rewrite <- app_assoc. reflexivity. }
  rewrite F. apply Permutation_refl.
Qed.

(** Non-vacuity: a 3-bit counter started at 2, three borrows and a reset, with noise *)
Definition ctr_T : tfhe := toy 1 2 [1]%Z [1; 0]%Z 1000.
Definition ctr_G : gates ctr_T := toy_gates 1 2 [1]%Z [1; 0]%Z 1000.
Definition ctr_borrow (b : bool) : list Z := triv_tlwe 1 (msg_1o8 b + 5)%Z.
Example C48_hyps : tfhe_ok ctr_T [1]%Z [1; 0]%Z (fun c b => c = b) (toy_noise 1000) /\
  gates_ok ctr_T ctr_G [1]%Z (fun c b => c = b) (toy_gate_noise 1000) /\ noise_nonneg (toy_noise 1000) /\
  counter_margin (toy_noise 1000) (toy_gate_noise 1000) 5 /\
  Forall2 (same_call ctr_T [1]%Z 5) [Some (ctr_borrow true); Some (ctr_borrow false); Some (ctr_borrow true); Some (ctr_borrow true)]
                                    [Some true; Some false; Some true; Some true] /\
  valid_order 3 (RNode (RNode (RLeaf 2) (RLeaf 0)) (RNode (RLeaf 3) (RLeaf 1))).
Proof.
  split; [apply toy_ok; lia|]. split; [apply toy_gates_ok|]. split; [unfold noise_nonneg; cbn; lia|].
  split; [unfold counter_margin; cbn; unfold t_1o8, t_1o4; lia|]. split.
  - assert (B : forall b, same_call ctr_T [1]%Z 5 (Some (ctr_borrow b)) (Some b)).
    { intros b. constructor. unfold ctr_borrow. change (t_n0 ctr_T) with 1. rewrite triv_tlwe_phase. exists 5%Z. split; [lia|reflexivity]. }
    repeat (apply Forall2_cons; [apply B|]). apply Forall2_nil.
  - unfold valid_order. cbn. apply NoDup_Permutation; [repeat constructor; cbn; lia|repeat constructor; cbn; lia|]. intros x. cbn. lia.
Qed.
(** 2 - 3 = 7 modulo 8; after a reset and two borrows the zero test succeeds *)
Example C48_witness :
  (do c <- counter_new ctr_T 3 2; do c <- foldM (counter_call ctr_T ctr_G) [Some (ctr_borrow true); Some (ctr_borrow false); Some (ctr_borrow true); Some (ctr_borrow true)] c;
   do z <- counter_is_zero ctr_T ctr_G (RNode (RNode (RLeaf 2) (RLeaf 0)) (RNode (RLeaf 3) (RLeaf 1))) c;
   do n <- counter_decrypt ctr_T c [1; 0]%Z; Ok (cb01 ctr_T ctr_G z, n)) = Ok (false, 7%N) /\
  (do c <- counter_new ctr_T 3 2; do c <- foldM (counter_call ctr_T ctr_G) [Some (ctr_borrow true); None; Some (ctr_borrow true); Some (ctr_borrow true)] c;
   do z <- counter_is_zero ctr_T ctr_G (RNode (RNode (RLeaf 2) (RLeaf 0)) (RNode (RLeaf 3) (RLeaf 1))) c;
   do n <- counter_decrypt ctr_T c [1; 0]%Z; Ok (cb01 ctr_T ctr_G z, n)) = Ok (true, 0%N).
Proof. split; vm_compute; reflexivity. Qed.

(** ** C47: the encrypted runner gives the answers of the plaintext runner
    Full claim: for every tester, queue size and history.  Missing: testers whose test states have
    effects, testers that narrow down to a single state other than 0, counts past target + 2^width,
    queues of more than one input that are really used.  All four are false of the code (below). *)
Theorem C47_counter_runner_partial : forall T G s0 s1 bit E GE, tfhe_ok T s0 s1 bit E -> gates_ok T G s0 bit GE -> noise_nonneg E ->
  forall b queue_size order h hb expected p,
  btt_wf b -> tests_pure b -> lonely_zero b ->
  64 < t_n1 T / 2 -> t_n1 T / 2 + length (bt_spec b) <= t_n1 T -> Nat.log2_up (btt_size b) < 31 -> btt_margin b E GE ->
  (forall ev j w v, nth_error (bt_spec b) j = Some (w, v) -> valid_order w (order ev j)) ->
  encrypts bit h hb -> (queue_size <= 1 \/ prompt hb) -> counts_fit b (inputs hb) ->
  play plain_eval_one (fun p => Ok (plain_result p, p)) hb (plain_new b) = Ok (expected, p) ->
  exists outs s', (do s <- runner_new T b queue_size; play (runner_eval_one T G order) (runner_result T G order) h s) = Ok (outs, s') /\
    map (fun c => TLWELvl1_decrypt (t_n1 T) c s1) outs = expected.
Proof.
  intros T G s0 s1 bit E GE OK GOK NN b q order h hb expected p WF TP LZ HN HK H31 HM HO HE HP HC HPl.
  destruct (new_ok T s0 s1 bit E GE OK NN b WF HN HK H31 HM order HO q) as (s & EN & EQ & HI). rewrite EN. cbn [bind].
  destruct (btt_play T G s0 s1 bit E GE OK GOK NN b WF TP LZ HN HK H31 HM order HO q h hb HE [] [] (plain_new b) (plain_new b) s expected p HI)
    as (outs & s' & u' & v' & p' & R1 & R2 & _); auto.
  - rewrite EQ. constructor.
  - left. reflexivity.
  - eauto.
Qed.

(** The values printed by dump (when no input is pending): the answer, state and counts of the
    plaintext runner; of the encrypted counters, what is left to the target. *)
Theorem C47_dump_partial : forall T G s0 s1 bit E GE, tfhe_ok T s0 s1 bit E -> gates_ok T G s0 bit GE -> noise_nonneg E ->
  forall b queue_size order h hb expected p,
  btt_wf b -> tests_pure b -> lonely_zero b ->
  64 < t_n1 T / 2 -> t_n1 T / 2 + length (bt_spec b) <= t_n1 T -> Nat.log2_up (btt_size b) < 31 -> btt_margin b E GE ->
  (forall ev j w v, nth_error (bt_spec b) j = Some (w, v) -> valid_order w (order ev j)) ->
  encrypts bit h hb -> (queue_size <= 1 \/ prompt hb) -> counts_fit b (inputs hb) ->
  play plain_eval_one (fun p => Ok (plain_result p, p)) hb (plain_new b) = Ok (expected, p) ->
  (forall w v, In (w, v) (bt_spec b) -> w <= 32) -> length (bt_spec b) <= 31 ->
  exists outs s', (do s <- runner_new T b queue_size; play (runner_eval_one T G order) (runner_result T G order) h s) = Ok (outs, s') /\
    (r_queue T s' = [] -> exists info left_, runner_dump T s' s1 = Ok (p_accept p, p_cur p, info, left_) /\
      length left_ = length (bt_spec b) /\
      forall j w v c l, nth_error (bt_spec b) j = Some (w, v) -> nth_error (p_counter p) j = Some c -> nth_error left_ j = Some l ->
        Z.of_N l = ((Z.of_N v - Z.of_N c) mod 2 ^ Z.of_nat w)%Z).
Proof.
  intros T G s0 s1 bit E GE OK GOK NN b q order h hb expected p WF TP LZ HN HK H31 HM HO HE HP HC HPl H32 HK31.
  destruct (new_ok T s0 s1 bit E GE OK NN b WF HN HK H31 HM order HO q) as (s & EN & EQ & HI). rewrite EN. cbn [bind].
  destruct (btt_play T G s0 s1 bit E GE OK GOK NN b WF TP LZ HN HK H31 HM order HO q h hb HE [] [] (plain_new b) (plain_new b) s expected p HI)
    as (outs & s' & u' & v' & p' & R1 & R2 & R3 & R4 & R5); auto.
  - rewrite EQ. constructor.
  - left. reflexivity.
  - exists outs, s'. split; [exact R1|]. intros HQ. rewrite HQ in R4. inversion R4; subst. cbn [foldM] in R5. injection R5 as <-.
    destruct (dump_ok T s0 s1 bit E GE OK NN b WF HN HK H31 HM order HO q u' p' s' R3 H32 HK31) as (info & ED).
    exists info. eexists. split; [exact ED|]. split; [rewrite map_length, seq_length; reflexivity|].
    intros j w v c l Hj Hc Hl. assert (Lj : j < length (bt_spec b)) by (apply nth_error_Some; congruence).
    rewrite nth_error_map, nth_error_seq in Hl by auto. cbn [option_map Nat.add] in Hl. rewrite Hj in Hl. injection Hl as <-.
    unfold count. rewrite (nth_error_nth _ _ _ Hc). rewrite Z2N.id; [reflexivity|]. apply Z.mod_pos_bound. lia.
Qed.

(** *** The project's own test of the runner *)

Lemma test_edge : forall q x e, edge_at test_btt q x e -> q < 9.
Proof. intros q x e H. unfold edge_at in H. apply nth_error_lt in H. cbn [test_btt bt_delta length] in H. lia. Qed.
Lemma test_class : forall q x e, edge_at test_btt q x e -> (ed_to e <? 4) = negb (q <? 4).
Proof.
  intros q x e H. pose proof (test_edge _ _ _ H) as L. unfold edge_at in H.
  do 9 (destruct q as [|q]; [destruct x; cbn in H; injection H as <-; reflexivity|]). lia.
Qed.
Lemma test_walk : forall q w q', walk test_btt q w q' -> (q' <? 4) = xorb (q <? 4) (Nat.odd (length w)).
Proof.
  induction 1 as [|q x e w q' He _ IH]; [change (Nat.odd (length (@nil bool))) with false; symmetry; apply xorb_false_r|].
  rewrite IH, (test_class _ _ _ He). cbn [length]. rewrite Nat.odd_succ, <- Nat.negb_odd.
  destruct (q <? 4), (Nat.odd (length w)); reflexivity.
Qed.
Lemma test_wf : btt_wf test_btt.
Proof.
  unfold btt_wf. split; [cbn; lia|]. split.
  - intros e He. cbn [test_btt bt_delta In] in He.
    repeat (destruct He as [<-|He]; [cbn; split; [lia|split; [repeat constructor; cbn; tauto|intros i; lia]]|]). destruct He.
  - intros w v [H|[]]. injection H as <- <-. split; [lia|reflexivity].
Qed.
Lemma test_pure : tests_pure test_btt.
Proof.
  intros w q x e HW HL HE. pose proof (test_walk _ _ _ HW) as HC. cbn [test_btt bt_spec length] in HL.
  assert (Nat.odd (length w) = false) as HO.
  { rewrite <- Nat.bit0_odd, Nat.bit0_eqb. apply Nat.eqb_neq. exact HL. }
  rewrite HO in HC. change (0 <? 4) with true in HC. cbn [xorb] in HC. apply Nat.ltb_lt in HC. unfold edge_at in HE.
  do 4 (destruct q as [|q]; [destruct x; cbn in HE; injection HE as <-; cbn; auto|]). lia.
Qed.
Lemma test_zeros : forall n, walk test_btt 3 (repeat false (2 * n)) 3.
Proof.
  induction n as [|n IH]; [constructor|]. replace (2 * S n) with (S (S (2 * n))) by lia. cbn [repeat].
  eapply walk_cons; [reflexivity|]. cbn [ed_to]. eapply walk_cons; [reflexivity|]. exact IH.
Qed.
Lemma walk_app : forall b q w q', walk b q w q' -> forall w' q'', walk b q' w' q'' -> walk b q (w ++ w') q''.
Proof. induction 1; intros w' q'' H'; cbn [app]; [exact H'|]. econstructor; eauto. Qed.
Lemma test_lonely : lonely_zero test_btt.
Proof.
  intros n q H. destruct n as [|n]; [symmetry; apply (H [] 0); [reflexivity|constructor]|]. exfalso.
  cbn [test_btt bt_spec length] in H.
  assert (W3 : walk test_btt 0 (false :: false :: repeat false (2 * n)) 3).
  { eapply walk_cons; [reflexivity|]. eapply walk_cons; [reflexivity|]. apply test_zeros. }
  assert (W1 : walk test_btt 0 (repeat false (2 * n) ++ [false; true]) 1).
  { destruct n as [|n]; [cbn; eapply walk_cons; [reflexivity|]; eapply walk_cons; [reflexivity|constructor]|].
    replace (2 * S n) with (S (S (2 * n))) by lia. cbn [repeat app].
    eapply walk_cons; [reflexivity|]. eapply walk_cons; [reflexivity|]. eapply walk_app; [apply test_zeros|].
    eapply walk_cons; [reflexivity|]. eapply walk_cons; [reflexivity|constructor]. }
  assert (3 = q) by (eapply H; [|exact W3]; cbn [length]; rewrite repeat_length; lia).
  assert (1 = q) by (eapply H; [|exact W1]; rewrite app_length, repeat_length; cbn [length]; lia). lia.
Qed.

(** The plaintext runner on the tester: it never counts past 10. *)
Record test_inv (p : plain) : Prop := mkTI {
  ti_btt : p_btt p = test_btt;
  ti_cur : p_cur p < 4;
  ti_count : exists c, p_counter p = [c] /\ (c <= 10)%N }.
Lemma test_step : forall p x, test_inv p -> exists p', plain_eval_one p x = Ok p' /\ test_inv p'.
Proof.
  intros [b q a cs] x [Hb Hq (c & Hc & Lc)]. cbn [p_btt p_cur p_counter] in *. subst b cs.
  unfold plain_eval_one. cbn [p_btt p_cur p_counter test_btt bt_spec length seq foldM at_ nth_error bind].
  assert (L : (c =? 2147483647)%N = false) by (apply N.eqb_neq; lia).
  destruct (N.eqb_spec c 10) as [E10|N10]; do 4 (destruct q as [|q];
    [destruct x; cbn; unfold plain_inc; cbn; rewrite ?L; cbn; (eexists; split; [reflexivity|]); constructor; cbn; try reflexivity; try lia;
       (eexists; split; [reflexivity|lia])|]); lia.
Qed.
Lemma test_new : test_inv (plain_new test_btt).
Proof. constructor; cbn; try lia; auto. exists 0%N. split; [reflexivity|lia]. Qed.
Lemma test_run : forall word p, test_inv p -> exists p', foldM plain_eval_one word p = Ok p' /\ test_inv p'.
Proof.
  induction word as [|x word IH]; intros p H; cbn [foldM]; [eauto|].
  destruct (test_step p x H) as (p1 & E1 & H1). rewrite E1. cbn [bind]. auto.
Qed.
Lemma test_plays : forall word p, test_inv p -> exists answers p',
  play plain_eval_one (fun p => Ok (plain_result p, p)) (test_history word) p = Ok (answers, p').
Proof.
  induction word as [|x word IH]; intros p H; cbn [test_history flat_map app play]; [eauto|].
  destruct (test_step p x H) as (p1 & E1 & H1). rewrite E1. cbn [bind].
  destruct (IH p1 H1) as (an & p' & EP). unfold test_history in EP. rewrite EP. cbn [bind]. eauto.
Qed.

(** ** C50: whatever inputs it draws, the test of counter.cpp never reports a difference *)
Theorem C50_test_passes : forall T G s0 s1 bit E GE, tfhe_ok T s0 s1 bit E -> gates_ok T G s0 bit GE -> noise_nonneg E ->
  64 < t_n1 T / 2 -> t_n1 T / 2 + 1 <= t_n1 T -> btt_margin test_btt E GE ->
  forall order, (forall ev, valid_order 10 (order ev 0)) ->
  forall word cts, Forall2 bit cts word ->
  exists outs s' answers p',
    (do s <- runner_new T test_btt 1; play (runner_eval_one T G order) (runner_result T G order) (test_history cts) s) = Ok (outs, s') /\
    play plain_eval_one (fun p => Ok (plain_result p, p)) (test_history word) (plain_new test_btt) = Ok (answers, p') /\
    map (fun c => TLWELvl1_decrypt (t_n1 T) c s1) outs = answers.
Proof.
  intros T G s0 s1 bit E GE OK GOK NN HN HK HM order HO word cts HF.
  destruct (test_plays word _ test_new) as (an & p' & EP).
  destruct (C47_counter_runner_partial T G s0 s1 bit E GE OK GOK NN test_btt 1 order (test_history cts) (test_history word) an p') as (outs & s' & ER & EM); auto.
  - apply test_wf.
  - apply test_pure.
  - apply test_lonely.
  - cbn. lia.
  - intros ev j w v Hj. destruct j as [|[|j]]; try discriminate. cbn in Hj. injection Hj as <- <-. apply HO.
  - unfold encrypts. clear - HF. induction HF; cbn; [constructor|]. repeat constructor; auto.
  - intros u x v p Hw Hp. destruct (test_run u _ test_new) as (p1 & E1 & [_ _ (c & Hc & Lc)]). rewrite E1 in Hp. injection Hp as <-.
    rewrite Hc. cbn [test_btt bt_spec]. repeat constructor. lia.
  - exists outs, s', an, p'. auto.
Qed.

(** Non-vacuity of C47, C50: a ring of dimension 130, noise 1000, the tester above *)
Definition btt_key : list Z := 1%Z :: repeat 0%Z 129.
(** The toy instance of TfheSpec.v, except that a CMUX copies its input ciphertext and adds the noise
    to the body: the same contract, but fast enough to run here. *)
Definition quick (n0 n1 : nat) (s0 s1 : list Z) (e : Z) : tfhe :=
  let T := toy n0 n1 s0 s1 e in
  mkTfhe n0 n1 bool
    (fun c w1 w0 => let w := if c : bool then w1 else w0 in (fst w, map (fun i => nth i (snd w) 0 + e)%Z (seq 0 n1)))
    (sei T) (iks T)
    (fun t v => let x := ((if (tlwe_phase n0 s0 t mod two32 <? t_1o2)%Z then nth 0 v 0 else - nth 0 v 0) + e)%Z in
       triv_trlwe n1 (fun _ => x))
    (fun t => let x := tlwe_phase n1 s1 t in triv_trlwe n1 (fun i => (if (i =? 0)%nat then x else 0) + e)%Z)
    (cbfft T).
Lemma quick_ok : forall n0 n1 s0 s1 e, 0 < n1 -> tfhe_ok (quick n0 n1 s0 s1 e) s0 s1 (fun c b => c = b) (toy_noise e).
Proof.
  intros n0 n1 s0 s1 e Hn. destruct (toy_ok n0 n1 s0 s1 e Hn) as [].
  split; try assumption. intros c b w1 w0 i Hb Hi. change bool in c. change (c = b) in Hb. subst c.
  unfold quick. cbn [cmux t_n1] in *. unfold trlwe_phase. cbn [fst snd].
  rewrite (nth_indep _ 0%Z (nth 0 (snd (if b then w1 else w0)) 0 + e)%Z) by (rewrite map_length, seq_length; exact Hi).
  rewrite (map_nth (fun i => (nth i (snd (if b then w1 else w0)) 0 + e)%Z)), seq_nth by exact Hi. cbn [Nat.add].
  exists e. split; [cbn; lia|]. apply eqm_refl'. lia.
Qed.
Definition quick_gates (n0 n1 : nat) (s0 s1 : list Z) (e : Z) : gates (quick n0 n1 s0 s1 e) :=
  let G := toy_gates n0 n1 s0 s1 e in
  mkGates (quick n0 n1 s0 s1 e) (hom_or _ G) (hom_andny _ G) (hom_not _ G) (cb01 _ G).
Lemma quick_gates_ok : forall n0 n1 s0 s1 e, gates_ok (quick n0 n1 s0 s1 e) (quick_gates n0 n1 s0 s1 e) s0 (fun c b => c = b) (toy_gate_noise e).
Proof. intros. destruct (toy_gates_ok n0 n1 s0 s1 e) as []. split; assumption. Qed.
Definition btt_T : tfhe := quick 1 130 [1]%Z btt_key 1000.
Definition btt_G : gates btt_T := quick_gates 1 130 [1]%Z btt_key 1000.
Definition btt_order (b : BTT) (ev j : nat) : red := match nth_error (bt_spec b) j with Some (w, _) => chain w | None => RLeaf 0 end.
(** The decrypted answers of a run *)
Definition btt_answers (b : BTT) (queue_size : nat) (h : list (option bool)) : res (list bool) :=
  do s <- runner_new btt_T b queue_size;
  do '(outs, _) <- play (runner_eval_one btt_T btt_G (btt_order b)) (runner_result btt_T btt_G (btt_order b)) h s;
  Ok (map (fun c => TLWELvl1_decrypt 130 c btt_key) outs).
Definition plain_answers (b : BTT) (h : list (option bool)) : res (list bool) :=
  do '(outs, _) <- play plain_eval_one (fun p => Ok (plain_result p, p)) h (plain_new b); Ok outs.
Lemma btt_order_valid : forall b ev j w v, nth_error (bt_spec b) j = Some (w, v) -> valid_order w (btt_order b ev j).
Proof. intros b ev j w v H. unfold btt_order. rewrite H. apply chain_valid. Qed.
Lemma btt_setting : tfhe_ok btt_T [1]%Z btt_key (fun c b => c = b) (toy_noise 1000) /\
  gates_ok btt_T btt_G [1]%Z (fun c b => c = b) (toy_gate_noise 1000) /\ noise_nonneg (toy_noise 1000) /\
  64 < t_n1 btt_T / 2 /\ t_n1 btt_T / 2 + 1 <= t_n1 btt_T.
Proof.
  split; [apply quick_ok; lia|]. split; [apply quick_gates_ok|]. split; [unfold noise_nonneg; cbn; lia|].
  change (t_n1 btt_T) with 130. change (130 / 2) with 65. lia.
Qed.
Example C50_hyps : btt_margin test_btt (toy_noise 1000) (toy_gate_noise 1000) /\ (forall ev, valid_order 10 (btt_order test_btt ev 0)).
Proof. split; [unfold btt_margin, counter_margin; cbn; unfold t_1o8, t_1o4; lia|]. intros ev. apply chain_valid. Qed.
(** 1, then twelve times 0: the answer stays "yes" while the counter counts to 10 *)
Example C50_witness : btt_answers test_btt 1 (test_history (true :: repeat false 13)) = Ok (repeat true 12 ++ [false; false]) /\
  plain_answers test_btt (test_history (true :: repeat false 13)) = Ok (repeat true 12 ++ [false; false]).
Proof. split; vm_compute; reflexivity. Qed.

(** *** Why the hypotheses of C47 are needed: on these testers the two runners differ *)
Definition ed (from to : nat) (input accept : bool) (reset inc : list nat) : Edge := mkEdge from to input accept reset inc None.
Definition both (from to : nat) (accept : bool) (reset inc : list nat) : list Edge :=
  [ed from to false accept reset inc; ed from to true accept reset inc].

(** Only state 1 is possible after the first input: the runner reads the weight of state 0 instead. *)
Definition lonely_btt : BTT := mkBTT (both 0 1 true [] [] ++ both 1 1 true [] []) [].
Theorem C47_lonely_refuted : btt_wf lonely_btt /\ tests_pure lonely_btt /\
  plain_answers lonely_btt [Some true; None; Some true; None] = Ok [true; true] /\
  btt_answers lonely_btt 1 [Some true; None; Some true; None] = Fail FBadOptional.
Proof.
  split; [|split; [|split; vm_compute; reflexivity]].
  - unfold btt_wf. split; [cbn; lia|]. split.
    + intros e He. cbn in He. repeat (destruct He as [<-|He]; [cbn; split; [lia|split; [constructor|intros i; lia]]|]). destruct He.
    + intros w v [].
  - intros w q x e _ H. cbn [lonely_btt bt_spec length] in H. rewrite Nat.mod_1_r in H. lia.
Qed.

(** A counter of one bit with target 1: the third increment makes it look as if 1 were reached again. *)
Definition count_btt (width : nat) : BTT :=
  mkBTT ([ed 0 1 false false [] []; ed 0 2 true false [] []] ++ both 1 0 false [] [0] ++ both 2 0 true [] [0]) [(width, 1%N)].
Lemma count_btt_wf : forall width, 0 < width <= 64 -> btt_wf (count_btt width) /\ tests_pure (count_btt width) /\ lonely_zero (count_btt width).
Proof.
  intros width HW. assert (CL : forall q w q', walk (count_btt width) q w q' -> q < 3 -> q' < 3 /\ (q' =? 0) = xorb (q =? 0) (Nat.odd (length w))).
  { induction 1 as [q|q x e w q' He _ IH]; intros Hq.
    - split; [auto|]. change (Nat.odd (length (@nil bool))) with false. symmetry. apply xorb_false_r.
    - assert (ed_to e < 3 /\ (ed_to e =? 0) = negb (q =? 0)) as [L C].
      { unfold edge_at in He. do 3 (destruct q as [|q]; [destruct x; cbn in He; injection He as <-; cbn; auto|]). lia. }
      destruct (IH L) as [L' C']. split; [exact L'|]. rewrite C', C. cbn [length]. rewrite Nat.odd_succ, <- Nat.negb_odd.
      destruct (q =? 0), (Nat.odd (length w)); reflexivity. }
  split; [|split].
  - unfold btt_wf. split; [cbn; lia|]. split.
    + intros e He. cbn in He. repeat (destruct He as [<-|He]; [cbn; split; [lia|split; [repeat constructor; cbn; tauto|intros i; lia]]|]). destruct He.
    + intros w v [H|[]]. injection H as <- <-. split; [lia|]. change 1%N with (2 ^ 0)%N at 1. apply N.pow_lt_mono_r; lia.
  - intros w q x e HWk H He. destruct (CL _ _ _ HWk ltac:(lia)) as [L C]. cbn [count_btt bt_spec length] in H.
    assert (Nat.odd (length w) = false) as HO by (rewrite <- Nat.bit0_odd, Nat.bit0_eqb; apply Nat.eqb_neq; exact H).
    rewrite HO in C. change (0 =? 0) with true in C. cbn [xorb] in C. apply Nat.eqb_eq in C. subst q.
    unfold edge_at in He. destruct x; cbn in He; injection He as <-; cbn; auto.
  - intros n q H. assert (Wk : exists q', walk (count_btt width) 0 (repeat false (n * 2)) q').
    { clear H. assert (G : forall m q, q < 3 -> exists q', walk (count_btt width) q (repeat false m) q').
      { induction m as [|m IH]; intros r Hr; [exists r; constructor|].
        assert (exists e, edge_at (count_btt width) r false e /\ ed_to e < 3) as (e & He & L).
        { unfold edge_at. do 3 (destruct r as [|r]; [eexists; split; [reflexivity|cbn; lia]|]). lia. }
        destruct (IH (ed_to e) L) as (q' & Hq'). exists q'. cbn [repeat]. econstructor; eauto. }
      apply G. lia. }
    destruct Wk as (q' & Wk). assert (q' = q) as <- by (eapply H; [|exact Wk]; rewrite repeat_length; reflexivity).
    destruct (CL _ _ _ Wk ltac:(lia)) as [_ C]. rewrite repeat_length in C. rewrite Nat.odd_mul in C. cbn [Nat.odd Nat.even negb] in C.
    rewrite andb_false_r in C. change (0 =? 0) with true in C. cbn [xorb] in C. apply Nat.eqb_eq in C. exact C.
Qed.
Definition asks (n : nat) : list (option bool) := flat_map (fun _ => [Some true; None]) (seq 0 n).
Theorem C47_wrap_refuted :
  btt_wf (count_btt 1) /\ tests_pure (count_btt 1) /\ lonely_zero (count_btt 1) /\
  plain_answers (count_btt 1) (asks 4) = Ok [false; true; false; false] /\
  btt_answers (count_btt 1) 1 (asks 4) = Ok [false; true; false; true].
Proof. destruct (count_btt_wf 1) as (A & B & C); [lia|]. do 3 (split; [assumption|]). split; vm_compute; reflexivity. Qed.

(** With a queue of two inputs the counters are tested once for both, and the second input is taken
    for the outcome of a test.  With a queue of one the answers agree. *)
Definition pairs : list (option bool) := [Some true; Some false; None; Some true; Some true; None].
Theorem C47_queue_refuted :
  plain_answers (count_btt 8) pairs = Ok [true; false] /\
  btt_answers (count_btt 8) 1 pairs = Ok [true; false] /\
  btt_answers (count_btt 8) 2 pairs <> Ok [true; false].
Proof. split; [vm_compute; reflexivity|]. split; [vm_compute; reflexivity|]. vm_compute. discriminate. Qed.

(** The plaintext runner ignores the effects of the edges of test states, the encrypted one does not. *)
Definition impure_btt : BTT := mkBTT (both 0 1 false [] [0] ++ both 1 0 false [] []) [(8, 1%N)].
Theorem C47_effects_refuted : btt_wf impure_btt /\
  (do p <- foldM plain_eval_one [true] (plain_new impure_btt); Ok (p_counter p)) = Ok [0%N] /\
  (do s <- runner_new btt_T impure_btt 1; do s <- runner_eval_one btt_T btt_G (btt_order impure_btt) s true;
   do '(_, _, _, left_) <- runner_dump btt_T s btt_key; Ok left_) = Ok [0%N].
Proof.
  split; [|split; vm_compute; reflexivity].
  unfold btt_wf. split; [cbn; lia|]. split.
  - intros e He. cbn in He. repeat (destruct He as [<-|He]; [cbn; split; [lia|split; [repeat constructor; cbn; tauto|intros i; lia]]|]). destruct He.
  - intros w v [H|[]]. injection H as <- <-. split; [lia|reflexivity].
Qed.
(** An edge that increments a counter twice: 2 for the plaintext runner, none for the encrypted one
    (5 are left of 5): two marks make 3/8, which the homomorphic XOR takes for a 0.  What HomANDNY makes
    of 3/8 is not part of its contract; here it takes it for a 1.  Under the stronger contract of
    MachineSpec.v two marks subtract 2, and three add 1 to an even number (C65). *)
Definition twice_btt : BTT := mkBTT (both 0 1 false [] [] ++ both 1 0 false [] [0; 0]) [(8, 5%N)].
Theorem C47_twice_refuted :
  (do p <- foldM plain_eval_one [true] (plain_new twice_btt); Ok (p_counter p)) = Ok [2%N] /\
  (do s <- runner_new btt_T twice_btt 1; do s <- runner_eval_one btt_T btt_G (btt_order twice_btt) s true;
   do '(_, _, _, left_) <- runner_dump btt_T s btt_key; Ok left_) = Ok [5%N].
Proof. split; vm_compute; reflexivity. Qed.

Print Assumptions C47_counter_runner_partial.
Print Assumptions C47_dump_partial.
Print Assumptions C47_lonely_refuted.
Print Assumptions C47_wrap_refuted.
Print Assumptions C47_queue_refuted.
Print Assumptions C47_effects_refuted.
Print Assumptions C47_twice_refuted.
Print Assumptions C48_counter.
Print Assumptions C48_too_wide.
Print Assumptions C48_decrypt_wide_refuted.
Print Assumptions C50_test_passes.
