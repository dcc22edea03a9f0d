(** C65: what BTTRunner (counter.cpp) answers, exactly, on every tester, queue size and history. *)
From Coq Require Import List Arith Bool NArith ZArith Lia Permutation.
From Coq Require Import ZifyBool ZifyNat ZifyN.
Import ListNotations.
From Verif Require Import Base BaseFacts GraphModel TorusModel TfheSpec TorusFacts TfheFacts RunnerModel RunnerSpec
  CounterModel CounterSpec CounterFacts1 CounterFacts2 PropsCounter MachineSpec MachineFacts1 MachineFacts2.
Local Open Scope nat_scope.

(** ** The decrypted answers are those of the machine, and an exception is thrown exactly when the
    machine throws it *)
Theorem C65_answers : forall T G s0 s1 bit E GE ra, tfhe_ok T s0 s1 bit E -> gates_ok T G s0 bit GE -> andny_sign T G s0 GE ra ->
  noise_nonneg E ->
  forall b queue_size order h hb,
  tester b -> 64 < t_n1 T / 2 -> t_n1 T / 2 + length (bt_spec b) <= t_n1 T -> Nat.log2_up (btt_size b) < 31 ->
  machine_margin b queue_size E GE ra ->
  (forall ev j w v, nth_error (bt_spec b) j = Some (w, v) -> valid_order w (order ev j)) ->
  encrypts bit h hb ->
  (do s <- runner_new T b queue_size;
   do '(outs, _) <- play (runner_eval_one T G order) (runner_result T G order) h s;
   Ok (map (fun c => TLWELvl1_decrypt (t_n1 T) c s1) outs)) =
  (do '(answers, _) <- play (machine_feed b queue_size) (machine_ask b) hb (machine_new b); Ok answers).
Proof.
  intros T G s0 s1 bit E GE ra OK GOK AS NN b q order h hb TS HN HK H31 HM HO HE.
  destruct (m_new_ok T s0 s1 bit E GE ra OK NN b TS HN HK H31 q HM order HO) as (s & EN & HI). rewrite EN. cbn [bind].
  pose proof (m_play_ok T G s0 s1 bit E GE ra OK GOK AS NN b TS HN HK H31 q HM order HO h hb HE (machine_new b) s HI) as HP.
  assert (LQ : length (m_queue (machine_new b)) < Nat.max 1 q) by (cbn [machine_new m_queue length]; lia).
  specialize (HP LQ). destruct (play (machine_feed b q) (machine_ask b) hb (machine_new b)) as [[answers m']|f].
  - destruct HP as (outs & s' & EP & ED & _). rewrite EP. cbn [bind]. rewrite ED. reflexivity.
  - rewrite HP. reflexivity.
Qed.

(** ** So is what dump prints: the last answer, the state and what is left of the counters (up to 31
    counters of up to 32 bits, see C47_dump_partial) *)
Theorem C65_dump : forall T G s0 s1 bit E GE ra, tfhe_ok T s0 s1 bit E -> gates_ok T G s0 bit GE -> andny_sign T G s0 GE ra ->
  noise_nonneg E ->
  forall b queue_size order h hb,
  tester b -> 64 < t_n1 T / 2 -> t_n1 T / 2 + length (bt_spec b) <= t_n1 T -> Nat.log2_up (btt_size b) < 31 ->
  machine_margin b queue_size E GE ra ->
  (forall ev j w v, nth_error (bt_spec b) j = Some (w, v) -> valid_order w (order ev j)) ->
  encrypts bit h hb ->
  (forall w v, In (w, v) (bt_spec b) -> w <= 32) -> length (bt_spec b) <= 31 ->
  (do s <- runner_new T b queue_size;
   do '(_, s) <- play (runner_eval_one T G order) (runner_result T G order) h s;
   do '(accept, state, _, left_) <- runner_dump T s s1;
   Ok (accept, state, left_)) =
  (do '(_, m) <- play (machine_feed b queue_size) (machine_ask b) hb (machine_new b);
   Ok (m_accept m, m_state m, map Z.to_N (m_left m))).
Proof.
  intros T G s0 s1 bit E GE ra OK GOK AS NN b q order h hb TS HN HK H31 HM HO HE H32 K31.
  destruct (m_new_ok T s0 s1 bit E GE ra OK NN b TS HN HK H31 q HM order HO) as (s & EN & HI). rewrite EN. cbn [bind].
  pose proof (m_play_ok T G s0 s1 bit E GE ra OK GOK AS NN b TS HN HK H31 q HM order HO h hb HE (machine_new b) s HI) as HP.
  assert (LQ : length (m_queue (machine_new b)) < Nat.max 1 q) by (cbn [machine_new m_queue length]; lia).
  specialize (HP LQ). destruct (play (machine_feed b q) (machine_ask b) hb (machine_new b)) as [[answers m']|f].
  - destruct HP as (outs & s' & EP & _ & HI'). rewrite EP. cbn [bind].
    destruct (m_dump_ok T s0 s1 bit E GE ra OK NN b TS HN HK H31 q HM order HO m' s' HI' H32 K31) as (info & ED). rewrite ED. reflexivity.
  - rewrite HP. reflexivity.
Qed.

(** ** What any number of marks subtracts from a counter *)
Theorem C65_marks : forall T G s0 s1 bit E GE ra e, tfhe_ok T s0 s1 bit E -> gates_ok T G s0 bit GE -> andny_sign T G s0 GE ra ->
  noise_nonneg E -> (0 <= ra)%Z -> counter_margin E GE e -> (2 * (e_br E + e_iks E + g_out GE + e) + ra < t_1o8)%Z ->
  forall w v marks borrow, w <= 32 ->
  near e (tlwe_phase (t_n0 T) s0 borrow) (- t_1o8 + Z.of_nat marks * t_1o4)%Z ->
  (do c <- counter_new T w v; do c <- counter_minus_one T G c borrow; counter_decrypt T c s1) =
  Ok (Z.to_N ((Z.of_N v - borrowed marks (Z.of_N v)) mod 2 ^ Z.of_nat w)).
Proof.
  intros T G s0 s1 bit E GE ra e OK GOK AS NN HRA (M1 & M2 & M3 & M4 & M5 & M6) M7 w v marks borrow HW HB.
  pose proof NN as (A1 & A2 & A3 & A4 & A5 & A6). cbv zeta in *.
  assert (HN : exists c, counter_new T w v = Ok c /\ ctr_holds T s1 0 w v (Z.of_N v) c).
  { unfold counter_new. apply (reset_ok T s0 s1 bit E OK (mkCounter [] w v)). cbn [c_width]. lia. }
  destruct HN as (c & EC & HC). rewrite EC. cbn [bind].
  destruct (minus_marks_ok T G s0 s1 bit E GE ra OK GOK AS HRA NN c 0 e w v (Z.of_N v) borrow marks (e_br E + e_iks E + g_out GE + e) HC HB)
    as (c' & EC' & HC'); try lia.
  rewrite EC'. cbn [bind]. apply (decrypt_ok T s0 s1 bit E OK _ _ _ _ _ HC'); lia.
Qed.

(** ** Non-vacuity *)
Definition sign_gates (n0 n1 : nat) (s0 s1 : list Z) (e : Z) : gates (quick n0 n1 s0 s1 e) :=
  let G := toy_sign_gates n0 n1 s0 s1 e in
  mkGates (quick n0 n1 s0 s1 e) (hom_or _ G) (hom_andny _ G) (hom_not _ G) (cb01 _ G).
Lemma sign_gates_sign : forall n0 n1 s0 s1 e, andny_sign (quick n0 n1 s0 s1 e) (sign_gates n0 n1 s0 s1 e) s0 (toy_sign_noise e) 0.
Proof.
  intros n0 n1 s0 s1 e a b. cbv zeta. unfold sign_gates, toy_sign_gates, toy_sign_noise. cbn [hom_andny t_n0 quick g_out].
  set (x := (_ - _ - t_1o8)%Z).
  assert (P : forall y, (x mod two32 <? t_1o2)%Z = y ->
     near (Z.abs e) (tlwe_phase n0 s0 (triv_tlwe n0 (msg_1o8 (x mod two32 <? t_1o2)%Z + e))) (msg_1o8 y)).
  { intros y ->. rewrite triv_tlwe_phase. exists e. split; [lia|reflexivity]. }
  split; intros H; unfold positive, negative in H; apply P.
  - apply Z.ltb_lt. lia.
  - apply Z.ltb_ge. lia.
Qed.
Lemma sign_gates_ok : forall n0 n1 s0 s1 e,
  gates_ok (quick n0 n1 s0 s1 e) (sign_gates n0 n1 s0 s1 e) s0 (fun c b => c = b) (toy_sign_noise e).
Proof.
  intros n0 n1 s0 s1 e. destruct (quick_gates_ok n0 n1 s0 s1 e) as [O1 _ O3 O4 O5].
  assert (TOL : (g_tol (toy_sign_noise e) <= g_tol (toy_gate_noise e))%Z) by (cbn; unfold t_1o8; lia).
  split; try assumption.
  - intros a b x y Ha Hb. apply (O1 a b x y); eapply near_le; eauto.
  - intros a b x y Ha Hb. destruct (sign_gates_sign n0 n1 s0 s1 e a b) as [SP SN].
    assert (HU : near (2 * (2 ^ 28 - 1)) (tlwe_phase n0 s0 b - tlwe_phase n0 s0 a - t_1o8) (msg_1o8 y - msg_1o8 x - t_1o8)).
    { cbn [toy_sign_noise g_tol quick t_n0] in Ha, Hb. destruct Ha as [d [Hd Ha]], Hb as [d' [Hd' Hb]]. exists (d' - d)%Z.
      split; [lia|]. rewrite Ha, Hb. apply eqm_refl'. lia. }
    destruct x, y; cbn [negb andb]; (apply SP || apply SN).
    + apply (near_negative _ _ _ _ HU); unfold msg_1o8, t_1o8, t_1o2; lia.
    + apply (near_negative _ _ _ _ HU); unfold msg_1o8, t_1o8, t_1o2; lia.
    + apply (near_positive _ _ _ _ HU); unfold msg_1o8, t_1o8, t_1o2; lia.
    + apply (near_negative _ _ _ _ HU); unfold msg_1o8, t_1o8, t_1o2; lia.
Qed.
Definition btt_S : gates btt_T := sign_gates 1 130 [1]%Z btt_key 1000.

(** Three marks, and a target that does not fit into its counter. *)
Definition thrice_btt : BTT := mkBTT (both 0 1 false [] [] ++ both 1 0 true [] [0; 0; 0]) [(3, 12%N)].
Lemma testers : tester lonely_btt /\ tester (count_btt 1) /\ tester (count_btt 8) /\ tester impure_btt /\ tester twice_btt /\ tester thrice_btt.
Proof.
  assert (P : forall b, forallb (fun e => (ed_to e <? btt_size b) && forallb (fun i => i <? length (bt_spec b)) (ed_reset e ++ ed_inc e)) (bt_delta b)
      && (0 <? btt_size b) && forallb (fun s => fst s <=? 64) (bt_spec b) = true -> tester b).
  { intros b H. apply andb_true_iff in H as [H H3]. apply andb_true_iff in H as [H1 H2]. rewrite forallb_forall in H1, H3.
    split; [apply Nat.ltb_lt, H2|]. split.
    - intros e He. specialize (H1 e He). apply andb_true_iff in H1 as [E1 E2]. rewrite forallb_forall in E2.
      split; [apply Nat.ltb_lt, E1|]. intros i Hi. apply Nat.ltb_lt, E2, in_or_app, Hi.
    - intros w v Hw. apply Nat.leb_le, (H3 (w, v) Hw). }
  do 5 (split; [apply P; reflexivity|]). apply P. reflexivity.
Qed.
Example C65_setting : tfhe_ok btt_T [1]%Z btt_key (fun c b => c = b) (toy_noise 1000) /\
  gates_ok btt_T btt_S [1]%Z (fun c b => c = b) (toy_sign_noise 1000) /\ andny_sign btt_T btt_S [1]%Z (toy_sign_noise 1000) 0 /\
  noise_nonneg (toy_noise 1000) /\ 64 < t_n1 btt_T / 2 /\ t_n1 btt_T / 2 + 1 <= t_n1 btt_T /\
  machine_margin twice_btt 1 (toy_noise 1000) (toy_sign_noise 1000) 0 /\ machine_margin (count_btt 8) 2 (toy_noise 1000) (toy_sign_noise 1000) 0 /\
  machine_margin lonely_btt 3 (toy_noise 1000) (toy_sign_noise 1000) 0 /\
  machine_margin thrice_btt 1 (toy_noise 1000) (toy_sign_noise 1000) 0.
Proof.
  destruct btt_setting as (S1 & _ & S3 & S4 & S5). split; [exact S1|]. split; [apply sign_gates_ok|]. split; [apply sign_gates_sign|].
  split; [exact S3|]. split; [exact S4|]. split; [exact S5|].
  unfold machine_margin, counter_margin, machine_noise. cbn. unfold t_1o8, t_1o4. repeat split; lia.
Qed.
(** Three bits, started at 5 and at 4, with 0 to 5 marks *)
Example C65_marks_witness :
  (map (fun m => do c <- counter_new btt_T 3 5; do c <- counter_minus_one btt_T btt_S c (triv_tlwe 1 (- t_1o8 + Z.of_nat m * t_1o4 + 7)%Z); counter_decrypt btt_T c btt_key) (seq 0 6)
    = map (fun n => Ok n) [5; 4; 3; 2; 5; 4]%N) /\
  (map (fun m => do c <- counter_new btt_T 3 4; do c <- counter_minus_one btt_T btt_S c (triv_tlwe 1 (- t_1o8 + Z.of_nat m * t_1o4 + 7)%Z); counter_decrypt btt_T c btt_key) (seq 0 6)
    = map (fun n => Ok n) [4; 3; 2; 5; 4; 3]%N).
Proof. split; vm_compute; reflexivity. Qed.
(** The encrypted runner and the machine, run *)
Definition both_ways (b : BTT) (queue_size : nat) (h : list (option bool)) :=
  ((do s <- runner_new btt_T b queue_size;
    do '(outs, s) <- play (runner_eval_one btt_T btt_S (btt_order b)) (runner_result btt_T btt_S (btt_order b)) h s;
    do '(accept, state, _, left_) <- runner_dump btt_T s btt_key;
    Ok (map (fun c => TLWELvl1_decrypt 130 c btt_key) outs, accept, state, left_)),
   (do '(answers, m) <- play (machine_feed b queue_size) (machine_ask b) h (machine_new b);
    Ok (answers, m_accept m, m_state m, map Z.to_N (m_left m)))).
Example C65_lonely : both_ways lonely_btt 1 [Some true; None; Some true; None] = (Fail FBadOptional, Fail FBadOptional).
Proof. vm_compute. reflexivity. Qed.
(** With a queue of three inputs the round starts in state 0 at position 0 *)
Example C65_lonely_3 : both_ways lonely_btt 3 [Some true; Some false; Some true; None] = (Ok ([false], false, 1, []), Ok ([false], false, 1, [])).
Proof. vm_compute. reflexivity. Qed.
Example C65_wrap : both_ways (count_btt 1) 1 (asks 4) = (Ok ([false; true; false; true], true, 0, [1%N]), Ok ([false; true; false; true], true, 0, [1%N])).
Proof. vm_compute. reflexivity. Qed.
Example C65_queue : both_ways (count_btt 8) 2 pairs = (Ok ([false; true], true, 0, [254%N]), Ok ([false; true], true, 0, [254%N])).
Proof. vm_compute. reflexivity. Qed.
Example C65_twice : both_ways twice_btt 1 [Some true] = (Ok ([], false, 0, [3%N]), Ok ([], false, 0, [3%N])).
Proof. vm_compute. reflexivity. Qed.
Example C65_thrice : both_ways thrice_btt 1 [Some true; None] = (Ok ([true], true, 0, [5%N]), Ok ([true], true, 0, [5%N])).
Proof. vm_compute. reflexivity. Qed.

Print Assumptions C65_answers.
Print Assumptions C65_dump.
Print Assumptions C65_marks.
