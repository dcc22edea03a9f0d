(** Theorems about the program counter (src/counter.cpp): C60 (its self-test), C61 (its key files). *)
From Coq Require Import String.
From Coq Require Import List Arith Bool NArith ZArith Ascii Permutation Lia.
From Coq Require Import ZifyBool ZifyNat ZifyN.
Import ListNotations.
From Verif Require Import Base BaseFacts GraphModel TextModel DotModel TorusModel TfheSpec RunnerModel RunnerSpec CmdModel CmdFacts CrashModel
  CounterModel CounterSpec PropsCounter CtestModel CtestSpec CtestFacts.
Local Open Scope list_scope.
Local Open Scope nat_scope.

Section Test.
Context (T : tfhe) (G : gates T) (key : list Z)
        (order : nat -> nat -> nat -> red) (draw : nat -> nat -> bool) (enc : nat -> nat -> bool -> trgsw T).
Notation agrees := (agree T G key order draw enc).

Lemma enc_run_more t n k outs s : enc_run T G order draw enc t (n + k) = Ok (outs, s) ->
  exists outs1 s1 outs2, enc_run T G order draw enc t n = Ok (outs1, s1) /\ outs = outs1 ++ outs2.
Proof.
  unfold enc_run, sent. rewrite seq_app, map_app. unfold test_history. rewrite flat_map_app. intros H.
  apply bind_ok in H as (s0 & E0 & H). rewrite play_app in H. apply bind_ok in H as ([a s1] & E1 & H).
  apply bind_ok in H as ([b s2] & _ & H). injection H as <- <-. rewrite E0. cbn [bind]. eauto.
Qed.
Lemma plain_run_more t n k answers p : plain_run draw t (n + k) = Ok (answers, p) ->
  exists a1 p1 a2, plain_run draw t n = Ok (a1, p1) /\ answers = a1 ++ a2.
Proof.
  unfold plain_run, drawn. rewrite seq_app, map_app. unfold test_history. rewrite flat_map_app, play_app. intros H.
  apply bind_ok in H as ([a s1] & E1 & H). apply bind_ok in H as ([b s2] & _ & H). injection H as <- <-. eauto.
Qed.
Lemma enc_run_length t n outs s : enc_run T G order draw enc t n = Ok (outs, s) -> length outs = n.
Proof.
  revert outs s. induction n as [|n IH]; intros outs s H.
  - unfold enc_run in H. apply bind_ok in H as (s0 & _ & H). injection H as <- _. reflexivity.
  - unfold enc_run in H, IH. rewrite sent_snoc, history_snoc in H. apply bind_ok in H as (s0 & E0 & H).
    rewrite E0 in IH. cbn [bind] in IH. rewrite play_app in H. apply bind_ok in H as ([a s1] & E1 & H).
    apply IH in E1. apply bind_ok in H as ([b s2] & E2 & H). injection H as <- <-. rewrite app_length, E1.
    cbn [play] in E2. apply bind_ok in E2 as (s3 & _ & E2). apply bind_ok in E2 as ([c s4] & _ & E2). injection E2 as <- _. cbn. lia.
Qed.
Lemma agree_less t n k : agrees t (n + k) -> agrees t n.
Proof.
  intros (outs & s & answers & p & A & B & C). pose proof (enc_run_length _ _ _ _ A) as LA.
  apply enc_run_more in A as (o1 & s1 & o2 & A & ->). apply plain_run_more in B as (a1 & p1 & a2 & B & ->).
  exists o1, s1, a1, p1. split; auto. split; auto. unfold decrypted in *. rewrite map_app in C.
  assert (L : length a1 = length o1).
  { apply enc_run_length in A. rewrite A. clear - B. revert a1 p1 B. induction n as [|n IH]; intros a1 p1 B.
    - injection B as <- _. reflexivity.
    - unfold plain_run in B, IH. rewrite drawn_snoc, history_snoc, play_app in B. apply bind_ok in B as ([a q] & E1 & B).
      apply IH in E1. apply bind_ok in B as ([b q2] & E2 & B). injection B as <- <-. rewrite app_length, E1.
      cbn [play] in E2. apply bind_ok in E2 as (q3 & _ & E2). injection E2 as <- _. cbn. lia. }
  revert C. generalize (map (fun c => TLWELvl1_decrypt (t_n1 T) c key) o2). intros l C.
  assert (L' : length (map (fun c => TLWELvl1_decrypt (t_n1 T) c key) o1) = length a1) by (rewrite map_length; auto).
  clear - C L'. revert a1 C L'. induction (map (fun c => TLWELvl1_decrypt (t_n1 T) c key) o1) as [|x xs IH]; intros [|y ys] C L'; try discriminate; auto.
  injection C as -> C. f_equal. apply IH; auto.
Qed.
Lemma agree_differ t n r e s p : differ T G key order draw enc t n r e s p -> ~ agrees t (S n).
Proof.
  intros (outs & c & answers & A & B & C & D & N) (outs' & s' & answers' & p' & A' & B' & C').
  rewrite A in A'. rewrite B in B'. injection A' as <- _. injection B' as <- _.
  unfold decrypted in C'. rewrite map_app in C'. apply app_inj_tail in C' as [_ C']. congruence.
Qed.

(** ** C60: what the self-test prints.  Whatever the interleaving of the five tests: after their
    numbers come the reports, each of them describes the first difference that this test met in its
    first 10000 inputs, and there is none exactly if all five tests agree for 10000 inputs. *)
Theorem C60_verdict err : test_ends T G key order draw enc (Ok err) ->
  exists numbers reports, Permutation numbers (lit "0 1 2 3 4 ") /\ length reports = 5 /\ err = numbers ++ all_reports reports /\
    (forall t m, nth_error reports t = Some (Some m) -> truthful T G key order draw enc t m) /\
    ((forall t m, nth_error reports t = Some m -> m = None) <-> forall t, t < 5 -> agrees t (N.to_nat 10000)).
Proof.
  intros H. inversion H as [w HM HR HE|]; subst. pose proof (moves_wf T G key order draw enc w HM) as [L1 L2 HP HA HC].
  set (ab := wd_abort T w) in *.
  assert (HQ : ab = false -> forall t m, nth_error (wd_messages T w) t = Some m -> m = [] /\ agrees t num_rounds).
  { intros E t m Hm. assert (Lt : t < 5) by (rewrite <- L2; eapply nth_error_lt; eauto).
    destruct (nth_error (wd_tasks T w) t) as [k|] eqn:Hk; [|apply nth_error_None in Hk; lia].
    pose proof (HP t k m Hk Hm) as P. rewrite (HR t k Hk) in P. cbn [place] in P. rewrite E in P.
    destruct P as [(_ & _ & P)|(P1 & [P2|P2])]; try discriminate P; try discriminate P2; auto. }
  exists (wd_cerr T w), (map shown (wd_messages T w)). split.
  { rewrite HC. assert (X : forall k ks, (forall t kk, nth_error ks t = Some kk -> kk = Returned T) ->
      all_printed T k ks = concat (map (fun i => show_nat i ++ lit " ") (seq k (length ks)))).
    { intros k ks. revert k. induction ks as [|kk ks IH]; intros k Hk; cbn [all_printed length seq map concat]; auto.
      rewrite (Hk 0 kk eq_refl) at 1. cbn [printed]. rewrite IH; auto. intros t k2 H2. apply (Hk (S t) k2 H2). }
    rewrite X, L1; [apply Permutation_refl|]. exact HR. }
  split; [rewrite map_length; exact L2|]. split.
  { destruct ab eqn:E.
    - f_equal. unfold all_reports. apply report_shown.
    - rewrite app_nil_r. unfold all_reports. rewrite <- report_shown.
      assert (X : forall ms, (forall t m, nth_error ms t = Some m -> m = []) -> forall k, report_text k ms = []).
      { induction ms as [|m ms IH]; intros Hms k; cbn [report_text]; auto. rewrite (Hms 0 m eq_refl). apply IH.
        intros t m' Hm'. apply (Hms (S t) m' Hm'). }
      rewrite X; [symmetry; apply app_nil_r|]. intros t m Hm. apply (HQ eq_refl t m Hm). }
  assert (HG : forall t m, nth_error (map shown (wd_messages T w)) t = Some (Some m) -> truthful T G key order draw enc t m).
  { intros t m Hm. rewrite nth_error_map in Hm. destruct (nth_error (wd_messages T w) t) as [m0|] eqn:Hm0; [|discriminate].
    cbn in Hm. injection Hm as Hm. assert (m0 <> [] /\ m = m0) as [Nm ->] by (destruct m0; cbn in Hm; [discriminate|split; congruence]).
    assert (Lt : t < 5) by (rewrite <- L2; eapply nth_error_lt; eauto).
    destruct (nth_error (wd_tasks T w) t) as [k|] eqn:Hk; [|apply nth_error_None in Hk; lia].
    pose proof (HP t k m0 Hk Hm0) as P. rewrite (HR t k Hk) in P. cbn [place] in P. tauto. }
  split; [exact HG|]. split.
  - intros HN t Lt. destruct (nth_error (wd_messages T w) t) as [m|] eqn:Hm; [|apply nth_error_None in Hm; lia].
    destruct ab eqn:E; [|apply (HQ eq_refl t m Hm)].
    destruct (HA eq_refl) as (t' & m' & Hm' & Nm'). exfalso. apply Nm'.
    specialize (HN t' (shown m')). rewrite nth_error_map, Hm' in HN. specialize (HN eq_refl). destruct m'; [reflexivity|discriminate].
  - intros HN t [m|] Hm; auto. exfalso. destruct (HG t m Hm) as (n & r & e & s & p & v & Ln & D & _).
    apply (agree_differ _ _ _ _ _ _ D). apply (agree_less t (S n) (N.to_nat 10000 - S n)).
    replace (S n + (N.to_nat 10000 - S n)) with (N.to_nat 10000) by lia. apply HN.
    rewrite <- L2. rewrite <- (map_length shown). eapply nth_error_lt; eauto.
Qed.

(** If the runners agree, no step fails, and nothing but the numbers is printed. *)
Theorem C60_agreeing r : (forall t, t < 5 -> agrees t (N.to_nat 10000)) -> test_ends T G key order draw enc r ->
  exists err, r = Ok err /\ Permutation err (lit "0 1 2 3 4 ").
Proof.
  intros HA H. destruct r as [err|f].
  - exists err. split; auto. destruct (C60_verdict err H) as (nums & reps & P & L & -> & _ & I).
    pose proof (proj2 I HA) as HN. clear HA. rename HN into HA. assert (all_reports reps = []) as ->; [|rewrite app_nil_r; exact P].
    unfold all_reports. generalize (seq 0 (length reps)). clear - HA. revert HA. induction reps as [|m reps IH]; intros HA l.
    + destruct l; reflexivity.
    + destruct l as [|i l]; [reflexivity|]. cbn [combine map concat]. rewrite (HA 0 m eq_refl). apply IH. intros t m' Hm. apply (HA (S t) m' Hm).
  - exfalso. inversion H as [|w t f' HM HF]; subst. pose proof (moves_wf T G key order draw enc w HM) as [L1 L2 HP _ _].
    unfold step_of in HF. destruct (nth_error (wd_tasks T w) t) as [k|] eqn:Hk; [|discriminate].
    assert (Lt : t < 5) by (rewrite <- L1; eapply nth_error_lt; eauto).
    destruct (nth_error (wd_messages T w) t) as [m|] eqn:Hm; [|apply nth_error_None in Hm; lia].
    pose proof (HP t k m Hk Hm) as P. pose proof (HA t Lt) as AG.
    assert (X : exists y, advance T G key order draw enc t k (wd_abort T w) = Ok y).
    { destruct k as [| |i s p h|i s p h| |]; cbn [advance place] in *; eauto.
      - destruct AG as (outs & s & answers & p & A & _). unfold enc_run in A. apply bind_ok in A as (s0 & E & _).
        rewrite E. cbn [bind]. eauto.
      - destruct (i =? num_rounds); eauto. destruct (wd_abort T w); eauto.
      - destruct P as (_ & Hi & _ & outs & answers & A & B & _). unfold num_rounds in Hi.
        assert (AG' : agrees t (S i)) by (apply (agree_less t (S i) (N.to_nat 10000 - S i)); replace (S i + _) with (N.to_nat 10000) by lia; auto).
        destruct AG' as (outs' & s' & answers' & p' & A' & B' & C').
        destruct (runs_round T G key order draw enc t i s p outs answers outs' answers' s' p' A B A' B' C') as (r & E).
        rewrite E. cbn [bind]. rewrite eqb_reflx. eauto. }
    destruct X as ([[[k' a] e] m'] & X). destruct k; try discriminate; rewrite X in HF; discriminate.
Qed.

(** It always ends: no execution has more than 100020 steps, and until all tests have returned
    another step is possible (or an exception ends the program). *)
Theorem C60_stops (ws : nat -> world T) n : ws 0 = test_start T -> (forall i, i < n -> tmove T G key order draw enc (ws i) (ws (S i))) ->
  (N.of_nat n <= 100020)%N.
Proof.
  intros H0 HS.
  assert (X : forall i, i <= n -> tmoves T G key order draw enc (test_start T) (ws i) /\ sum_left T (wd_tasks T (ws i)) + i <= sum_left T (wd_tasks T (test_start T))).
  { induction i as [|i IH]; intros Hi; [rewrite H0; split; [constructor|lia]|].
    destruct IH as [M L]; [lia|]. destruct (HS i) as (t & Ht); [lia|].
    split; [eapply tm_step; [exact M|exists t; exact Ht]|].
    pose proof (step_decreases T G key order draw enc (ws i) t (ws (S i)) (moves_wf T G key order draw enc _ M) Ht). lia. }
  destruct (X n (le_n n)) as [_ L]. cbn [test_start wd_tasks num_tests repeat sum_left left_to_do] in L. unfold num_rounds in L. lia.
Qed.
Theorem C60_progress w : tmoves T G key order draw enc (test_start T) w -> ~ returned T w ->
  exists t, (exists w', step_of T G key order draw enc w t = Ok (Some w')) \/ exists f, step_of T G key order draw enc w t = Fail f.
Proof.
  intros HM HN. assert (X : forall ks, (forall t k, nth_error ks t = Some k -> k = Returned T) \/ exists t k, nth_error ks t = Some k /\ k <> Returned T).
  { induction ks as [|k ks IH]; [left; intros [|t] k; discriminate|].
    assert (D : k = Returned T \/ k <> Returned T) by (destruct k; auto; right; discriminate).
    destruct D as [->|D]; [|right; exists 0, k; auto].
    destruct IH as [IH|(t & k & E & N)]; [left; intros [|t] k E; [injection E as <-; auto|eapply IH; eauto]|right; exists (S t), k; auto]. }
  destruct (X (wd_tasks T w)) as [Y|(t & k & E & N)]; [exfalso; apply HN; exact Y|].
  exists t. unfold step_of. rewrite E.
  destruct k; try congruence; (destruct advance as [[[[k' a] e] m]|f]; cbn [bind]; [left|right]; eauto).
Qed.
(** Once a difference has been recorded, no test begins another input. *)
Theorem C60_prompt w w' : wd_abort T w = true -> tmoves T G key order draw enc w w' ->
  wd_abort T w' = true /\
  forall t i s p h, nth_error (wd_tasks T w') t = Some (Working T i s p h) -> nth_error (wd_tasks T w) t = Some (Working T i s p h).
Proof.
  intros HF H. induction H as [w|w w1 w2 H IH [t M]]; [auto|]. destruct (IH HF) as [IF IW].
  destruct (step_flag T G key order draw enc w1 t w2 M IF) as [A B]. split; auto.
Qed.
End Test.

(** With a cryptosystem that works, nothing is ever reported: for all bits drawn, all ciphertexts
    of them, all orders of the reductions and all interleavings. *)
Theorem C60_quiet T G s0 s1 bit E GE : tfhe_ok T s0 s1 bit E -> gates_ok T G s0 bit GE -> noise_nonneg E ->
  64 < t_n1 T / 2 -> t_n1 T / 2 + 1 <= t_n1 T -> btt_margin test_btt E GE ->
  forall order draw enc, (forall t ev, valid_order 10 (order t ev 0)) -> (forall t i b, bit (enc t i b) b) ->
  forall r, test_ends T G s1 order draw enc r -> exists err, r = Ok err /\ Permutation err (lit "0 1 2 3 4 ").
Proof.
  intros OK GOK NN HN HK HM order draw enc HO HE r H. apply (C60_agreeing T G s1 order draw enc r); auto.
  intros t Lt. destruct (C50_test_passes T G s0 s1 bit E GE OK GOK NN HN HK HM (order t) (HO t) (drawn draw t (N.to_nat 10000)) (sent T draw enc t (N.to_nat 10000)))
    as (outs & s' & answers & p' & A & B & C).
  - unfold drawn, sent. generalize (seq 0 (N.to_nat 10000)). induction l; cbn [map]; constructor; auto.
  - exists outs, s', answers, p'. auto.
Qed.

(** ** The exit status: "a run of the program that finds a difference fails" is false.  A run with
    ciphertexts of the wrong bits reports a difference and ends with status 0. *)
Section Follow.
Context (T : tfhe) (G : gates T) (key : list Z)
        (order : nat -> nat -> nat -> red) (draw : nat -> nat -> bool) (enc : nat -> nat -> bool -> trgsw T).
Fixpoint follow (ts : list nat) (w : world T) : option (world T) :=
  match ts with
  | [] => Some w
  | t :: ts => match step_of T G key order draw enc w t with Ok (Some w') => follow ts w' | _ => None end
  end.
Lemma follow_moves ts : forall w w', follow ts w = Some w' -> tmoves T G key order draw enc w w'.
Proof.
  assert (X : forall w0 w1, tmoves T G key order draw enc w0 w1 -> forall ts w', follow ts w1 = Some w' -> tmoves T G key order draw enc w0 w').
  { intros w0 w1 H ts0. revert w1 H. induction ts0 as [|t ts0 IH]; intros w1 H w' E; cbn [follow] in E; [injection E as <-; auto|].
    destruct (step_of T G key order draw enc w1 t) as [[w2|]|] eqn:S; try discriminate. eapply IH; [|exact E].
    eapply tm_step; [exact H|exists t; exact S]. }
  intros w w' H. eapply X; [constructor|exact H].
Qed.
(** What is seen of a world at the end *)
Definition seen (w : world T) : bool * bool * text * list text :=
  (forallb (fun k => match k with Returned _ => true | _ => false end) (wd_tasks T w), wd_abort T w, wd_cerr T w, wd_messages T w).
Lemma follow_ends ts cerr m : m <> [] -> option_map seen (follow ts (test_start T)) = Some (true, true, cerr, [m; []; []; []; []]) ->
  main_ends T G key order draw enc (Ok (0, cerr ++ report_text 0 [m; []; []; []; []])) /\ truthful T G key order draw enc 0 m.
Proof.
  intros NM H. destruct (follow ts (test_start T)) as [w|] eqn:E; [|discriminate]. cbn [option_map] in H. unfold seen in H.
  injection H as BR BA BC BM. pose proof (follow_moves _ _ _ E) as M.
  assert (R : returned T w).
  { intros t k Hk. rewrite forallb_forall in BR. apply nth_error_In in Hk. specialize (BR k Hk). destruct k; congruence. }
  pose proof (te_done _ _ _ _ _ _ w M R) as TE. rewrite BA, BC, BM in TE. split; [constructor; exact TE|].
  pose proof (moves_wf _ _ _ _ _ _ w M) as [L1 L2 HP _ _].
  destruct (nth_error (wd_tasks T w) 0) as [k|] eqn:Hk; [|apply nth_error_None in Hk; lia].
  pose proof (HP 0 k m Hk ltac:(rewrite BM; reflexivity)) as P. rewrite (R 0 k Hk) in P. cbn [place] in P. tauto.
Qed.
End Follow.
Definition bad_schedule : list nat := [0; 1; 2; 3; 4; 0; 1; 2; 3; 4; 0; 1; 0; 0; 1; 1; 2; 3; 4].
Definition bad_draw (t i : nat) : bool := t =? 0.
Definition bad_enc (t i : nat) (b : bool) : trgsw btt_T := if t =? 0 then negb b else b.
Definition bad_report : text :=
  report [true] false true (false, 3, 0%N, [10%N]) (mkPlain test_btt 1 true [0%N]).
Lemma bad_run : option_map (seen btt_T) (follow btt_T btt_G btt_key (fun _ => btt_order test_btt) bad_draw bad_enc bad_schedule (test_start btt_T)) =
  Some (true, true, lit "01234     ", [bad_report; []; []; []; []]).
Proof. vm_compute. reflexivity. Qed.
Theorem C60_status_refuted : exists T G key order draw enc err m,
  main_ends T G key order draw enc (Ok (0, err)) /\ truthful T G key order draw enc 0 m /\
  err = lit "01234     TEST 0" ++ ["010"%char] ++ m ++ ["010"%char].
Proof.
  exists btt_T, btt_G, btt_key, (fun _ => btt_order test_btt), bad_draw, bad_enc.
  assert (N : bad_report <> []) by (vm_compute; discriminate).
  destruct (follow_ends btt_T btt_G btt_key (fun _ => btt_order test_btt) bad_draw bad_enc bad_schedule _ _ N bad_run) as [A B].
  eexists. exists bad_report. split; [exact A|]. split; [exact B|]. vm_compute. reflexivity.
Qed.
(** The hypotheses of C60_quiet are met by the instance of C50. *)
Example C60_hyps : tfhe_ok btt_T [1]%Z btt_key (fun c b => c = b) (toy_noise 1000) /\ gates_ok btt_T btt_G [1]%Z (fun c b => c = b) (toy_gate_noise 1000) /\
  64 < t_n1 btt_T / 2 /\ t_n1 btt_T / 2 + 1 <= t_n1 btt_T /\ btt_margin test_btt (toy_noise 1000) (toy_gate_noise 1000).
Proof. destruct btt_setting as (A & B & _ & C & D). destruct C50_hyps as [E _]. auto. Qed.
(** Two tests that have begun *)
Example C60_some : match follow btt_T btt_G btt_key (fun _ => btt_order test_btt) (fun t _ => t =? 0) (fun t _ b => b) [3; 0; 0; 0; 0; 0; 3; 3; 3] (test_start btt_T) with
  | Some w => wd_cerr _ w = lit "30  " /\ match wd_tasks _ w with [Working _ 1 _ _ [true]; _; _; Checking _ 1 _ _ [false]; _] => True | _ => False end
  | None => False end.
Proof. vm_compute. auto. Qed.

(** * C61: the key files *)
Section Keys.
Context {SK BK : Type} (save_sk : SK -> list N) (save_bk : BK -> list N)
        (read_sk : list N -> option SK) (read_bk : list N -> option BK)
        (pair : SK -> BK -> Prop).
(** What is saved is read again; a beginning of an archive is refused (cereal throws). *)
Context (RS : forall k, read_sk (save_sk k) = Some k) (RB : forall k, read_bk (save_bk k) = Some k)
        (PS : forall k n, n < length (save_sk k) -> read_sk (firstn n (save_sk k)) = None)
        (PB : forall k n, n < length (save_bk k) -> read_bk (firstn n (save_bk k)) = None).
Notation keys := (main_keys save_sk save_bk read_sk read_bk).
Notation left_ := (keys_left save_sk save_bk).

(** Any number of runs, each with keys of its own in reserve, each killed at any moment or not *)
Inductive runs : fs -> fs -> Prop :=
| runs_none f : runs f f
| runs_more f f1 f2 sk bk : runs f f1 -> pair sk bk -> left_ f1 sk bk f2 -> runs f f2.

Lemma names_differ : skey_filename <> bkey_filename.
Proof. discriminate. Qed.

(** A run that is not killed also is one of these. *)
Theorem C61_complete f sk bk sk' bk' f' : keys f sk bk = Ok (sk', bk', f') -> left_ f sk bk f'.
Proof.
  unfold main_keys, keys_left. destruct (f skey_filename) as [a|] eqn:Ea; [destruct (f bkey_filename) as [b|] eqn:Eb|]; intros H.
  - apply bind_ok in H as (k1 & _ & H). apply bind_ok in H as (k2 & _ & H). injection H as _ _ <-. left. intros p. reflexivity.
  - injection H as _ _ <-. right. split; [auto|]. right. exists (length (save_bk bk)). intros q. rewrite firstn_all. reflexivity.
  - injection H as _ _ <-. right. split; [auto|]. right. exists (length (save_bk bk)). intros q. rewrite firstn_all. reflexivity.
Qed.

(** After a run that got its keys, every later run gets the same keys and changes no file. *)
Theorem C61_rerun f sk bk sk1 bk1 f1 : keys f sk bk = Ok (sk1, bk1, f1) ->
  (forall p, p <> lit "_skey" -> p <> lit "_bkey" -> f1 p = f p) /\
  forall sk2 bk2, keys f1 sk2 bk2 = Ok (sk1, bk1, f1) /\ forall f2, left_ f1 sk2 bk2 f2 -> same_files f1 f2.
Proof.
  intros H.
  assert (X : exists a b, f1 skey_filename = Some a /\ f1 bkey_filename = Some b /\ read_sk a = Some sk1 /\ read_bk b = Some bk1 /\
                forall p, p <> lit "_skey" -> p <> lit "_bkey" -> f1 p = f p).
  { unfold main_keys in H. destruct (f skey_filename) as [a|] eqn:Ea; [destruct (f bkey_filename) as [b|] eqn:Eb|].
    - apply bind_ok in H as (k1 & E1 & H). apply bind_ok in H as (k2 & E2 & H). injection H as <- <- <-.
      exists a, b. unfold read_archive in *. destruct (read_sk a) as [x|]; [injection E1 as <-|discriminate].
      destruct (read_bk b) as [y|]; [injection E2 as <-|discriminate]. auto 10.
    - injection H as <- <- <-. exists (save_sk sk), (save_bk bk). rewrite write_same, write_other, write_same by apply names_differ.
      repeat split; auto. intros p N1 N2. rewrite !write_other; auto.
    - injection H as <- <- <-. exists (save_sk sk), (save_bk bk). rewrite write_same, write_other, write_same by apply names_differ.
      repeat split; auto. intros p N1 N2. rewrite !write_other; auto. }
  destruct X as (a & b & E1 & E2 & E3 & E4 & E5). split; [exact E5|]. intros sk2 bk2. split.
  - unfold main_keys, read_archive. rewrite E1, E2, E3, E4. reflexivity.
  - intros f2 [S|([N|N] & _)]; [exact S|congruence|congruence].
Qed.

(** Starting where there is no _bkey: whatever runs were made and whenever they were killed, a run
    uses a secret key and an evaluation key that belong together, or refuses the archives. *)
Theorem C61_pairs f0 f sk bk : f0 (lit "_bkey") = None -> runs f0 f -> pair sk bk ->
  (exists sk1 bk1 f1, keys f sk bk = Ok (sk1, bk1, f1) /\ pair sk1 bk1) \/ keys f sk bk = Fail FExit.
Proof.
  intros H0 HR HP.
  assert (X : f bkey_filename = None \/
              exists sk1 bk1 n, pair sk1 bk1 /\ f skey_filename = Some (save_sk sk1) /\ f bkey_filename = Some (firstn n (save_bk bk1))).
  { clear HP sk bk. induction HR as [f|f f1 f2 sk bk HR IH HP HL]; [left; exact H0|].
    destruct (IH H0) as [N|(sk1 & bk1 & n & Q & A & B)].
    - destruct HL as [S|(_ & [(n & S)|(n & S)])].
      + left. rewrite S. exact N.
      + left. rewrite S, write_other by (apply not_eq_sym, names_differ). exact N.
      + right. exists sk, bk, n. split; auto. split.
        * rewrite S, write_other, write_same by apply names_differ. reflexivity.
        * rewrite S, write_same. reflexivity.
    - destruct HL as [S|([N|N] & _)]; [|congruence|congruence]. right. exists sk1, bk1, n. rewrite !S. auto. }
  destruct X as [N|(sk1 & bk1 & n & Q & A & B)].
  - left. exists sk, bk. eexists. split; [|exact HP]. unfold main_keys. rewrite N. destruct (f skey_filename); reflexivity.
  - unfold main_keys. rewrite A, B. unfold read_archive. rewrite RS. cbn [bind].
    destruct (Nat.ltb_spec n (length (save_bk bk1))) as [L|L].
    + right. rewrite PB by exact L. reflexivity.
    + left. rewrite firstn_all2 by exact L. rewrite RB. cbn [bind]. eauto 10.
Qed.

(** "A killed run can be run again" is false: killed inside the writing of _bkey, it leaves files
    with which every later run ends at once, and which no later run repairs. *)
Theorem C61_again_refuted f0 sk bk : f0 (lit "_bkey") = None -> pair sk bk -> 0 < length (save_bk bk) ->
  exists f, left_ f0 sk bk f /\
    forall f1, runs f f1 -> same_files f f1 /\ forall sk1 bk1, keys f1 sk1 bk1 = Fail FExit.
Proof.
  intros H0 HP HL. exists (write (write f0 skey_filename (save_sk sk)) bkey_filename (firstn 0 (save_bk bk))). split.
  - right. split; [right; exact H0|]. right. exists 0. intros q. reflexivity.
  - intros f1 HR. remember (write (write f0 skey_filename (save_sk sk)) bkey_filename (firstn 0 (save_bk bk))) as f eqn:Ef.
    assert (A : f skey_filename = Some (save_sk sk)) by (subst f; rewrite write_other, write_same by apply names_differ; reflexivity).
    assert (B : f bkey_filename = Some (firstn 0 (save_bk bk))) by (subst f; apply write_same). clear Ef.
    assert (S : same_files f f1).
    { induction HR as [f|f f1 f2 sk1 bk1 HR IH HP1 HL1]; [intros p; reflexivity|]. specialize (IH A B).
      destruct HL1 as [S|([N|N] & _)]; [intros p; rewrite S; apply IH| |]; rewrite IH in N; congruence. }
    split; [exact S|]. intros sk1 bk1. unfold main_keys. rewrite !S, A, B. unfold read_archive. rewrite RS. cbn [bind].
    rewrite PB by exact HL. reflexivity.
Qed.
(** "The keys used belong together" is false if a run begins with only _bkey there: killed after
    the new _skey was written, it leaves a mixture that the next run uses. *)
Theorem C61_mixture_refuted f0 bk0 sk bk : f0 (lit "_skey") = None -> f0 (lit "_bkey") = Some (save_bk bk0) ->
  exists f, left_ f0 sk bk f /\ forall sk1 bk1, keys f sk1 bk1 = Ok (sk, bk0, f).
Proof.
  intros H1 H2. exists (write f0 skey_filename (save_sk sk)). split.
  - right. split; [left; exact H1|]. left. exists (length (save_sk sk)). intros q. rewrite firstn_all. reflexivity.
  - intros sk1 bk1. unfold main_keys. rewrite write_same, write_other by (apply not_eq_sym, names_differ).
    change bkey_filename with (lit "_bkey"). rewrite H2. unfold read_archive. rewrite RS, RB. reflexivity.
Qed.
(** "An existing secret key is kept" is false: without _bkey it is replaced. *)
Theorem C61_kept_refuted f0 sk0 sk bk : f0 (lit "_skey") = Some (save_sk sk0) -> f0 (lit "_bkey") = None ->
  exists f, keys f0 sk bk = Ok (sk, bk, f) /\ f (lit "_skey") = Some (save_sk sk).
Proof.
  intros H1 H2. eexists. unfold main_keys. change skey_filename with (lit "_skey") at 1. change bkey_filename with (lit "_bkey") at 1.
  rewrite H1, H2. split; [reflexivity|]. change (lit "_skey") with skey_filename. rewrite write_other, write_same by apply names_differ. reflexivity.
Qed.
End Keys.

(** The hypotheses are met: keys are numbers, an archive is a one, the number and another one. *)
Definition ex_save (k : N) : list N := [1; k; 1]%N.
Definition ex_read (l : list N) : option N := match l with [_; k; _] => Some k | _ => None end.
Example C61_hyps : (forall k, ex_read (ex_save k) = Some k) /\ (forall k n, n < length (ex_save k) -> ex_read (firstn n (ex_save k)) = None).
Proof. split; auto. intros k [|[|[|n]]] H; try reflexivity. cbn in H. lia. Qed.
(** Two runs: the first is killed while it writes _skey, the second is not killed; a third uses its keys. *)
Example C61_some : exists f, runs ex_save ex_save (fun a b => b = a + 1)%N (fun _ => None) f /\
  (do '(a, b, _) <- main_keys ex_save ex_save ex_read ex_read f 9%N 10%N; Ok (a, b)) = Ok (7, 8)%N.
Proof.
  exists (write (write (write (fun _ => None) (lit "_skey") [1; 5]%N) (lit "_skey") (ex_save 7%N)) (lit "_bkey") (ex_save 8%N)). split.
  - eapply (runs_more _ _ _ _ _ _ 7%N 8%N); [|reflexivity|].
    + eapply (runs_more _ _ _ _ _ _ 5%N 6%N); [apply runs_none|reflexivity|].
      right. split; [left; reflexivity|]. left. exists 2. intros q. reflexivity.
    + apply (C61_complete ex_save ex_save ex_read ex_read _ 7%N 8%N 7%N 8%N). reflexivity.
  - reflexivity.
Qed.

Print Assumptions C60_verdict.
Print Assumptions C60_agreeing.
Print Assumptions C60_stops.
Print Assumptions C60_progress.
Print Assumptions C60_prompt.
Print Assumptions C60_quiet.
Print Assumptions C60_status_refuted.
Print Assumptions C61_complete.
Print Assumptions C61_rerun.
Print Assumptions C61_pairs.
Print Assumptions C61_again_refuted.
Print Assumptions C61_mixture_refuted.
Print Assumptions C61_kept_refuted.
