(** Facts about the self-test of src/counter.cpp (CtestModel.v). *)
From Coq Require Import String.
From Coq Require Import List Arith Bool NArith ZArith Ascii Permutation Lia.
From Coq Require Import ZifyBool ZifyNat ZifyN.
Import ListNotations.
From Verif Require Import Base BaseFacts GraphModel TextModel DotModel TorusModel RunnerModel RunnerSpec CmdModel
  CounterModel CounterSpec CtestModel CtestSpec.
Local Open Scope list_scope.

(** ** Playing a history in two parts *)
Lemma play_app {St C R} (feed : St -> C -> res St) (ask : St -> res (R * St)) h1 h2 s :
  play feed ask (h1 ++ h2) s =
  do '(a, s1) <- play feed ask h1 s; do '(b, s2) <- play feed ask h2 s1; Ok (a ++ b, s2).
Proof.
  revert s. induction h1 as [|[c|] h1 IH]; intros s; cbn [app play bind].
  - destruct (play feed ask h2 s) as [[b s2]|]; reflexivity.
  - destruct (feed s c); cbn [bind]; auto.
  - destruct (ask s) as [[r s1]|]; cbn [bind]; auto. rewrite IH.
    destruct (play feed ask h1 s1) as [[a s2]|]; cbn [bind]; auto.
    destruct (play feed ask h2 s2) as [[b s3]|]; cbn [bind]; auto.
Qed.
Lemma history_snoc {C} (w : list C) c : test_history (w ++ [c]) = test_history w ++ [Some c; None].
Proof. unfold test_history. rewrite flat_map_app. reflexivity. Qed.

(** ** Texts *)
Lemma digit_show b : show_bool b = digit b.
Proof. destruct b; reflexivity. Qed.
Lemma history_numbered h : forall k, history_text k h =
  concat (map (fun '(i, b) => line (lit "Input " ++ show_nat i ++ lit ":" ++ ["009"%char] ++ digit b)) (combine (seq k (length h)) h)).
Proof.
  induction h as [|b h IH]; intros k; cbn [history_text length seq combine map concat]; [reflexivity|].
  rewrite IH. unfold line. repeat rewrite <- app_assoc. destruct b; reflexivity.
Qed.
Lemma counters_numbered cs : forall k, dump_counters k cs =
  concat (map (fun '(i, c) => line (lit "cnt" ++ show_nat i ++ lit ": " ++ decimal c)) (combine (seq k (length cs)) cs)).
Proof.
  induction cs as [|c cs IH]; intros k; cbn [dump_counters length seq combine map concat]; [reflexivity|].
  rewrite IH. unfold line. repeat rewrite <- app_assoc. reflexivity.
Qed.
(** The reports found in the array of messages: the empty ones are skipped. *)
Definition shown (m : text) : option text := match m with [] => None | _ => Some m end.
Lemma report_shown ms : forall k, report_text k ms =
  concat (map (fun '(i, m) => match m with Some m => line (lit "TEST " ++ show_nat i) ++ line m | None => [] end)
              (combine (seq k (length (map shown ms))) (map shown ms))).
Proof.
  induction ms as [|m ms IH]; intros k; cbn [report_text length map seq combine concat]; [reflexivity|].
  rewrite IH. destruct m as [|c m]; cbn [shown]; [reflexivity|].
  unfold line. repeat rewrite <- app_assoc. reflexivity.
Qed.

Section Test.
Context (T : tfhe) (G : gates T) (key : list Z)
        (order : nat -> nat -> nat -> red) (draw : nat -> nat -> bool) (enc : nat -> nat -> bool -> trgsw T).
Notation stepw := (step_of T G key order draw enc).
Notation moves := (tmoves T G key order draw enc).
Notation good := (truthful T G key order draw enc).
Notation agrees := (agree T G key order draw enc).
Notation encs := (enc_run T G order draw enc).
Notation plains := (plain_run draw).

Lemma error_report h r s e p m : error_text T key h r s e p = Ok m ->
  exists v, runner_dump T s key = Ok v /\ m = report h r e v p.
Proof.
  unfold error_text. intros H. apply bind_ok in H as (v & E & H). exists v. split; auto.
  match type of H with Ok ?x = _ => assert (Hm : m = x) by congruence end. rewrite Hm. clear H Hm m.
  destruct v as [[[a q] info] counts]. unfold report, dump_text, plain_dump, numbered.
  rewrite history_numbered, !counters_numbered, !digit_show. unfold line, show_N, decimal, c_nl, c_tab.
  repeat rewrite <- app_assoc. reflexivity.
Qed.

Lemma drawn_snoc t n : drawn draw t (S n) = drawn draw t n ++ [draw t n].
Proof. unfold drawn. rewrite seq_S, map_app. reflexivity. Qed.
Lemma sent_snoc t n : sent T draw enc t (S n) = sent T draw enc t n ++ [enc t n (draw t n)].
Proof. unfold sent. rewrite seq_S, map_app. reflexivity. Qed.

(** One more round *)
Lemma round_runs t n s p outs answers s' p' r e :
  encs t n = Ok (outs, s) -> plains t n = Ok (answers, p) -> test_round T G key order draw enc t n s p = Ok (s', p', r, e) ->
  exists c, encs t (S n) = Ok (outs ++ [c], s') /\ plains t (S n) = Ok (answers ++ [e], p') /\
    TLWELvl1_decrypt (t_n1 T) c key = r.
Proof.
  unfold enc_run, plain_run. rewrite drawn_snoc, sent_snoc, !history_snoc. intros HE HP HR.
  unfold test_round in HR. apply bind_ok in HR as (s1 & E1 & HR). apply bind_ok in HR as ([c s2] & E2 & HR).
  apply bind_ok in HR as (p1 & E3 & HR). injection HR as <- <- <- <-.
  apply bind_ok in HE as (s0 & E0 & HE). exists c. rewrite E0. cbn [bind]. rewrite !play_app, HE, HP. cbn [bind play].
  rewrite E1. cbn [bind]. rewrite E2, E3. cbn [bind]. auto.
Qed.
Lemma runs_round t n s p outs answers outs' answers' s' p' :
  encs t n = Ok (outs, s) -> plains t n = Ok (answers, p) ->
  encs t (S n) = Ok (outs', s') -> plains t (S n) = Ok (answers', p') -> decrypted T key outs' = answers' ->
  exists r, test_round T G key order draw enc t n s p = Ok (s', p', r, r).
Proof.
  unfold enc_run, plain_run. rewrite drawn_snoc, sent_snoc, !history_snoc. intros HE HP HE' HP' HD.
  apply bind_ok in HE as (s0 & E0 & HE). rewrite E0 in HE'. cbn [bind] in HE'. rewrite play_app, HE in HE'. rewrite play_app, HP in HP'.
  cbn [bind play] in HE', HP'.
  apply bind_ok in HE' as ([b s2] & E1 & HE'). apply bind_ok in E1 as (s3 & E1 & E2). apply bind_ok in E2 as ([c s4] & E2 & E3).
  injection E3 as <- <-. injection HE' as <- <-.
  apply bind_ok in HP' as ([b p2] & E4 & HP'). apply bind_ok in E4 as (p3 & E4 & E5). injection E5 as <- <-. injection HP' as <- <-.
  unfold decrypted in HD. rewrite map_app in HD. apply app_inj_tail in HD as [_ HD].
  unfold test_round. rewrite E1. cbn [bind]. rewrite E2. cbn [bind]. rewrite E4. cbn [bind]. exists (plain_result p3).
  rewrite HD. reflexivity.
Qed.

(** ** The invariant *)
(** What test t has compared so far *)
Definition so_far (t i : nat) (s : runner T) (p : plain) (h : list bool) : Prop :=
  h = drawn draw t i /\ exists outs answers, encs t i = Ok (outs, s) /\ plains t i = Ok (answers, p) /\ decrypted T key outs = answers.
(** Where a test is, with its message and the flag *)
Definition place (t : nat) (k : task T) (m : text) (abort : bool) : Prop :=
  match k with
  | Entering _ | Entered _ => m = []
  | Checking _ i s p h => m = [] /\ i <= num_rounds /\ so_far t i s p h
  | Working _ i s p h => m = [] /\ i < num_rounds /\ so_far t i s p h
  | Aborting _ => m <> [] /\ good t m
  | Returned _ => (m <> [] /\ good t m /\ abort = true) \/ (m = [] /\ (agrees t num_rounds \/ abort = true))
  end.
(** What a test has printed *)
Definition printed (t : nat) (k : task T) : text :=
  match k with Entering _ => [] | Entered _ => show_nat t | _ => show_nat t ++ lit " " end.
Fixpoint all_printed (t : nat) (ks : list (task T)) : text :=
  match ks with [] => [] | k :: ks => printed t k ++ all_printed (S t) ks end.
Record twf (w : world T) : Prop := mkTwf {
  tw_tasks : length (wd_tasks T w) = 5;
  tw_msgs : length (wd_messages T w) = 5;
  tw_place : forall t k m, nth_error (wd_tasks T w) t = Some k -> nth_error (wd_messages T w) t = Some m -> place t k m (wd_abort T w);
  tw_abort : wd_abort T w = true -> exists t m, nth_error (wd_messages T w) t = Some m /\ m <> [];
  tw_cerr : Permutation (wd_cerr T w) (all_printed 0 (wd_tasks T w)) }.

Lemma start_wf : twf (test_start T).
Proof.
  constructor; auto; [|discriminate].
  intros t k m Hk Hm. cbn in Hk, Hm. do 5 (destruct t as [|t]; [injection Hk as <-; injection Hm as <-; reflexivity|]). destruct t; discriminate.
Qed.

Lemma printed_upd ks : forall t j k k' e, nth_error ks t = Some k -> Permutation (printed (j + t) k') (printed (j + t) k ++ e) ->
  Permutation (all_printed j (upd t k' ks)) (all_printed j ks ++ e).
Proof.
  induction ks as [|k0 ks IH]; intros t j k k' e Hk HP; [destruct t; discriminate|]. destruct t as [|t]; cbn in *.
  - injection Hk as ->. rewrite Nat.add_0_r in HP. rewrite HP, <- !app_assoc. apply Permutation_app_head, Permutation_app_comm.
  - rewrite <- app_assoc. apply Permutation_app_head. apply (IH t (S j) k); auto. replace (S j + t) with (j + S t) by lia. exact HP.
Qed.

Lemma place_mono t k m a : place t k m a -> place t k m true.
Proof. destruct k; cbn; auto. intros [(A & B & C)|(A & B)]; [left|right]; auto. Qed.

(** One step *)
Lemma advance_place t k m a k' a' e m' : k <> Returned T -> place t k m a -> advance T G key order draw enc t k a = Ok (k', a', e, m') ->
  (a' = a \/ (a' = true /\ m <> [])) /\ printed t k' = printed t k ++ e /\
  place t k' (match m' with Some x => x | None => m end) a'.
Proof.
  intros NR HP. destruct k as [| |i s p h|i s p h| |]; cbn [advance place] in *.
  - intros [= <- <- <- <-]. auto.
  - intros H. apply bind_ok in H as (s & E & H). injection H as <- <- <- <-. split; auto. split; [reflexivity|].
    cbn [place]. split; auto. split; [lia|]. split; [reflexivity|].
    exists [], []. unfold enc_run, plain_run. rewrite E. auto.
  - destruct HP as (Hm & Hi & HS). destruct (Nat.eqb_spec i num_rounds) as [->|Ni]; [|destruct a]; intros [= <- <- <- <-].
    all: split; [auto|]; split; [symmetry; apply app_nil_r|]; cbn [place].
    + right. split; auto. left. destruct HS as (_ & outs & answers & A & B & C). exists outs, s, answers, p. auto.
    + right. auto.
    + split; auto. split; [lia|auto].
  - destruct HP as (Hm & Hi & HS). intros H. apply bind_ok in H as ([[[s' p'] r] x] & E & H).
    destruct HS as (Hh & outs & answers & A & B & C). destruct (round_runs t i s p outs answers s' p' r x A B E) as (c & A' & B' & C').
    destruct (Bool.eqb r x) eqn:Q.
    + apply eqb_prop in Q. injection H as <- <- <- <-. split; [auto|]. split; [symmetry; apply app_nil_r|]. cbn [place].
      split; auto. split; [lia|]. split; [rewrite drawn_snoc, Hh; reflexivity|].
      exists (outs ++ [c]), (answers ++ [x]). split; auto. split; auto. unfold decrypted in *. rewrite map_app, C. cbn [map].
      rewrite C', Q. reflexivity.
    + apply eqb_false_iff in Q. apply bind_ok in H as (msg & EM & H). injection H as <- <- <- <-.
      split; [auto|]. split; [symmetry; apply app_nil_r|]. cbn [place]. apply error_report in EM as (v & EV & ->). split.
      * destruct v as [[[? ?] ?] ?]. unfold report, line. discriminate.
      * exists i, r, x, s', p', v. unfold num_rounds in Hi. split; [lia|]. split.
        { exists outs, c, answers. auto. }
        split; auto. rewrite drawn_snoc, Hh. reflexivity.
  - intros [= <- <- <- <-]. destruct HP as [P1 P2]. split; [auto|]. split; [symmetry; apply app_nil_r|]. left. auto.
  - congruence.
Qed.

Lemma step_unfold w t w' : stepw w t = Ok (Some w') -> exists k k' a e m,
  nth_error (wd_tasks T w) t = Some k /\ k <> Returned T /\ advance T G key order draw enc t k (wd_abort T w) = Ok (k', a, e, m) /\
  w' = mkWorld T (upd t k' (wd_tasks T w)) a (match m with Some m => upd t m (wd_messages T w) | None => wd_messages T w end)
               (wd_cerr T w ++ e).
Proof.
  unfold step_of. destruct (nth_error (wd_tasks T w) t) as [k|]; [|discriminate].
  intros H. destruct k; try discriminate; apply bind_ok in H as ([[[k' a] e] m] & E & H); injection H as <-;
    eexists _, k', a, e, m; (split; [reflexivity|]); (split; [discriminate|]); auto.
Qed.

Lemma step_wf w t w' : twf w -> stepw w t = Ok (Some w') -> twf w'.
Proof.
  intros [L1 L2 HP HA HC] H. apply step_unfold in H as (k & k' & a & e & m & Hk & NR & E & ->).
  assert (Lt : t < 5) by (rewrite <- L1; eapply nth_error_lt; eauto).
  destruct (nth_error (wd_messages T w) t) as [m0|] eqn:Hm; [|apply nth_error_None in Hm; lia].
  destruct (advance_place t k m0 _ k' a e m NR (HP t k m0 Hk Hm) E) as (A1 & A2 & A3).
  constructor; cbn [wd_tasks wd_messages wd_abort wd_cerr].
  - rewrite upd_length. exact L1.
  - destruct m; rewrite ?upd_length; exact L2.
  - intros j kj mj Hkj Hmj. destruct (Nat.eq_dec j t) as [->|D].
    + rewrite upd_eq in Hkj by lia. injection Hkj as <-.
      destruct m as [m|]; [rewrite upd_eq in Hmj by lia; injection Hmj as <-; exact A3|].
      rewrite Hm in Hmj. injection Hmj as <-. exact A3.
    + rewrite upd_neq in Hkj by auto.
      assert (Hmj' : nth_error (wd_messages T w) j = Some mj) by (destruct m; [rewrite upd_neq in Hmj by auto|]; exact Hmj).
      pose proof (HP j kj mj Hkj Hmj') as P. destruct A1 as [->|[-> _]]; [exact P|]. eapply place_mono; eauto.
  - intros Ha. destruct m as [m|].
    + exists t, m. split; [apply upd_eq; lia|]. destruct k; cbn in E; try discriminate.
      * apply bind_ok in E as (? & _ & E). discriminate.
      * destruct (_ =? _); [discriminate|]. destruct (wd_abort T w); discriminate.
      * apply bind_ok in E as ([[[? ?] ?] ?] & _ & E). destruct (Bool.eqb _ _); [discriminate|].
        apply bind_ok in E as (? & E1 & E). injection E as <- <- <- <-. apply error_report in E1 as ([[[? ?] ?] ?] & _ & ->).
        unfold report, line. discriminate.
    + destruct A1 as [->|[-> A1]]; [apply HA; exact Ha|]. exists t, m0. auto.
  - rewrite (printed_upd (wd_tasks T w) t 0 k k' e Hk); [apply Permutation_app_tail; exact HC|]. cbn [Nat.add]. rewrite A2. reflexivity.
Qed.
Lemma moves_wf w : moves (test_start T) w -> twf w.
Proof.
  intros H. remember (test_start T) as w0 eqn:E. induction H as [|w w1 w2 H IH [t M]]; subst; [apply start_wf|].
  eapply step_wf; eauto.
Qed.

(** ** Every execution ends *)
Definition left_to_do (k : task T) : nat :=
  match k with
  | Entering _ => 2 * num_rounds + 4
  | Entered _ => 2 * num_rounds + 3
  | Checking _ i _ _ _ => 2 * (num_rounds - i) + 2
  | Working _ i _ _ _ => 2 * (num_rounds - i) + 1
  | Aborting _ => 1
  | Returned _ => 0
  end.
Fixpoint sum_left (ks : list (task T)) : nat := match ks with [] => 0 | k :: ks => left_to_do k + sum_left ks end.
Lemma sum_upd ks : forall t k k', nth_error ks t = Some k -> left_to_do k' < left_to_do k -> sum_left (upd t k' ks) < sum_left ks.
Proof.
  induction ks as [|k0 ks IH]; intros t k k' H L; [destruct t; discriminate|]. destruct t as [|t]; cbn [upd sum_left nth_error] in *.
  - injection H as ->. lia.
  - pose proof (IH t k k' H L). lia.
Qed.
Lemma step_decreases w t w' : twf w -> stepw w t = Ok (Some w') -> sum_left (wd_tasks T w') < sum_left (wd_tasks T w).
Proof.
  intros [L1 L2 HP HA HC] H. apply step_unfold in H as (k & k' & a & e & m & Hk & NR & E & ->).
  assert (Lt : t < 5) by (rewrite <- L1; eapply nth_error_lt; eauto).
  destruct (nth_error (wd_messages T w) t) as [m0|] eqn:Hm; [|apply nth_error_None in Hm; lia].
  pose proof (HP t k m0 Hk Hm) as P. cbn [wd_tasks]. eapply sum_upd; [exact Hk|]. clear - P E NR.
  destruct k as [| |i s p h|i s p h| |]; cbn [advance place left_to_do] in *.
  - injection E as <- _ _ _. cbn [left_to_do]. lia.
  - apply bind_ok in E as (s & _ & E). injection E as <- _ _ _. cbn [left_to_do]. lia.
  - destruct (i =? num_rounds); [|destruct (wd_abort T w)]; injection E as <- _ _ _; cbn [left_to_do]; lia.
  - apply bind_ok in E as ([[[s' p'] r] x] & _ & E). destruct (Bool.eqb r x); [|apply bind_ok in E as (msg & _ & E)];
      injection E as <- _ _ _; cbn [left_to_do]; lia.
  - injection E as <- _ _ _. cbn [left_to_do]. lia.
  - congruence.
Qed.

(** ** Nothing new is begun once the flag is set *)
Lemma step_flag w t w' : stepw w t = Ok (Some w') -> wd_abort T w = true ->
  wd_abort T w' = true /\
  forall j i s p h, nth_error (wd_tasks T w') j = Some (Working T i s p h) -> nth_error (wd_tasks T w) j = Some (Working T i s p h).
Proof.
  intros H HF. apply step_unfold in H as (k & k' & a & e & m & Hk & NR & E & ->). cbn [wd_abort wd_tasks]. rewrite HF in E.
  assert (X : a = true /\ forall i s p h, k' <> Working T i s p h).
  { destruct k as [| |i s p h|i s p h| |]; cbn [advance] in E.
    - injection E as <- <- _ _. split; [auto|discriminate].
    - apply bind_ok in E as (s & _ & E). injection E as <- <- _ _. split; [auto|discriminate].
    - destruct (i =? num_rounds); injection E as <- <- _ _; (split; [auto|discriminate]).
    - apply bind_ok in E as ([[[s' p'] r] x] & _ & E). destruct (Bool.eqb r x); [|apply bind_ok in E as (msg & _ & E)];
        injection E as <- <- _ _; (split; [auto|discriminate]).
    - injection E as <- <- _ _. split; [auto|discriminate].
    - congruence. }
  destruct X as [-> X]. split; auto. intros j i s p h Hj. destruct (Nat.eq_dec j t) as [->|D].
  - rewrite upd_eq in Hj by (eapply nth_error_lt; eauto). injection Hj as Hj. exfalso. eapply X, Hj.
  - rewrite upd_neq in Hj by auto. exact Hj.
Qed.
End Test.
