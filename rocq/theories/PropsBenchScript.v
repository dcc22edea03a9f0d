(** C64: the test script test_benchmark.sh. *)
From Coq Require Import String.
From Coq Require Import List Arith Bool NArith ZArith Ascii Permutation Lia.
Import ListNotations.
From Verif Require Import Base BaseFacts GraphModel Spec GraphFacts TextModel TextSpec TextClaims PropsText CliModel DotModel TorusModel TfheSpec RunnerSpec TfheFacts PropsRunner
  InputSpec CmdModel CmdSpec CmdFacts PropsCmd MainSpec BenchModel BenchSpec PropsBench PropsBench2 ScriptModel ScriptFacts PropsScript
  BenchScriptModel BenchScriptSpec BenchScriptFacts.
Local Open Scope list_scope.

Section Script.
Context (T : tfhe) (s0 s1 : list Z) (bit : trgsw T -> bool -> Prop) (E : noise) (Y : crypto T).
Hypothesis OK : tfhe_ok T s0 s1 bit E.
Hypothesis NN : noise_nonneg E.
Hypothesis YO : crypto_ok T Y s1 bit.

Lemma about_eq f f' t x : (forall p, ~ In p logs -> f' p = f p) -> about T E f t x -> about T E f' t x.
Proof.
  destruct x as [[g r] w]. intros FR (n & PA & W1 & W2 & NM & B). exists n. split; auto.
  pose proof NM as NM'. inversion NM' as [|? ? _ F]; subst. inversion F as [|? ? [_ L2] F2]; subst. inversion F2 as [|? ? [_ L3] F3]; subst.
  inversion F3 as [|? ? [_ L4] _]; subst.
  split; [|split; [|split; auto]]; (eapply workload_eq; [| |eassumption]); apply FR; auto.
Qed.

Lemma test_runs f t x (Q : res fs -> Prop) : about T E f t x ->
  (consistent x -> forall f', (forall p, ~ In p logs -> f' p = f p) -> Q (Ok f')) -> (~ consistent x -> forall e, Q (Fail e)) ->
  run_test_ends T Y ordinary f t Q.
Proof.
  destruct x as [[g r] w]. intros (a & PA & W1 & W2 & NM & (B1 & B2 & B3 & B4 & B5 & B6 & B7 & B8)) GOOD BAD.
  inversion NM as [|? ? _ F]; subst. inversion F as [|? ? [S2 L2] F2]; subst. inversion F2 as [|? ? [S3 L3] F3]; subst.
  inversion F3 as [|? ? [S4 L4] _]; subst. clear NM F F2 F3.
  unfold run_test_ends.
  (* plain, every input *)
  destruct (plain_run T Y f (bt_ap t) a (bt_spec t) (bt_in t) g w PA S2 S4 L2 L4 W1 (lit "1") 1 p1) as (vs1 & R1 & H1).
  eapply run_ok; [exact H1|]. intros f1 G1 FR1. cbn [proceed]. rewrite G1.
  set (f1' := redirect f1 last_file (tail_1 (result_lines vs1))).
  assert (K1 : forall p, ~ In p logs -> f1' p = f p).
  { intros p NP. apply not_log in NP. unfold f1'. rewrite redirect_other by tauto. apply FR1. tauto. }
  (* plain, every thirty inputs *)
  assert (W1' : workload f1' (bt_spec t) (bt_in t) a g w) by (eapply workload_eq; [apply K1; auto|apply K1; auto|exact W1]).
  destruct (plain_run T Y f1' (bt_ap t) a (bt_spec t) (bt_in t) g w PA S2 S4 L2 L4 W1' (lit "30") 30 p30) as (vs & R & H2).
  eapply run_ok; [exact H2|]. intros f2 G2 FR2. cbn [proceed]. rewrite G2.
  pose proof (right_nil _ _ _ _ (proj2 p30) R) as NIL.
  set (f2' := redirect f2 plain_file (result_lines vs)).
  assert (K2 : forall p, ~ In p logs -> f2' p = f p).
  { intros p NP. pose proof (K1 p NP) as KP. apply not_log in NP. unfold f2'. rewrite redirect_other, FR2 by tauto. exact KP. }
  assert (CL : cat f2' last_file = tail_1 (result_lines vs1)).
  { unfold f2'. rewrite cat_other by discriminate. unfold cat. rewrite FR2 by discriminate. apply cat_same. }
  assert (CP : cat f2' plain_file = result_lines vs) by apply cat_same.
  clearbody f2'. destruct (result_lines vs) as [|c0 rest0] eqn:EL.
  { apply BAD. intros (L & _). assert (vs = []) as V by (destruct vs as [|v vs]; [reflexivity|discriminate]). apply NIL in V. lia. }
  assert (NV : vs <> []) by (intros ->; discriminate). rewrite <- EL in CP. clear G2 EL c0 rest0.
  assert (LW : 30 <= length w) by (destruct (Nat.lt_ge_cases (length w) 30) as [L|L]; auto; apply NIL in L; congruence).
  assert (NW : w <> []) by (intros ->; cbn in LW; lia).
  pose proof (right_clean _ _ _ _ R1) as C1. pose proof (right_clean _ _ _ _ R) as C.
  (* offline *)
  destruct (right_last _ _ _ _ [] Nat.lt_0_1 NW (Nat.mod_1_r _) R1) as (b & AB & SB).
  assert (NV1 : vs1 <> []).
  { intros E1. apply (right_nil _ _ _ _ Nat.lt_0_1 R1) in E1. lia. }
  rewrite (tail_results vs1 C1 NV1) in CL. unfold shows in SB. rewrite SB in CL.
  assert (W2' : workload f2' (bt_spec t) (bt_in t) a g w) by (eapply workload_eq; [apply K2; auto|apply K2; auto|exact W1]).
  destruct (offline_run T s0 s1 bit E Y OK NN YO f2' (bt_ap t) a (bt_spec t) (bt_in t) g w PA S2 S4 L2 L4 W2' NW B2 B1) as (b' & AB' & H3).
  assert (b' = b) as -> by congruence.
  assert (CB : Forall no_nl [[if b then "1"%char else "0"%char]]).
  { constructor; [|constructor]. destruct b; intros H; cbn in H; intuition discriminate. }
  eapply (compare_ok T Y f2' _ _ last_file); [exact (H3 (lit "0"))|discriminate|exact CL|exact CB|exact CB| |congruence].
  intros _ f3 FR3. cbn [proceed].
  assert (K3 : forall p, ~ In p logs -> f3 p = f p) by (intros p NP; rewrite FR3; auto; apply not_log in NP; tauto).
  assert (CP3 : cat f3 plain_file = result_lines vs) by (unfold cat; rewrite FR3 by discriminate; exact CP).
  (* reversed *)
  assert (W3 : workload f3 (bt_rev t) (bt_in t) a r w) by (eapply workload_eq; [apply K3; auto|apply K3; auto|exact W2]).
  destruct (reversed_run' T s0 s1 bit E Y OK NN YO f3 (bt_ap t) a (bt_rev t) (bt_in t) r w PA S3 S4 L3 L4 W3 B2) as (vr & RR & H4).
  pose proof (right_clean _ _ _ _ RR) as CR.
  assert (SAME : vs = vr <-> consistent (g, r, w)).
  { rewrite (right_same _ _ _ _ _ _ R RR). cbn [consistent]. split.
    - intros H. split; auto. intros k L K. symmetry. apply H. apply multiples_in; [lia|]. eauto.
    - intros [_ H] m I. apply multiples_in in I as (j & -> & J & L); [|lia]. symmetry. apply H; auto. }
  eapply (compare_ok T Y f3 _ vr plain_file vs); [exact H4|discriminate|exact CP3|exact C|exact CR| |].
  2:{ intros NE. cbn [proceed]. apply BAD. rewrite <- SAME. exact NE. }
  intros EV f4 FR4. cbn [proceed]. apply SAME in EV.
  assert (K4 : forall p, ~ In p logs -> f4 p = f p) by (intros p NP; rewrite FR4; auto; apply not_log in NP; tauto).
  assert (CP4 : cat f4 plain_file = result_lines vs) by (unfold cat; rewrite FR4 by discriminate; exact CP3).
  (* flut *)
  assert (W4 : workload f4 (bt_spec t) (bt_in t) a g w) by (eapply workload_eq; [apply K4; auto|apply K4; auto|exact W1]).
  destruct (flut_run T s0 s1 bit E Y OK NN YO f4 (bt_ap t) a (bt_spec t) (bt_in t) g w PA S2 S4 L2 L4 W4 B3 B4 B5) as (vf & RF & H5).
  rewrite <- (right_unique _ _ _ _ _ R RF) in H5. clear vf RF.
  eapply (compare_ok T Y f4 _ vs plain_file vs); [exact H5|discriminate|exact CP4|exact C|exact C| |congruence].
  intros _ f5 FR5. cbn [proceed].
  assert (K5 : forall p, ~ In p logs -> f5 p = f p) by (intros p NP; rewrite FR5; auto; apply not_log in NP; tauto).
  assert (CP5 : cat f5 plain_file = result_lines vs) by (unfold cat; rewrite FR5 by discriminate; exact CP4).
  (* bbs *)
  assert (W5 : workload f5 (bt_spec t) (bt_in t) a g w) by (eapply workload_eq; [apply K5; auto|apply K5; auto|exact W1]).
  destruct (bbs_run' T s0 s1 bit E Y OK NN YO f5 (bt_ap t) a (bt_spec t) (bt_in t) g w PA S2 S4 L2 L4 W5 B6 B7 B8) as (vf & RF & H6).
  rewrite <- (right_unique _ _ _ _ _ R RF) in H6. clear vf RF.
  eapply (compare_ok T Y f5 _ vs plain_file vs); [exact H6|discriminate|exact CP5|exact C|exact C| |congruence].
  intros _ f6 FR6. apply GOOD; auto. intros p NP. rewrite FR6; auto. apply not_log in NP. tauto.
Qed.

(** ** C64: whatever the time and the durations, the script ends, and it succeeds if and only if every
    test has at least thirty inputs and its two specifications agree after every thirty inputs.  It
    changes no files but its logs. *)
Theorem C64_script f l xs : Forall2 (about T E f) l xs ->
  bench_script_ends T Y ordinary f l (fun r =>
    ((exists f', r = Ok f') <-> Forall consistent xs) /\
    forall f', r = Ok f' -> forall p, ~ In p logs -> f' p = f p).
Proof.
  intros H.
  enough (G : forall f1 (Q : res fs -> Prop), (forall p, ~ In p logs -> f1 p = f p) ->
    (Forall consistent xs -> forall f', (forall p, ~ In p logs -> f' p = f p) -> Q (Ok f')) -> (~ Forall consistent xs -> forall e, Q (Fail e)) ->
    bench_script_ends T Y ordinary f1 l Q).
  { apply G; auto.
    - intros C f' K. split; [split; eauto|]. intros f'' [= <-]. exact K.
    - intros NC e. split; [split; [intros (f' & [=])|tauto]|discriminate]. }
  induction H as [|t x l xs HA _ IH]; intros f1 Q K GOOD BAD; cbn [bench_script_ends].
  - apply GOOD; auto.
  - apply (test_runs f1 t x); [eapply about_eq; [|exact HA]; exact K| |].
    + intros C f' K'. cbn [proceed]. apply IH.
      * intros p NP. rewrite K', K; auto.
      * intros CS. apply GOOD. constructor; auto.
      * intros NC. apply BAD. intros FC. inversion FC; subst. auto.
    + intros NC e. cbn [proceed]. apply BAD. intros FC. inversion FC; subst. auto.
Qed.
End Script.

(** * The tests of the script *)
(** The budgets for automata of nine states. *)
Definition bench_budgets (T : tfhe) (E : noise) : Prop :=
  back_margin E (N.to_nat 30000) /\ flut_margin (9 * 2 ^ 7) 15 1 E /\ (forall g, size g = 9 -> block_margin g 30 E) /\ 2 ^ 8 <= t_n1 T.
Definition word_check (p : text) : bool :=
  negb (path_eqb p []) && forallb (fun c => existsb (Ascii.eqb c) (list_ascii_of_string
    "abcdefghijklmnopqrstuvwxyzABCDEFGHIJKLMNOPQRSTUVWXYZ0123456789_./-")) p && negb (existsb (path_eqb p) logs).
Lemma word_checked p : word_check p = true -> shell_word p /\ ~ In p logs.
Proof.
  unfold word_check. rewrite !andb_true_iff. intros [[H1 H2] H3]. split; [split|].
  - intros ->. discriminate.
  - rewrite forallb_forall in H2. apply Forall_forall. intros c I. apply H2, existsb_exists in I as (d & I & D).
    apply Ascii.eqb_eq in D as ->. exact I.
  - intros I. apply negb_true_iff in H3. assert (K : existsb (path_eqb p) logs = true); [|congruence].
    apply existsb_exists. exists p. split; auto. unfold path_eqb. destruct list_eq_dec; congruence.
Qed.
Section Shipped.
Context (T : tfhe) (s0 s1 : list Z) (bit : trgsw T -> bool -> Prop) (E : noise) (Y : crypto T).
Hypothesis OK : tfhe_ok T s0 s1 bit E.
Hypothesis NN : noise_nonneg E.
Hypothesis YO : crypto_ok T Y s1 bit.
Context (f : fs).
Hypothesis IN : installed f.
Hypothesis BU : bench_budgets T E.

Lemma bench_fits_nine g w : wf_graph g -> size g = 9 -> (Z.of_nat (length w) <= 8004)%Z -> bench_fits T E g w.
Proof.
  intros WG SZ LW. destruct BU as (B1 & B2 & B3 & B4). unfold bench_fits. rewrite SZ. change (Nat.log2 9 + 1) with 4.
  assert (L : 4 < 2 ^ 8) by (apply Nat.ltb_lt; reflexivity).
  repeat split; auto; try lia.
  intros n k _ K. apply (width_le g) in K; auto. rewrite SZ in K.
  apply Nat.le_lt_trans with 9; auto. apply Nat.ltb_lt. reflexivity.
Qed.
Lemma file_of p spec g : In (p, map N_of_ascii spec) test_files -> automaton spec g -> from_file f (lit p) = Ok g.
Proof. intros H A. unfold from_file, open_file. rewrite (IN _ _ H). cbn [bind]. rewrite ascii_bytes. exact A. Qed.
Lemma workload2 sp spec g p bytes : In (sp, map N_of_ascii spec) test_files -> automaton spec g -> size g = 9 ->
  In (p, bytes) test_files -> workload f (lit sp) (lit p) 2 g (bits2 bytes).
Proof.
  intros H1 A SZ H2. split; [eapply file_of; eauto|]. split; [lia|]. split; [lia|].
  exists (map (fun b => [N.testbit_nat b 0; N.testbit_nat b 1]) bytes), (map (fun b => [b]) bytes).
  split; [apply packs2|]. split; [|reflexivity]. rewrite concat_single. apply IN. exact H2.
Qed.
Lemma workload9 sp spec g p l k : In (sp, map N_of_ascii spec) test_files -> automaton spec g -> size g = 9 ->
  In (p, times [255%N; l] k) test_files -> workload f (lit sp) (lit p) 9 g (times (repeat true 8 ++ [N.testbit_nat l 0]) k).
Proof.
  intros H1 A SZ H2. split; [eapply file_of; eauto|]. split; [lia|]. split; [lia|].
  exists (repeat (repeat true 8 ++ [N.testbit_nat l 0]) k), (repeat [255%N; l] k).
  split; [apply packs9|]. split; [|reflexivity]. apply IN. exact H2.
Qed.
Lemma times_length {A} (u : list A) k : length (times u k) = length u * k.
Proof. unfold times. induction k as [|k IH]; cbn [repeat concat length]; [lia|]. rewrite app_length, IH. lia. Qed.

Lemma about2 sp spec g sr rspec r p bytes :
  In (sp, map N_of_ascii spec) test_files -> automaton spec g -> size g = 9 ->
  In (sr, map N_of_ascii rspec) test_files -> automaton rspec r -> size r = 9 ->
  In (p, bytes) test_files -> (Z.of_nat (length bytes) <= 4002)%Z ->
  word_check (lit sp) = true -> word_check (lit sr) = true -> word_check (lit p) = true ->
  about T E f (mkBTest (lit "2") (lit sp) (lit sr) (lit p)) (g, r, bits2 bytes).
Proof.
  intros H1 A1 Z1 H2 A2 Z2 H3 LB C1 C2 C3. exists 2. cbn [bt_ap bt_spec bt_rev bt_in].
  split; [split; [split; reflexivity|lia]|].
  pose proof (workload2 _ _ _ _ _ H1 A1 Z1 H3) as W1.
  split; [exact W1|]. split; [exact (workload2 _ _ _ _ _ H2 A2 Z2 H3)|]. split.
  - repeat (apply Forall_cons; [apply word_checked; auto|]); constructor.
  - apply bench_fits_nine; auto; [|rewrite bits2_length; lia]. eapply from_file_wf; [exact (proj1 W1)|lia].
Qed.
Lemma about9 sp spec g sr rspec r p l k :
  In (sp, map N_of_ascii spec) test_files -> automaton spec g -> size g = 9 ->
  In (sr, map N_of_ascii rspec) test_files -> automaton rspec r -> size r = 9 ->
  In (p, times [255%N; l] k) test_files -> k <= 100 ->
  word_check (lit sp) = true -> word_check (lit sr) = true -> word_check (lit p) = true ->
  about T E f (mkBTest (lit "9") (lit sp) (lit sr) (lit p)) (g, r, times (repeat true 8 ++ [N.testbit_nat l 0]) k).
Proof.
  intros H1 A1 Z1 H2 A2 Z2 H3 LB C1 C2 C3. exists 9. cbn [bt_ap bt_spec bt_rev bt_in].
  split; [split; [split; reflexivity|lia]|].
  pose proof (workload9 _ _ _ _ _ _ H1 A1 Z1 H3) as W1.
  split; [exact W1|]. split; [exact (workload9 _ _ _ _ _ _ H2 A2 Z2 H3)|]. split.
  - repeat (apply Forall_cons; [apply word_checked; auto|]); constructor.
  - apply bench_fits_nine; auto; [|rewrite times_length, app_length; cbn [repeat length]; lia]. eapply from_file_wf; [exact (proj1 W1)|lia].
Qed.
Lemma mirrored_consistent g r w : (forall u, accepts r (rev u) = accepts g u) -> 30 <= length w -> consistent (g, r, w).
Proof. intros H L. split; auto. Qed.

Lemma bench_script_mono f0 l : forall (Q Q' : res fs -> Prop), (forall r, Q r -> Q' r) ->
  bench_script_ends T Y ordinary f0 l Q -> bench_script_ends T Y ordinary f0 l Q'.
Proof.
  assert (B : forall f argv (Q Q' : res fs -> Prop), (forall r, Q r -> Q' r) -> benchmark_ends T Y ordinary f argv Q -> benchmark_ends T Y ordinary f argv Q').
  { intros f' argv Q Q' H K clock tms now O. specialize (K clock tms now O).
    destruct (bench_main T Y clock tms (redirect f' log_file []) now argv) as [[out [sm|]]|e]; auto.
    intros r Hr. specialize (K r Hr). destruct r; auto. }
  assert (P : forall (Q Q' : res fs -> Prop) (n n' : fs -> Prop), (forall r, Q r -> Q' r) -> (forall f, n f -> n' f) -> forall r, proceed Q n r -> proceed Q' n' r).
  { intros Q Q' n n' H1 H2 [f'|e]; cbn; auto. }
  assert (C : forall f argv file (Q Q' : res fs -> Prop), (forall r, Q r -> Q' r) -> compare_ends T Y ordinary f argv file Q -> compare_ends T Y ordinary f argv file Q').
  { intros f' argv file Q Q' H. apply B. apply P; auto. intros f''. destruct (path_eqb _ _); auto. }
  revert f0. induction l as [|t l IH]; intros f0 Q Q' H; cbn [bench_script_ends]; auto.
  assert (H' : forall r, proceed Q (fun f => bench_script_ends T Y ordinary f l Q) r -> proceed Q' (fun f => bench_script_ends T Y ordinary f l Q') r).
  { apply P; auto. intros f'. apply IH. exact H. }
  revert H'. generalize (proceed Q (fun f => bench_script_ends T Y ordinary f l Q)), (proceed Q' (fun f => bench_script_ends T Y ordinary f l Q')).
  clear IH H Q Q'. intros Q Q' H. unfold run_test_ends. apply B. apply P; auto. intros f1. apply B. apply P; auto. intros f2.
  destruct (grep_result (cat f2 log_file)); auto. repeat (apply C; apply P; auto; intros ?). apply C; auto.
Qed.

(** The script as it is succeeds. *)
Theorem C64_shipped : bench_script_ends T Y ordinary f bench_tests (fun r => exists f', r = Ok f').
Proof.
  destruct (from_istream spec_01) as [g1|e] eqn:A1; [|vm_compute in A1; discriminate].
  destruct (from_istream spec_01_rev) as [r1|e] eqn:A2; [|vm_compute in A2; discriminate].
  destruct (from_istream spec_10) as [g2|e] eqn:A3; [|vm_compute in A3; discriminate].
  destruct (from_istream spec_10_rev) as [r2|e] eqn:A4; [|vm_compute in A4; discriminate].
  assert (S1 : size g1 = 9) by (pose proof A1 as K; vm_compute in K; injection K as <-; reflexivity).
  assert (S2 : size r1 = 9) by (pose proof A2 as K; vm_compute in K; injection K as <-; reflexivity).
  assert (S3 : size g2 = 9) by (pose proof A3 as K; vm_compute in K; injection K as <-; reflexivity).
  assert (S4 : size r2 = 9) by (pose proof A4 as K; vm_compute in K; injection K as <-; reflexivity).
  assert (M1 := C62_mirrored g1 r1 (or_introl (conj A1 A2))).
  assert (M2 := C62_mirrored g2 r2 (or_intror (conj A3 A4))).
  assert (G : exists xs, Forall2 (about T E f) bench_tests xs /\ Forall consistent xs).
  { unfold bench_tests. cbv zeta. eexists. split.
    - repeat (apply Forall2_cons;
        [first [eapply (about2 "test/01.spec" spec_01 g1 "test/01_rev.spec" spec_01_rev r1);
                  [find|exact A1|exact S1|find|exact A2|exact S2|find|lengths|reflexivity|reflexivity|reflexivity]
               |eapply (about9 "test/10.spec" spec_10 g2 "test/10_rev.spec" spec_10_rev r2);
                  [find|exact A3|exact S3|find|exact A4|exact S4|find|lia|reflexivity|reflexivity|reflexivity]]|]).
      apply Forall2_nil.
    - repeat (apply Forall_cons; [apply mirrored_consistent; [assumption|]|]); [..|apply Forall_nil].
      all: try (rewrite bits2_length; apply Nat.leb_le; vm_compute; reflexivity).
      all: rewrite times_length, app_length; cbn [repeat length]; lia. }
  destruct G as (xs & G1 & G2). eapply bench_script_mono; [|apply (C64_script T s0 s1 bit E Y OK NN YO f _ _ G1)].
  intros r ((_ & H) & _). apply H. exact G2.
Qed.
End Shipped.

(** * The hypotheses are met *)
Example C64_hyps : tfhe_ok big_T [1; 0; 1]%Z big_s1 (fun c b => c = b) (toy_noise 1) /\ noise_nonneg (toy_noise 1) /\
  crypto_ok big_T big_Y big_s1 (fun c b => c = b) /\ installed big_f /\ bench_budgets big_T (toy_noise 1) /\
  ordinary (fun n => show_nat n) (fun _ => 0%Z).
Proof.
  destruct C62_hyps as (H1 & H2 & H3 & H4 & (B1 & B2 & B3 & B4 & _) & _). do 4 (split; [assumption|]). split.
  - split; [vm_compute; reflexivity|]. split; [exact B2|]. split; [|exact B4].
    intros g S. unfold block_margin, block_noise. rewrite S. vm_compute. reflexivity.
  - split; [intros n; apply show_nat_digits|apply ex_measured].
Qed.
Example C64_nonvacuous : length bench_tests = 9 /\
  bench_script_ends big_T big_Y ordinary big_f bench_tests (fun r => exists f', r = Ok f').
Proof.
  split; [reflexivity|]. destruct C64_hyps as (H1 & H2 & H3 & H4 & H5 & _).
  exact (C64_shipped big_T _ _ _ _ big_Y H1 H2 H3 big_f H4 H5).
Qed.
(** Fewer than thirty inputs make the script fail, and so does a wrong mirrored specification. *)
Example C64_wrong (sr p : string) : In (sr, p) [("test/01_rev.spec", "test/01-07.in"); ("test/01.spec", "test/01-03.in")]%string ->
  bench_script_ends big_T big_Y ordinary big_f [mkBTest (lit "2") (lit "test/01.spec") (lit sr) (lit p)] (fun r => exists e, r = Fail e).
Proof.
  destruct C64_hyps as (H1 & H2 & H3 & H4 & H5 & _). intros HI.
  destruct (from_istream spec_01) as [g1|e] eqn:A1; [|vm_compute in A1; discriminate].
  destruct (from_istream spec_01_rev) as [r1|e] eqn:A2; [|vm_compute in A2; discriminate].
  assert (S1 : size g1 = 9) by (pose proof A1 as K; vm_compute in K; injection K as <-; reflexivity).
  assert (S2 : size r1 = 9) by (pose proof A2 as K; vm_compute in K; injection K as <-; reflexivity).
  assert (G : exists x, about big_T (toy_noise 1) big_f (mkBTest (lit "2") (lit "test/01.spec") (lit sr) (lit p)) x /\ ~ consistent x).
  { destruct HI as [[= <- <-]|[[= <- <-]|[]]]; eexists; split.
    - eapply (about2 big_T (toy_noise 1) big_f H4 H5 "test/01.spec" spec_01 g1 "test/01_rev.spec" spec_01_rev r1);
        [find|exact A1|exact S1|find|exact A2|exact S2|find|lengths|reflexivity|reflexivity|reflexivity].
    - intros [L _]. cbn in L. lia.
    - eapply (about2 big_T (toy_noise 1) big_f H4 H5 "test/01.spec" spec_01 g1 "test/01.spec" spec_01 g1);
        [find|exact A1|exact S1|find|exact A1|exact S1|find|lengths|reflexivity|reflexivity|reflexivity].
    - intros [_ C].
      assert (D : (do g <- from_istream spec_01; accepts g (rev (firstn (30 * 1) (bits2 (times [0; 1; 2; 2; 3]%N 160))))) <>
        (do g <- from_istream spec_01; accepts g (firstn (30 * 1) (bits2 (times [0; 1; 2; 2; 3]%N 160))))) by (vm_compute; discriminate).
      rewrite A1 in D. cbn [bind] in D. apply D. apply C; [|lia]. rewrite bits2_length. apply Nat.leb_le. vm_compute. reflexivity. }
  destruct G as (x & G1 & G2).
  eapply bench_script_mono; [|apply (C64_script big_T _ _ _ _ big_Y H1 H2 H3 big_f _ [x])].
  - intros [f'|e] ((A & _) & _); [|eauto]. exfalso. assert (K := A (ex_intro _ f' eq_refl)). inversion K; subst. auto.
  - constructor; [exact G1|constructor].
Qed.

Print Assumptions C64_script.
Print Assumptions C64_shipped.
