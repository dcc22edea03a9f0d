(** C62: the test script test_homfa.sh, and the specifications in test/. *)
From Coq Require Import String.
From Coq Require Import List Arith Bool NArith ZArith Ascii Permutation Lia.
Import ListNotations.
From Verif Require Import Base BaseFacts GraphModel Spec GraphFacts GraphOps TextModel PropsText CliModel DotModel TorusModel TfheSpec RunnerSpec TfheFacts PropsRunner
  StreamModel InputSpec PropsInput CmdModel CmdSpec CmdFacts PropsCmd LtlModel MainModel MainSpec MainFacts PropsMain BenchSpec PropsBench
  ScriptModel ScriptSpec ScriptFacts.
Local Open Scope list_scope.

Section Script.
Context (T : tfhe) (s0 s1 : list Z) (bit : trgsw T -> bool -> Prop) (E : noise) (Y : crypto T) (spot : spot_lib).
Hypothesis OK : tfhe_ok T s0 s1 bit E.
Hypothesis NN : noise_nonneg E.
Hypothesis YO : crypto_ok T Y s1 bit.
Notation sk := (lit "_test_sk").
Notation bk := (lit "_test_bk").

(** ** C62: whatever the random choices and the order in which threads proceed, the script ends, and
    it succeeds if and only if every check expects what its specification says. *)
Theorem C62_script f l vs : keys_ready Y f -> Forall2 (verdict T Y E f) l vs ->
  script_ends T Y spot f l (fun r =>
    ((exists f', r = Ok f') <-> map t_expect l = vs) /\
    forall f', r = Ok f' -> forall p, ~ In p scratch -> f' p = f p).
Proof.
  intros KR HV.
  assert (MAIN : forall f2, keys_at Y f2 sk bk -> (forall p, p <> sk -> p <> bk -> f2 p = f p) ->
    checks_end T Y spot f2 l (fun r => ((exists f', r = Ok f') <-> map t_expect l = vs) /\
      forall f', r = Ok f' -> forall p, ~ In p scratch -> f' p = f p)).
  { intros f2 KA FR. apply (checks_run T s0 s1 bit E Y spot OK NN YO l f2 vs KA).
    - clear - HV FR. induction HV as [|t v l vs HV _ IH]; constructor; auto.
      destruct HV as (n & g & w & HN & (EF & SZ & AP & vals & blocks & HP & EI & EW) & NS & NI & HA & HF).
      assert (K : forall p, ~ In p scratch -> f2 p = f p).
      { intros p NP. apply FR; intros ->; apply NP; cbn; auto. }
      exists n, g, w. split; auto. split; [|auto]. split; [rewrite (from_file_eq _ f); auto|]. split; auto. split; auto.
      exists vals, blocks. rewrite K; auto.
    - intros f' EV K. split; [split; eauto|]. intros f'' [= <-] p NP. rewrite K, FR; auto; intros ->; apply NP; cbn; auto.
    - intros NE. split; [split; [intros (f' & [=])|tauto]|discriminate]. }
  unfold script_ends, unless_there.
  assert (GB : forall f1, f1 bk = None -> (exists b, f1 sk = Some b /\ c_read_skey T Y b = true) -> (forall p, p <> sk -> f1 p = f p) ->
    commands_end T Y spot f1 [args ["genbkey"; "--key"; "_test_sk"; "--out"; "_test_bk"]%string] [] (fun r =>
      match match r with Ok (f', _) => Ok f' | Fail e => Fail e end with Fail e => False | Ok f2 =>
        keys_at Y f2 sk bk /\ forall p, p <> sk -> p <> bk -> f2 p = f p end)).
  { intros f1 NB (b & K1 & K2) FR coin.
    erewrite C51_manual; [| |apply (man_genbkey T Y spot f1 [] coin sk bk)].
    2:{ line [Opt "--key" sk; Opt "--out" bk]. }
    2:{ unfold readable. congruence. }
    unfold do_genbkey, read_skey, open_file. rewrite K1. cbn [bind]. rewrite K2. cbn [bind writes commands_end].
    split; [split|].
    - exists b. rewrite write_other by discriminate. auto.
    - exists (c_bkey T Y). rewrite write_same. split; auto. apply (y_bkey _ _ _ _ YO).
    - intros p P1 P2. rewrite write_other by auto. auto. }
  destruct KR as [(N1 & N2)|[((b & K1 & K2) & N2)|((b & K1 & K2) & (b' & K3 & K4))]].
  - rewrite N1. cbn [commands_end]. intros coin.
    erewrite C51_manual; [| |apply (man_genkey T Y spot f [] coin sk)].
    2:{ line [Opt "--out" sk]. }
    unfold do_genkey. cbn [bind writes]. rewrite write_other, N2 by discriminate.
    specialize (GB (write f sk (c_skey T Y))). cbn [commands_end] in GB |- *. intros coin1.
    assert (G : forall p, p <> sk -> write f sk (c_skey T Y) p = f p) by (intros; apply write_other; auto).
    lapply GB; [clear GB; intros GB|rewrite write_other by discriminate; auto].
    lapply GB; [clear GB; intros GB|exists (c_skey T Y); rewrite write_same; split; auto; apply (y_skey _ _ _ _ YO)].
    specialize (GB G coin1). destruct (main T Y spot _ [] coin1 _) as [[f'|t|c]|e]; cbn in GB |- *; try tauto.
    + destruct GB. apply MAIN; auto.
    + destruct GB. apply MAIN; auto.
    + destruct GB as (r & R1 & R2). exists r. split; auto. destruct r; [destruct R2; apply MAIN; auto|tauto].
  - rewrite K1, N2. cbn [commands_end]. intros coin1.
    specialize (GB f N2 (ex_intro _ b (conj K1 K2)) (fun p _ => eq_refl) coin1). cbn [commands_end] in GB.
    destruct (main T Y spot _ [] coin1 _) as [[f'|t|c]|e]; cbn in GB |- *; try tauto.
    + destruct GB. apply MAIN; auto.
    + destruct GB. apply MAIN; auto.
    + destruct GB as (r & R1 & R2). exists r. split; auto. destruct r; [destruct R2; apply MAIN; auto|tauto].
  - rewrite K1, K3. apply MAIN; auto. split; eauto.
Qed.
End Script.

(** * The specifications in test/ *)
(** The automaton that the program reads from a text. *)
Definition automaton (spec : text) (g : Graph) : Prop := from_istream spec = Ok g.

(** test/10.spec and test/10_rev.spec: the number of ones is a multiple of nine. *)
Definition ones (w : list bool) : nat := length (filter (fun b => b) w).
Lemma spec_10_run w : exists g, automaton spec_10 g /\ wf_graph g /\ size g = 9 /\ accepts g w = Ok (ones w mod 9 =? 0).
Proof.
  destruct (from_istream spec_10) as [g|e] eqn:EG; [|vm_compute in EG; discriminate].
  exists g. split; [exact EG|]. vm_compute in EG. injection EG as <-.
  match goal with |- wf_graph ?g /\ _ => set (G := g) end.
  assert (WF : wf_graph G).
  { refine (from_istream_wf spec_10 G _ _); [vm_compute; reflexivity|discriminate]. }
  split; [exact WF|]. split; [reflexivity|].
  assert (S : forall q, q < 9 -> forall b, next_state G q b = Ok ((q + if b then 1 else 0) mod 9)).
  { intros q H b. do 9 (destruct q as [|q]; [destruct b; reflexivity|]). lia. }
  assert (R : forall w q, q < 9 -> run_from G q w = Ok ((q + ones w) mod 9)).
  { clear w. induction w as [|b w IH]; intros q H; cbn [run_from].
    - change (ones []) with 0. rewrite Nat.add_0_r, Nat.mod_small by lia. reflexivity.
    - change (run_from G q (b :: w)) with (do q' <- next_state G q b; run_from G q' w). rewrite S by auto. cbn [bind]. rewrite IH by (apply Nat.mod_upper_bound; lia). rewrite Nat.add_mod_idemp_l by lia.
      unfold ones. destruct b; cbn [filter length]; do 2 f_equal; lia. }
  unfold accepts. rewrite (R w (initial_state G)) by (cbn; lia). cbn [bind initial_state g_init G Nat.add].
  assert (M : ones w mod 9 < 9) by (apply Nat.mod_upper_bound; lia).
  destruct (ones w mod 9) as [|k]; [reflexivity|]. do 8 (destruct k as [|k]; [reflexivity|]). lia.
Qed.
Theorem C62_spec_10 g : automaton spec_10 g -> forall w, accepts g w = Ok (ones w mod 9 =? 0).
Proof. intros A w. destruct (spec_10_run w) as (g' & A' & _ & _ & H). unfold automaton in *. congruence. Qed.

Lemma bisimilar (R : list (nat * nat)) g h :
  In (initial_state g, initial_state h) R ->
  (forall p q, In (p, q) R -> is_final_state g p = is_final_state h q /\
     forall b, exists p' q', next_state g p b = Ok p' /\ next_state h q b = Ok q' /\ In (p', q') R) ->
  forall w, accepts g w = accepts h w.
Proof.
  intros HI HS. unfold accepts. revert HI. generalize (initial_state g) as p, (initial_state h) as q. intros p q HI w.
  revert p q HI. induction w as [|b w IH]; intros p q HI; cbn [run_from].
  - cbn [bind]. apply HS. exact HI.
  - destruct (HS p q HI) as (_ & K). destruct (K b) as (p' & q' & E1 & E2 & H).
    change (run_from g p (b :: w)) with (do p' <- next_state g p b; run_from g p' w).
    change (run_from h q (b :: w)) with (do q' <- next_state h q b; run_from h q' w).
    rewrite E1, E2. cbn [bind]. apply IH. exact H.
Qed.

(** Each mirrored specification accepts exactly the mirrored words. *)
Theorem C62_mirrored g r : (automaton spec_01 g /\ automaton spec_01_rev r) \/ (automaton spec_10 g /\ automaton spec_10_rev r) ->
  forall w, accepts r (rev w) = accepts g w.
Proof.
  intros [[A1 A2]|[A1 A2]] w; unfold automaton in *.
  - assert (WR : wf_graph r).
    { refine (from_istream_wf _ _ A2 _). vm_compute in A2. injection A2 as <-. discriminate. }
    destruct (reversed_correct r WR) as (h & EH & _ & A & _).
    destruct (A (rev w)) as (b & B1 & B2). rewrite rev_involutive in B2. rewrite B1, <- B2. clear A B1 B2 b.
    apply (bisimilar [(1, 1); (5, 7); (6, 8); (4, 4); (1, 5); (2, 6); (3, 3); (2, 2); (0, 0)]).
    + assert (EH' : (do r <- from_istream spec_01_rev; reversed r) = Ok h) by (rewrite A2; exact EH).
      vm_compute in EH'. injection EH' as <-. vm_compute in A1. injection A1 as <-. cbn. tauto.
    + assert (EH' : (do r <- from_istream spec_01_rev; reversed r) = Ok h) by (rewrite A2; exact EH).
      vm_compute in EH'. injection EH' as <-. vm_compute in A1. injection A1 as <-.
      intros p q HI. cbn in HI. repeat (destruct HI as [[= <- <-]|HI];
        [split; [reflexivity|]; intros [|]; eexists; eexists; (split; [reflexivity|]); (split; [reflexivity|]); cbn; tauto|]).
      destruct HI.
  - assert (r = g) as -> by (change spec_10_rev with spec_10 in A2; congruence).
    rewrite !(C62_spec_10 g A1). unfold ones. do 2 f_equal. f_equal.
    induction w as [|b w IH]; [reflexivity|]. cbn [rev]. rewrite filter_app, app_length, IH.
    destruct b; cbn; lia.
Qed.

(** The words of the comments in the script, with any number of repetitions. *)
Lemma times_run g q u k : run_from g q u = Ok q -> run_from g q (times u k) = Ok q.
Proof.
  intros H. induction k as [|k IH]; [reflexivity|]. unfold times in *. cbn [repeat concat]. rewrite run_from_app, H. exact IH.
Qed.
Theorem C62_families g : automaton spec_01 g ->
  let I := true in let O := false in
  forall k m,
  accepts g (times [I; I] k) = Ok true /\
  accepts g (times [I; O] (S k)) = Ok false /\
  accepts g (times [O; O; I; O; O; I; O; I; I; I] k) = Ok true /\
  accepts g ([I; O] ++ times [O; O; I; O] k ++ [O; I] ++ times [O; O; O; I] m) = Ok false.
Proof.
  intros A I O k m. unfold automaton in A. vm_compute in A. injection A as <-.
  match goal with |- accepts ?g _ = _ /\ _ => set (G := g) end. unfold accepts. subst I O.
  split; [|split; [|split]].
  - rewrite times_run; reflexivity.
  - change (times [true; false] (S k)) with ([true; false] ++ times [true; false] k). rewrite run_from_app.
    change (run_from G (initial_state G) [true; false]) with (Ok 3). cbn [bind].
    rewrite (times_run G 3 [true; false] k); reflexivity.
  - rewrite times_run; reflexivity.
  - rewrite run_from_app. change (run_from G (initial_state G) [true; false]) with (Ok 3). cbn [bind].
    rewrite run_from_app, times_run by reflexivity. cbn [bind]. rewrite run_from_app.
    change (run_from G 3 [false; true]) with (Ok 4). cbn [bind]. rewrite times_run; reflexivity.
Qed.

(** * The checks of the script *)
Definition installed (f : fs) : Prop := forall p b, In (p, b) test_files -> f (lit p) = Some b.
(** The budgets for automata of nine states and words of at most 8004 letters. *)
Definition budgets (T : tfhe) (Y : crypto T) (E : noise) : Prop :=
  back_margin E (N.to_nat 8000) /\ flut_margin (9 * 2 ^ 7) 15 1 E /\ (forall g, size g = 9 -> block_margin g 15 E) /\
  2 ^ 8 <= t_n1 T /\ (Z.of_nat (c_words T Y) < 2 ^ 40)%Z.

Lemma packs2 bytes : Forall2 (packs 2) (map (fun b => [N.testbit_nat b 0; N.testbit_nat b 1]) bytes) (map (fun b => [b]) bytes).
Proof.
  induction bytes as [|b bytes IH]; constructor; auto. split; [reflexivity|]. split; [cbn; lia|].
  intros [|[|i]] x H; cbn in H; try (injection H as <-; exists b; split; reflexivity). destruct i; discriminate.
Qed.
Lemma packs9 (l : N) k : Forall2 (packs 9) (repeat (repeat true 8 ++ [N.testbit_nat l 0]) k) (repeat [255%N; l] k).
Proof.
  induction k as [|k IH]; constructor; auto. split; [reflexivity|]. split; [cbn; lia|].
  intros i x H. do 8 (destruct i as [|i]; [cbn in H; injection H as <-; exists 255%N; split; reflexivity|]).
  destruct i as [|i]; [cbn in H; injection H as <-; exists l; split; reflexivity|]. cbn in H. destruct i; discriminate.
Qed.
Lemma concat_single {A} (l : list A) : concat (map (fun b => [b]) l) = l.
Proof. induction l; cbn; congruence. Qed.
Lemma width_le g n k : wf_graph g -> width g n k -> k <= size g.
Proof.
  intros WG (l & ND & <- & HL). rewrite <- (seq_length (size g) 0). apply NoDup_incl_length; auto.
  intros q H. apply HL in H as (w & _ & H). apply in_seq. split; [lia|]. cbn.
  rewrite (run_from_run g w (initial_state g)) in H by auto using init_lt. injection H as <-. apply run_lt; auto using init_lt.
Qed.
Definition bits2 (bytes : list N) : list bool := concat (map (fun b => [N.testbit_nat b 0; N.testbit_nat b 1]) bytes).
Lemma bits2_length bytes : length (bits2 bytes) = 2 * length bytes.
Proof. unfold bits2. induction bytes as [|b l IH]; [reflexivity|]. cbn [map concat]. rewrite app_length, IH. cbn [length]. lia. Qed.

Section Mono.
Context (T : tfhe) (Y : crypto T) (spot : spot_lib).
Lemma commands_end_mono cmds : forall f out (Q Q' : res (fs * text) -> Prop), (forall r, Q r -> Q' r) ->
  commands_end T Y spot f cmds out Q -> commands_end T Y spot f cmds out Q'.
Proof.
  induction cmds as [|argv cmds IH]; intros f out Q Q' H; cbn [commands_end]; auto.
  intros K coin. specialize (K coin). destruct (main T Y spot f [] coin argv) as [[f'|t|c]|e]; eauto.
  destruct K as (r & R1 & R2). exists r. split; auto. destruct r; eauto.
Qed.
Lemma checks_end_mono l : forall f (Q Q' : res fs -> Prop), (forall r, Q r -> Q' r) ->
  checks_end T Y spot f l Q -> checks_end T Y spot f l Q'.
Proof.
  induction l as [|t l IH]; intros f Q Q' H; cbn [checks_end]; auto.
  apply commands_end_mono. intros [[f' r]|e]; auto. destruct (path_eqb _ _); eauto.
Qed.
Lemma unless_mono f n a (Q Q' : res fs -> Prop) : (forall r, Q r -> Q' r) -> unless_there T Y spot f n a Q -> unless_there T Y spot f n a Q'.
Proof. intros H. unfold unless_there. destruct (f n); auto. apply commands_end_mono. intros [[f' r]|e]; auto. Qed.
Lemma script_ends_mono f l (Q Q' : res fs -> Prop) : (forall r, Q r -> Q' r) -> script_ends T Y spot f l Q -> script_ends T Y spot f l Q'.
Proof.
  intros H. unfold script_ends. apply unless_mono. intros [f1|e]; auto. apply unless_mono. intros [f2|e]; auto.
  apply checks_end_mono. exact H.
Qed.
End Mono.

Ltac find := unfold test_files; repeat (first [apply in_eq | apply in_cons]).
Ltac lengths := first [apply Nat.ltb_lt | apply Z.leb_le]; vm_compute; reflexivity.
Ltac apart := let H := fresh in intros H; repeat (destruct H as [H|H]; [discriminate H|]); destruct H.
Section Shipped.
Context (T : tfhe) (s0 s1 : list Z) (bit : trgsw T -> bool -> Prop) (E : noise) (Y : crypto T) (spot : spot_lib).
Hypothesis OK : tfhe_ok T s0 s1 bit E.
Hypothesis NN : noise_nonneg E.
Hypothesis YO : crypto_ok T Y s1 bit.
Context (f : fs).
Hypothesis IN : installed f.
Hypothesis BU : budgets T Y E.

Lemma fits_nine m g w : wf_graph g -> size g = 9 -> 0 < length w -> (Z.of_nat (length w) <= 8004)%Z -> fits T Y E m g w.
Proof.
  intros WG SZ L0 LW. destruct BU as (B1 & B2 & B3 & B4 & B5).
  assert (F : (Z.of_nat (length w * (c_words T Y * 8)) < 2 ^ 64)%Z).
  { rewrite !Nat2Z.inj_mul. apply Z.le_lt_trans with (8004 * (2 ^ 40 * 8))%Z; [|reflexivity].
    apply Z.mul_le_mono_nonneg; try lia. }
  assert (L : Nat.log2 (size g) + 1 = 4) by (rewrite SZ; reflexivity).
  destruct m; cbn [fits]; auto.
  - repeat split; auto. lia.
  - rewrite SZ. repeat split; auto. intros n k _ K. apply (width_le g) in K; auto. rewrite SZ in K.
    apply Nat.le_lt_trans with 9; auto. apply Nat.ltb_lt. reflexivity.
  - rewrite L. split; [auto|]. split; [|split; [lia|split; [|auto]]].
    + apply Nat.lt_le_trans with (2 ^ 8); auto. apply Nat.ltb_lt. reflexivity.
    + destruct w; [cbn in L0; lia|discriminate].
Qed.
Lemma file_graph p spec g : In (p, map N_of_ascii spec) test_files -> automaton spec g -> from_file f (lit p) = Ok g.
Proof.
  intros H A. unfold from_file, open_file. rewrite (IN _ _ H). cbn [bind]. rewrite ascii_N_text. exact A.
Qed.

Lemma check2 ex m sp spec g p bytes v : In (sp, map N_of_ascii spec) test_files -> automaton spec g -> size g = 9 ->
  In (p, bytes) test_files -> 0 < length bytes -> (Z.of_nat (length bytes) <= 4002)%Z -> ~ In (lit sp) scratch -> ~ In (lit p) scratch ->
  accepts g (reading m (bits2 bytes)) = Ok v ->
  verdict T Y E f (mkTest ex m (lit "2") (lit sp) (lit p)) v.
Proof.
  intros H1 A SZ H2 L0 LB N1 N2 AC. exists 2, g, (bits2 bytes). cbn [t_ap t_spec t_in t_mode].
  split; [split; [split; reflexivity|lia]|]. split; [|split; [|split; [|split]]]; auto.
  - split; [eapply file_graph; eauto|]. split; [lia|]. split; [lia|].
    exists (map (fun b => [N.testbit_nat b 0; N.testbit_nat b 1]) bytes), (map (fun b => [b]) bytes).
    split; [apply packs2|]. split; [|reflexivity]. rewrite concat_single. apply IN. exact H2.
  - apply fits_nine; auto.
    + eapply from_file_wf; [exact (file_graph sp spec g H1 A)|lia].
    + rewrite bits2_length. lia.
    + rewrite bits2_length. lia.
Qed.
Lemma check9 ex m g p l k v : automaton spec_10 g -> size g = 9 ->
  In (p, times [255%N; l] k) test_files -> 0 < k <= 100 -> ~ In (lit p) scratch ->
  accepts g (reading m (times (repeat true 8 ++ [N.testbit_nat l 0]) k)) = Ok v ->
  verdict T Y E f (mkTest ex m (lit "9") (lit "test/10.spec") (lit p)) v.
Proof.
  intros A SZ H2 LB N2 AC.
  assert (L9 : length (times (repeat true 8 ++ [N.testbit_nat l 0]) k) = 9 * k).
  { assert (LU : length (repeat true 8 ++ [N.testbit_nat l 0]) = 9) by reflexivity. revert LU. generalize (repeat true 8 ++ [N.testbit_nat l 0]).
    clear. intros u LU. unfold times. induction k as [|k IH]; [reflexivity|]. cbn [repeat concat]. rewrite app_length, IH. lia. }
  exists 9, g, (times (repeat true 8 ++ [N.testbit_nat l 0]) k). cbn [t_ap t_spec t_in t_mode].
  split; [split; [split; reflexivity|lia]|]. split; [|split; [|split; [|split]]]; auto.
  - split; [eapply (file_graph "test/10.spec"); eauto; cbn; auto|]. split; [lia|]. split; [lia|].
    exists (repeat (repeat true 8 ++ [N.testbit_nat l 0]) k), (repeat [255%N; l] k).
    split; [apply packs9|]. split; [|reflexivity]. apply IN. exact H2.
  - cbn. intros [H|[H|[H|[H|[]]]]]; discriminate.
  - apply fits_nine; auto.
    + eapply from_file_wf; [eapply (file_graph "test/10.spec"); eauto; cbn; auto|lia].
    + rewrite L9. lia.
    + rewrite L9. lia.
Qed.

(** The script as it is succeeds. *)
Theorem C62_shipped : keys_ready Y f -> script_ends T Y spot f checks (fun r => exists f', r = Ok f').
Proof.
  intros KR.
  destruct (from_istream spec_01) as [g1|e] eqn:A1; [|vm_compute in A1; discriminate].
  destruct (from_istream spec_01_rev) as [r1|e] eqn:A2; [|vm_compute in A2; discriminate].
  destruct (from_istream spec_10) as [g2|e] eqn:A3; [|vm_compute in A3; discriminate].
  assert (S1 : size g1 = 9) by (pose proof A1 as K; vm_compute in K; injection K as <-; reflexivity).
  assert (S2 : size r1 = 9) by (pose proof A2 as K; vm_compute in K; injection K as <-; reflexivity).
  assert (S3 : size g2 = 9) by (pose proof A3 as K; vm_compute in K; injection K as <-; reflexivity).
  assert (D1 : forall bytes v, (do g <- from_istream spec_01; accepts g (bits2 bytes)) = Ok v -> accepts g1 (bits2 bytes) = Ok v)
    by (intros bytes v; rewrite A1; auto).
  assert (D2 : forall bytes v, (do g <- from_istream spec_01_rev; accepts g (rev (bits2 bytes))) = Ok v -> accepts r1 (rev (bits2 bytes)) = Ok v)
    by (intros bytes v; rewrite A2; auto).
  assert (D3 : forall u v, (do g <- from_istream spec_10; accepts g u) = Ok v -> accepts g2 u = Ok v)
    by (intros u v; rewrite A3; auto).
  eapply script_ends_mono; [|apply (C62_script T s0 s1 bit E Y spot OK NN YO f checks (map t_expect checks) KR)].
  { intros r ((_ & H) & _). apply H. reflexivity. }
  unfold checks. cbv zeta. cbn [map t_expect].
  repeat (apply Forall2_cons;
    [first [eapply (check2 _ _ "test/01.spec" spec_01 g1);
              [find|exact A1|exact S1|find|lengths|lengths|apart|apart|apply D1; vm_compute; reflexivity]
           |eapply (check2 _ _ "test/01_rev.spec" spec_01_rev r1);
              [find|exact A2|exact S2|find|lengths|lengths|apart|apart|apply D2; vm_compute; reflexivity]
           |eapply (check9 _ _ g2); [exact A3|exact S3|find|lia|apart|apply D3; vm_compute; reflexivity]]|]).
  apply Forall2_nil.
Qed.
End Shipped.

(** The round trip through the AT&T format in the script (test_homfa.sh:77-80): nine lines. *)
Theorem C62_att : exists att spec, do_spec2att spec_01 = Ok att /\ do_att2spec att = Ok spec /\
  length (filter (fun c => if ascii_dec c c_nl then true else false) spec) = 9.
Proof. eexists. eexists. split; [vm_compute; reflexivity|]. split; vm_compute; reflexivity. Qed.

(** bench.sh and bench_ltl.sh name subcommands that the program does not have. *)
Theorem C62_bench_refuted T Y spot f stdin coin :
  (forall spec, main T Y spot f stdin coin (bench_run spec) = Fail FExit) /\
  main T Y spot f stdin coin bench_ltl_run = Fail FExit.
Proof. split; reflexivity. Qed.

(** * The hypotheses are met *)
Definition big_s1 : list Z := concat (repeat [1; 0; 1; 1; 0; 0; 1; 0]%Z 32).
Definition big_T : tfhe := toy 3 256 [1; 0; 1]%Z big_s1 1.
Definition big_Y : crypto big_T := mkCrypto big_T 1
  (fun b : bool => [if b then 1 else 0]%N) (fun l => match l with [1%N] => true | _ => false end)
  (fun _ b => b) big_s1 [7]%N [8]%N
  (fun l => match l with [7%N] => true | _ => false end) (fun l => match l with [8%N] => Some (true, true) | _ => None end).
Definition big_f : fs := fold_right (fun '(p, b) f => write f (lit p) b) (fun _ => None) test_files.
Example C62_hyps : tfhe_ok big_T [1; 0; 1]%Z big_s1 (fun c b => c = b) (toy_noise 1) /\ noise_nonneg (toy_noise 1) /\
  crypto_ok big_T big_Y big_s1 (fun c b => c = b) /\ installed big_f /\ budgets big_T big_Y (toy_noise 1) /\ keys_ready big_Y big_f.
Proof.
  split; [apply toy_ok; lia|]. split; [unfold noise_nonneg; cbn; lia|]. split.
  - constructor; try solve [cbn; lia]; try solve [reflexivity]; cbn.
    all: intros _ [|]; try reflexivity; (split; [reflexivity|]); repeat constructor.
  - split; [|split].
    + intros p b H. unfold test_files in H. repeat (destruct H as [[= <- <-]|H]; [reflexivity|]). destruct H.
    + split; [vm_compute; reflexivity|]. split; [vm_compute; reflexivity|]. split; [|split; [apply Nat.leb_le; vm_compute; reflexivity|reflexivity]].
      intros g S. unfold block_margin, block_noise. rewrite S. vm_compute. reflexivity.
    + left. split; reflexivity.
Qed.
Example C62_nonvacuous (spot : spot_lib) : length checks = 46 /\
  script_ends big_T big_Y spot big_f checks (fun r => exists f', r = Ok f').
Proof.
  split; [reflexivity|]. destruct C62_hyps as (H1 & H2 & H3 & H4 & H5 & H6).
  exact (C62_shipped big_T _ _ _ _ big_Y spot H1 H2 H3 big_f H4 H5 H6).
Qed.
(** A wrong expectation makes the script fail. *)
Example C62_wrong_expectation (spot : spot_lib) :
  script_ends big_T big_Y spot big_f [mkTest false dfa_plain (lit "2") (lit "test/01.spec") (lit "test/01-07.in")] (fun r => exists e, r = Fail e).
Proof.
  destruct C62_hyps as (H1 & H2 & H3 & H4 & H5 & H6).
  eapply script_ends_mono; [|apply (C62_script big_T _ _ _ _ big_Y spot H1 H2 H3 big_f _ [true] H6)].
  - intros [f'|e] ((A & _) & _); [|eauto]. exfalso. assert (K := A (ex_intro _ f' eq_refl)). discriminate K.
  - constructor; [|constructor].
    destruct (from_istream spec_01) as [g1|e] eqn:A1; [|vm_compute in A1; discriminate].
    eapply (check2 big_T (toy_noise 1) big_Y big_f H4 H5 _ _ "test/01.spec" spec_01 g1); [find|exact A1| |find|lengths|lengths|apart|apart|].
    + pose proof A1 as K. vm_compute in K. injection K as <-. reflexivity.
    + vm_compute in A1. injection A1 as <-. reflexivity.
Qed.

Print Assumptions C62_script.
Print Assumptions C62_spec_10.
Print Assumptions C62_mirrored.
Print Assumptions C62_families.
Print Assumptions C62_shipped.
Print Assumptions C62_att.
Print Assumptions C62_bench_refuted.
