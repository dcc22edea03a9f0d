(** C74: what the benchmark program has printed at any moment, also when it is killed or stops with an error. *)
From Coq Require Import String.
From Coq Require Import List Arith Bool NArith ZArith Ascii Lia.
Import ListNotations.
From Verif Require Import Base BaseFacts GraphModel Spec GraphFacts TextModel DotModel BitsModel TorusModel TfheSpec TfheFacts
  RunnerModel RunnerFacts LookupFacts RunnerSpec ReachFacts ParFacts FlutFacts PropsRunner InputSpec PropsInput TimeModel CmdModel CmdSpec
  PropsCmd MainModel BenchModel BenchSpec BenchFacts BenchFacts2 PropsBench PropsBench2 PropsBench3 BenchManual BenchOutModel BenchOutFacts BenchOutFacts2 BenchOutCli.
Local Open Scope list_scope.

(** The results that have been printed are right: those of the first multiples of [freq]. *)
Definition right_so_far (verdict : list bool -> res bool) (w : list bool) (freq : nat) (vs : list text) : Prop :=
  Forall2 (fun v m => exists b, verdict (firstn m w) = Ok b /\ shows v b) vs (firstn (length vs) (multiples freq (length w))).

(** The outcome of a run, as in BenchModel.v: the output counts only if there is no failure. *)
Definition outcome {A} (x : list line * res A) : res (list line * A) :=
  match x with (out, Ok a) => Ok (out, a) | (_, Fail e) => Fail e end.

(** * The two models of the program agree. *)
Theorem C74_same T Y clock times f now argv :
  bench_main T Y clock times f now argv = outcome (bench_main_t T Y clock times f now argv).
Proof.
  unfold bench_main, bench_main_t, tbind, tres, say. destruct (b_parse_from false f argv) as [A|e]; [|reflexivity]. cbn [bind].
  rewrite dispatch_ends. unfold ends. destruct (b_dispatch_t _ _ _ _ _ _ _) as [o [s|e]]; reflexivity.
Qed.

(** * The command line: a line of the manual prints the date and runs its method, and any other prints nothing. *)
Theorem C74_manual T Y clock times f now argv c o r : bench_line argv c o -> prints_manual T Y clock times f now c o r ->
  bench_main_t T Y clock times f now argv = r.
Proof. apply prints_manual_main. Qed.
Theorem C74_rejected T Y clock times f now argv :
  (exists c o r, bench_line argv c o /\ prints_manual T Y clock times f now c o r) \/
  bench_main_t T Y clock times f now argv = ([], Fail FExit) \/
  (bench_main_t T Y clock times f now argv = ([], Fail FUndefined) /\ bench_outside argv).
Proof. apply prints_cases. Qed.

Lemma ends_ok {A} (m : traced A) out o a : ends m out = Ok (o, a) -> m out = (o, Ok a).
Proof. unfold ends. destruct (m out) as [o' [a'|e]]; cbn [bind]; congruence. Qed.

(** * The configuration comes first, whatever happens afterwards. *)
Definition tells (keys : list string) (config : list line) (m : traced (option (list sample))) : Prop :=
  forall out, exists rest, fst (m out) = out ++ config ++ rest /\ Forall (fun l => In (fst l) (map lit keys)) rest.
Definition only {A} (keys : list string) (m : traced A) : Prop := forall out, grows keys out (fst (m out)).
Lemma grows_trans keys a b c : grows keys a b -> grows keys b c -> grows keys a c.
Proof.
  intros (r1 & -> & F1) (r2 & -> & F2). exists (r1 ++ r2). rewrite <- app_assoc. split; [reflexivity|]. apply Forall_app. auto.
Qed.
Lemma only_bind {A B} keys (m : traced A) (k : A -> traced B) : only keys m -> (forall a, only keys (k a)) -> only keys (tbind m k).
Proof.
  intros H1 H2 out. specialize (H1 out). unfold tbind. destruct (m out) as [o [a|e]]; cbn [fst] in *; [|exact H1].
  eapply grows_trans; [exact H1|apply H2].
Qed.
Lemma only_res {A} keys (r : res A) : only keys (tres r).
Proof. intros out. apply grows_refl. Qed.
Lemma only_ret {A} keys (a : A) : only keys (tret a).
Proof. intros out. apply grows_refl. Qed.
Lemma only_lines keys : only keys lines_so_far.
Proof. intros out. apply grows_refl. Qed.
Lemma only_say keys k v : In k keys -> only keys (say k v).
Proof. intros H out. apply grows_print; [exact H|apply grows_refl]. Qed.
Lemma only_elapsed keys c k : In k keys -> only keys (say_elapsed c k).
Proof. intros H out. apply grows_print; [exact H|apply grows_refl]. Qed.
Lemma only_fold {A S} keys (f : S -> A -> traced S) l : (forall s a, only keys (f s a)) -> forall s, only keys (tfoldM f l s).
Proof. intros H. induction l as [|a l IH]; intros s; cbn [tfoldM]; [apply only_ret|]. apply only_bind; auto. Qed.
Lemma only_each {S} keys (f : S -> bool -> traced S) bytes ap : (forall s a, only keys (f s a)) -> forall s, only keys (each_bit bytes ap f s).
Proof.
  intros H s out. unfold each_bit. rewrite file_bits_tfold. apply only_bind; [apply only_fold, H|]. intros s'. apply only_res.
Qed.
Lemma only_step (T : tfhe) Y clock keys {R} (step : R -> trgsw T -> traced (bool * R)) result r b :
  incl ["enc"; "run"; "dec"; "result"]%string keys -> (forall r c, only keys (step r c)) ->
  only keys (enc_run_dec T Y clock step result r b).
Proof.
  intros HK HS. unfold enc_run_dec.
  repeat first [apply only_bind; [|intros ?]|apply only_lines|apply only_elapsed; apply HK; cbn; tauto|apply HS|
    apply only_res|apply only_ret|apply only_say; apply HK; cbn; tauto|
    match goal with |- only _ (let '(_, _) := ?x in _) => destruct x as [[|] ?] end].
Qed.
Lemma tells_intro keys config m m' : (forall out, m out = m' (out ++ config)) -> only keys m' -> tells keys config m.
Proof. intros E H out. destruct (H (out ++ config)) as (rest & ER & F). exists rest. rewrite E, ER, <- app_assoc. auto. Qed.
Ltac keys := repeat first [apply only_bind; [|intros ?]|apply only_res|apply only_ret|apply only_lines|apply only_elapsed; cbn; tauto|apply only_say; cbn; tauto].

Theorem C74_config (T : tfhe) (Y : crypto T) clock times f spec input ap freq interval depth q boot sr san :
  tells plain_keys [(lit "config-method", lit "plain"); (lit "config-spec", spec); (lit "config-input", input);
                    (lit "config-num_ap", show_nat ap)] (do_plain_t f spec input freq ap) /\
  tells cipher_keys [(lit "config-method", lit "offline"); (lit "config-spec", spec); (lit "config-input", input);
                     (lit "config-bootstrapping_freq", show_nat interval); (lit "config-num_ap", show_nat ap);
                     (lit "config-sanitize_result", show_bool san)] (do_offline_t T Y clock f spec input interval ap san) /\
  tells cipher_keys [(lit "config-method", lit "reversed"); (lit "config-spec", spec); (lit "config-input", input);
                     (lit "config-output_freq", show_nat freq); (lit "config-bootstrapping_freq", show_nat interval);
                     (lit "config-num_ap", show_nat ap); (lit "config-sanitize_result", show_bool san)]
    (do_reversed_t T Y clock times f spec input freq interval ap sr san) /\
  tells qtrlwe2_keys [(lit "config-method", lit "qtrlwe2"); (lit "config-spec", spec); (lit "config-input", input);
                      (lit "config-output_freq", show_nat freq); (lit "config-max_second_lut_depth", show_nat depth);
                      (lit "config-queue_size", show_nat q); (lit "config-bootstrapping_freq", show_nat boot);
                      (lit "config-num_ap", show_nat ap); (lit "config-sanitize_result", show_bool san)]
    (do_qtrlwe2_t T Y clock f spec input freq depth q boot ap san) /\
  tells bbs_keys [(lit "config-method", lit "bbs"); (lit "config-spec", spec); (lit "config-input", input);
                  (lit "config-output_freq", show_nat freq); (lit "config-queue_size", show_nat q);
                  (lit "config-num_ap", show_nat ap); (lit "config-sanitize_reuslt", show_bool san)]
    (do_bbs_t T Y clock times f spec input freq q ap san).
Proof.
  assert (BN : forall A B (m : traced A) (k : A -> traced B) out, tbind m k out =
     match m out with (o, Ok a) => k a o | (o, Fail e) => (o, Fail e) end) by (intros; unfold tbind; destruct (m out) as [? []]; reflexivity).
  repeat match goal with |- _ /\ _ => split end.
  - eapply tells_intro; [intros out; unfold do_plain_t; do 4 (rewrite BN; unfold say at 1); unfold print; rewrite <- !app_assoc; cbn [app]; reflexivity|].
    keys. apply only_each. intros [cur i] b. keys. destruct (freq =? 0); [apply only_res|]. destruct (_ =? 0); keys.
    match goal with |- only _ (if ?x then _ else _) => destruct x end; keys.
  - eapply tells_intro; [intros out; unfold do_offline_t; do 6 (rewrite BN; unfold say at 1); unfold print; rewrite <- !app_assoc; cbn [app]; reflexivity|].
    keys. apply only_fold. intros r b. keys.
  - eapply tells_intro; [intros out; unfold do_reversed_t; do 7 (rewrite BN; unfold say at 1); unfold print; rewrite <- !app_assoc; cbn [app]; reflexivity|].
    keys. apply only_each. intros r b. apply only_step; [intros k; cbn; tauto|]. intros r' c. unfold bench2_step. keys.
  - eapply tells_intro; [intros out; unfold do_qtrlwe2_t; do 9 (rewrite BN; unfold say at 1); unfold print; rewrite <- !app_assoc; cbn [app]; reflexivity|].
    keys. apply only_each. intros r b. apply only_step; [intros k; cbn; tauto|]. intros r' c. unfold bench3_step. keys.
  - eapply tells_intro; [intros out; unfold do_bbs_t; do 7 (rewrite BN; unfold say at 1); unfold print; rewrite <- !app_assoc; cbn [app]; reflexivity|].
    keys. apply only_each. intros r b. apply only_step; [intros k; cbn; tauto|]. intros r' c. unfold bench4_step. keys.
Qed.

(** * A specification that cannot be read, or an input that is not there or not a sequence of whole valuations *)
Definition unusable (f : fs) (spec input : text) (ap : nat) : Prop :=
  (exists e, from_file f spec = Fail e) \/ f input = None \/
  exists bytes, f input = Some bytes /\ length bytes mod ((ap + 7) / 8) <> 0.
(** The program stops with an error and has printed no result. *)
Definition no_result (m : traced (option (list sample))) : Prop :=
  forall out, exists more e, m out = (out ++ more, Fail e) /\ values "result" more = [].
Lemma unusable_cases f spec input ap {S} (func : S -> bool -> res S) s : 0 < ap -> (forall s b, exists s', func s b = Ok s') -> unusable f spec input ap ->
  (exists e, from_file f spec = Fail e) \/ exists e, (do bytes <- open_file f input; each_input_bit bytes ap func s) = Fail e.
Proof.
  intros H0 HF [H|[H|(bytes & E & H)]]; [auto| |]; right; unfold open_file.
  - rewrite H. eexists. reflexivity.
  - rewrite E. cbn [bind]. exists FAssert. destruct (C21_truncated_input ap bytes H0) as (bits & _ & _ & K).
    apply (K S func s HF). exact H.
Qed.
Lemma no_say k v m : values "result" [(lit k, v)] = [] -> no_result m -> no_result (say k v;; m).
Proof.
  intros HK H out. destruct (H (print k v out)) as (more & e & EQ & V). exists ((lit k, v) :: more), e.
  unfold tbind, say. rewrite EQ. unfold print. rewrite <- app_assoc. split; [reflexivity|].
  change ((lit k, v) :: more) with ([(lit k, v)] ++ more). rewrite values_app, HK. exact V.
Qed.
Lemma no_elapsed c k m : values "result" [(lit k, [])] = [] -> no_result m -> no_result (say_elapsed c k;; m).
Proof.
  intros HK H out. destruct (no_say k (c (length out)) m) with (out := out) as (more & e & EQ & V).
  - unfold values in *. cbn [filter] in *. destruct (list_eq_dec _ _ _); [discriminate|reflexivity].
  - exact H.
  - exists more, e. split; [exact EQ|exact V].
Qed.
Lemma no_res {A} (r : res A) k : (forall a, r = Ok a -> no_result (k a)) -> no_result (tbind (tres r) k).
Proof.
  intros H out. unfold tbind, tres. destruct r as [a|e]; [exact (H a eq_refl out)|].
  exists [], e. rewrite app_nil_r. split; reflexivity.
Qed.
Lemma no_fail {A} (r : res A) k : (exists e, r = Fail e) -> no_result (tbind (tres r) k).
Proof. intros (e & ->). apply no_res. discriminate. Qed.
Ltac silent := repeat first [apply no_say; [reflexivity|]|apply no_elapsed; [reflexivity|]].

Theorem C74_unusable (T : tfhe) (Y : crypto T) clock times f spec input ap freq interval depth q boot sr san : 0 < ap ->
  unusable f spec input ap ->
  no_result (do_plain_t f spec input freq ap) /\
  no_result (do_offline_t T Y clock f spec input interval ap san) /\
  no_result (do_reversed_t T Y clock times f spec input freq interval ap sr san) /\
  no_result (do_qtrlwe2_t T Y clock f spec input freq depth q boot ap san) /\
  no_result (do_bbs_t T Y clock times f spec input freq q ap san).
Proof.
  intros H0 HU.
  assert (C1 := unusable_cases f spec input ap (fun n (_ : bool) => Ok (S n)) 0 H0 ltac:(eauto) HU).
  assert (C2 := unusable_cases f spec input ap (fun v (b : bool) => Ok (v ++ [b])) [] H0 ltac:(eauto) HU). clear HU.
  repeat match goal with |- _ /\ _ => split end.
  - unfold do_plain_t. silent. apply no_res. intros gr EG. silent. apply no_res. intros bytes EO. apply no_fail.
    rewrite EG, EO in C1. destruct C1 as [[e C1]|C1]; [discriminate|exact C1].
  - unfold do_offline_t. silent. apply no_res. intros bytes EO. apply no_res. intros bits EB. apply no_fail.
    rewrite EO in C2. cbn [bind] in C2. rewrite EB in C2. destruct C2 as [[e C2]|[e C2]]; [|discriminate].
    unfold offline_bench_new. rewrite C2. eexists. reflexivity.
  - unfold do_reversed_t. silent. apply no_res. intros gr EG. apply no_res. intros r _. silent. apply no_res. intros bytes EO. apply no_fail.
    rewrite EG, EO in C1. destruct C1 as [[e C1]|C1]; [discriminate|exact C1].
  - unfold do_qtrlwe2_t. silent. apply no_res. intros gr EG. apply no_res. intros r _. silent. apply no_res. intros bytes EO. apply no_fail.
    rewrite EG, EO in C1. destruct C1 as [[e C1]|C1]; [discriminate|exact C1].
  - unfold do_bbs_t. silent. apply no_res. intros gr EG. apply no_res. intros r _. silent. apply no_res. intros bytes EO. apply no_fail.
    rewrite EG, EO in C1. destruct C1 as [[e C1]|C1]; [discriminate|exact C1].
Qed.

(** ** With --sanitize-result the methods with ciphertexts stop before they print a result, whatever they are given. *)
Theorem C74_sanitize (T : tfhe) (Y : crypto T) clock times f spec input ap freq interval depth q boot sr :
  no_result (do_offline_t T Y clock f spec input interval ap true) /\
  no_result (do_reversed_t T Y clock times f spec input freq interval ap sr true) /\
  no_result (do_qtrlwe2_t T Y clock f spec input freq depth q boot ap true) /\
  no_result (do_bbs_t T Y clock times f spec input freq q ap true).
Proof.
  destruct (C40_sanitize T) as (S1 & S2 & S3 & S4 & _). repeat match goal with |- _ /\ _ => split end.
  - unfold do_offline_t. silent. apply no_res. intros bytes EO. apply no_res. intros bits EB. apply no_fail. unfold offline_bench_new.
    destruct (from_file f spec) as [gr|e]; cbn [bind]; eauto. destruct (S1 gr (length bits) interval true) as (e & ->). cbn [bind]. eauto.
  - unfold do_reversed_t. silent. apply no_res. intros gr EG. apply no_fail.
    unfold online2_new. destruct (if sr then Ok gr else do r <- reversed gr; minimized r) as [g'|e]; cbn; eauto.
  - unfold do_qtrlwe2_t. silent. apply no_res. intros gr EG. apply no_fail. rewrite S3. eauto.
  - unfold do_bbs_t. silent. apply no_res. intros gr EG. apply no_fail. rewrite S4. eauto.
Qed.

(** * The results printed so far *)
Lemma values_firstn key k : forall l : list line, exists j, values key (firstn k l) = firstn j (values key l).
Proof.
  induction k as [|k IH]; intros [|x l]; try (exists 0; reflexivity). cbn [firstn]. destruct (IH l) as (j & E).
  change (x :: firstn k l) with ([x] ++ firstn k l). change (x :: l) with ([x] ++ l). rewrite !values_app, E.
  unfold values at 1 3. cbn [filter]. destruct (list_eq_dec _ _ _); [exists (S j)|exists j]; reflexivity.
Qed.
Lemma so_far_prefix verdict w freq (l : list line) k : right_so_far verdict w freq (values "result" l) ->
  right_so_far verdict w freq (values "result" (firstn k l)).
Proof.
  unfold right_so_far. destruct (values_firstn "result" k l) as (i & ->). clear k.
  generalize (multiples freq (length w)) as ms. generalize (values "result" l) as vs. revert i.
  intros i vs. revert i. induction vs as [|v vs IH]; intros i ms VR; [rewrite firstn_nil; constructor|].
  destruct ms as [|m ms]; cbn [length firstn] in VR; inversion VR; subst.
  destruct i as [|i]; cbn [firstn length]; constructor; auto.
Qed.
Lemma right_prefix verdict w freq (l : list line) k : right_results verdict w freq (values "result" l) ->
  right_so_far verdict w freq (values "result" (firstn k l)).
Proof.
  intros H. apply so_far_prefix. unfold right_so_far, right_results in *. rewrite (Forall2_len _ _ _ H), firstn_all. exact H.
Qed.

Theorem C74_plain f spec input ap g w freq out : workload f spec input ap g w -> 0 < freq ->
  exists more, do_plain_t f spec input freq ap out = (out ++ more, Ok None) /\
    forall k, right_so_far (accepts g) w freq (values "result" (firstn k more)).
Proof.
  intros HW HF. destruct (C55_plain f spec input ap g w freq out HW HF) as (more & E & R & _). exists more.
  rewrite plain_ends in E. apply ends_ok in E. split; [exact E|]. intros k. apply right_prefix, R.
Qed.

Section Encrypted.
Context (T : tfhe) (s0 s1 : list Z) (bit : trgsw T -> bool -> Prop) (E : noise) (Y : crypto T).
Hypothesis OK : tfhe_ok T s0 s1 bit E.
Hypothesis NN : noise_nonneg E.
Hypothesis HY : crypto_ok T Y s1 bit.
Context (clock : nat -> text) (times : nat -> Z).
Context (f : fs) (spec input : text) (ap : nat) (g : Graph) (w : list bool).
Hypothesis HW : workload f spec input ap g w.

Theorem C74_offline interval out : w <> [] ->
  (0 < interval)%nat -> back_margin E interval -> (Z.of_nat (length w) < 2 ^ 31)%Z ->
  exists more b, do_offline_t T Y clock f spec input interval ap false out = (out ++ more, Ok None) /\ accepts g w = Ok b /\
    forall k, values "result" (firstn k more) = [] \/ values "result" (firstn k more) = [show_bool b].
Proof.
  intros H1 H2 H3 H4. destruct (C55_offline T s0 s1 bit E Y OK NN HY clock f spec input ap g w HW interval out H1 H2 H3 H4)
    as (more & b & EQ & A & V & _). exists more, b. rewrite offline_ends in EQ. apply ends_ok in EQ. split; [exact EQ|]. split; [exact A|].
  intros k. destruct (values_firstn "result" k more) as (j & ->). rewrite V. destruct j as [|[|j]]; cbn; auto.
Qed.
Theorem C74_reversed interval freq (sr : bool) out : 0 < freq -> 0 < interval -> back_margin E interval ->
  exists more samples, do_reversed_t T Y clock times f spec input freq interval ap sr false out = (out ++ more, Ok (Some samples)) /\
    forall k, right_so_far (fun u => accepts g (if sr then rev u else u)) w freq (values "result" (firstn k more)).
Proof.
  intros H1 H2 H3.
  destruct (C55_reversed T s0 s1 bit E Y OK NN HY clock times f spec input ap g w HW interval freq sr out H1 H2 H3)
    as (more & samples & m & EQ & R & _). exists more, samples. rewrite reversed_ends in EQ. apply ends_ok in EQ. split; [exact EQ|].
  intros k. apply (right_prefix (fun u => accepts g (if sr then rev u else u))), R.
Qed.
Theorem C74_bbs freq q out : 0 < freq ->
  block_margin g q E -> Nat.log2 (size g) + 1 < t_n1 T -> Nat.log2 (size g) + 1 < 31 ->
  exists more samples, do_bbs_t T Y clock times f spec input freq q ap false out = (out ++ more, Ok (Some samples)) /\
    forall k, right_so_far (accepts g) w freq (values "result" (firstn k more)).
Proof.
  intros H1 H2 H3 H4.
  destruct (C55_bbs T s0 s1 bit E Y OK NN HY clock times f spec input ap g w HW freq q out H1 H2 H3 H4)
    as (more & samples & EQ & R & _). exists more, samples. rewrite bbs_ends in EQ. apply ends_ok in EQ. split; [exact EQ|].
  intros k. apply right_prefix, R.
Qed.

(** qtrlwe2 stops at the first evaluation of the queue after which 2^depth or more states are possible, if
    there is one, while it handles the input of the same number; every result due before has been printed. *)
Theorem C74_qtrlwe2 freq depth q boot out : 0 < freq ->
  0 < q < 31 -> 0 < boot -> depth < 31 -> table_fits (t_n1 T) depth q g ->
  flut_margin (size g * 2 ^ (q / 2)) q boot E ->
  let evaluations := flushes q 0 0 (schedule freq 0 w) in
  exists more, (forall k, right_so_far (accepts g) w freq (values "result" (firstn k more))) /\
  ((do_qtrlwe2_t T Y clock f spec input freq depth q boot ap false out = (out ++ more, Ok None) /\
    length (values "result" more) = length (multiples freq (length w)) /\
    forall n k, In n evaluations -> width g n k -> k < 2 ^ depth) \/
   exists n k, do_qtrlwe2_t T Y clock f spec input freq depth q boot ap false out = (out ++ more, Fail FExit) /\
     In n evaluations /\ width g n k /\ 2 ^ depth <= k /\
     (forall m k, In m evaluations -> m < n -> width g m k -> k < 2 ^ depth) /\
     length (values "result" more) = length (multiples freq (n - 1)) /\
     Forall2 (fun v m => exists k, width g m k /\ v = show_nat k)
       (values "num_live_states" more) (firstn n (consumed q 0 0 (schedule freq 0 w)))).
Proof.
  intros HF HQ HB HD HN HM. cbv zeta. destruct (workload_facts _ _ _ _ _ _ HW) as (EF & WG & bytes & EO & EB).
  destruct (flut_new_inv T s0 s1 bit E OK NN g WG depth q boot) as (s & EN & INV); try lia; auto.
  unfold do_qtrlwe2_t.
  assert (BN : forall A B (m : traced A) (k : A -> traced B) o o' r, m o = (o', Ok r) -> tbind m k o = k r o')
    by (intros * EQ; unfold tbind; rewrite EQ; reflexivity).
  do 9 (erewrite BN by reflexivity). do 2 (erewrite BN by reflexivity).
  rewrite EF. erewrite BN by reflexivity. rewrite EN. erewrite BN by reflexivity. do 2 (erewrite BN by reflexivity).
  rewrite EO. erewrite BN by reflexivity. rewrite EB, count_fold. erewrite BN by reflexivity. erewrite BN by reflexivity.
  erewrite BN by reflexivity.
  match goal with |- context [tbind _ _ ?o] => set (o0 := o) end.
  assert (HO : exists m0, o0 = out ++ m0 /\ values "result" m0 = [] /\ values "num_live_states" m0 = []).
  { eexists. split; [unfold o0, print, print_elapsed, print; rewrite <- !app_assoc; reflexivity|]. split; reflexivity. }
  destruct HO as (m0 & EO0 & V0 & L0).
  destruct (flut_loop T s0 s1 bit E Y OK NN HY clock g WG depth q boot freq ltac:(lia) ltac:(lia) HB HD HN HM HF w [] []
    (bench_new s freq) o0 INV ltac:(cbn; lia) eq_refl eq_refl) as (more & r & j & EL & VR & VL & HR).
  cbn [length Nat.add app] in EL, VR, VL, HR.
  assert (ET : tbind (each_bit bytes ap (enc_run_dec T Y clock (bench3_step T) bench_result) (bench_new s freq)) (fun _ => tret None) o0 =
    (out ++ m0 ++ more, match r with Ok _ => Ok (@None (list sample)) | Fail e => Fail e end)).
  { unfold tbind. rewrite (each_bit_word bytes ap w _ EB), EL, EO0, <- app_assoc. destruct r; reflexivity. }
  assert (FP : forall (a : text -> nat -> Prop) b vs j, j <= b -> Forall2 a vs (filter (fun m => m mod freq =? 0) (seq 1 j)) ->
     Forall2 a vs (firstn (length vs) (multiples freq b))).
  { intros a b vs j' Hj F2. unfold multiples. replace b with (j' + (b - j')) by lia. rewrite seq_app, filter_app, firstn_app.
    pose proof (Forall2_len _ _ _ F2) as LF. rewrite LF, Nat.sub_diag, firstn_O, app_nil_r, firstn_all. exact F2. }
  exists (m0 ++ more). split.
  - intros k. apply so_far_prefix. unfold right_so_far. rewrite values_app, V0. cbn [app].
    apply (FP _ (length w) _ j); [destruct r; lia|exact VR].
  - rewrite !values_app, V0, L0. cbn [app]. rewrite (Forall2_len _ _ _ VR). destruct r as [s'|e].
    + left. destruct HR as [-> HR]. split; [exact ET|]. split; [reflexivity|exact HR].
    + right. destruct HR as (-> & Hj & H1 & (k & H2 & H3) & H4). exists (S j), k.
      split; [exact ET|]. split; [exact H1|]. split; [exact H2|]. split; [exact H3|]. split; [exact H4|].
      cbn [Nat.sub]. rewrite Nat.sub_0_r. split; [reflexivity|exact VL].
Qed.
End Encrypted.

(** * The hypotheses are met: the files of PropsCmd.v and PropsBench2.v *)
Example C74_plain_nonvacuous : exists more, do_plain_t ex_f ["s"%char] ["i"%char] 1 2 [] = (more, Ok None) /\
  values "result" (firstn 12 more) = map lit ["0"; "1"; "1"]%string /\
  right_so_far (accepts ex_g) ex_w 1 (values "result" (firstn 12 more)).
Proof.
  destruct (C74_plain _ _ _ _ _ _ 1 [] ex_workload ltac:(lia)) as (more & EQ & R). exists more. split; [exact EQ|]. split; [|apply R].
  cbn [app] in EQ. vm_compute in EQ. injection EQ as <-. reflexivity.
Qed.
(** After one input one state is possible, after two inputs two are, and there is room for less than two: the
    program stops while it handles the second input, and has printed the result of the first. *)
Definition ex_late : fs := write ex_f (lit "late") (map N_of_ascii (lit ">0 1 1" ++ ["010"%char] ++ lit "1 1 2" ++ ["010"%char] ++ lit "2* 2 1")).
Example C74_qtrlwe2_nonvacuous : exists g more, workload ex_late (lit "late") ["i"%char] 2 g ex_w /\
  do_qtrlwe2_t ex_T ex_Y ex_clock ex_late (lit "late") ["i"%char] 1 1 2 2 2 false [] = (more, Fail FExit) /\
  values "result" more = [lit "0"] /\ right_so_far (accepts g) ex_w 1 (values "result" more) /\ width g 2 2.
Proof.
  destruct ex_contract as (H1 & H2). destruct ex_margins as (_ & _ & M1).
  assert (EG : exists g, from_file ex_late (lit "late") = Ok g /\ size g = 3 /\ length (reach_list g 2) = 2)
    by (eexists; split; [vm_compute; reflexivity|split; reflexivity]).
  destruct EG as (g & EG & SG & RG). exists g.
  assert (HW : workload ex_late (lit "late") ["i"%char] 2 g ex_w).
  { split; [exact EG|]. split; [rewrite SG; repeat constructor|]. split; [repeat constructor|].
    exists [[true; false]; [false; true]; [true; false]], [[1]; [2]; [1]]%N. split; [exact ex_packs|]. split; reflexivity. }
  destruct (C74_qtrlwe2 ex_T _ _ _ _ ex_Y H1 H2 ex_crypto ex_clock (fun _ => 0%Z) _ _ _ _ _ _ HW 1 1 2 2 []) as (more & R & S);
    [lia|lia|lia|lia|apply FlutFacts.depth_fits; cbn; lia|rewrite SG; exact M1|]. cbn [app] in S. exists more. split; [exact HW|].
  assert (X : do_qtrlwe2_t ex_T ex_Y ex_clock ex_late (lit "late") ["i"%char] 1 1 2 2 2 false [] = (more, Fail FExit) /\
    values "result" more = [lit "0"]).
  { destruct S as [(S & _)|(n & k & S & _)]; [exfalso; vm_compute in S; discriminate|]. split; [exact S|].
    vm_compute in S. injection S as <-. reflexivity. }
  destruct X as [X1 X2]. split; [exact X1|]. split; [exact X2|]. split.
  - specialize (R (length more)). rewrite firstn_all in R. exact R.
  - rewrite <- RG at 2. apply width_exists. destruct (workload_facts _ _ _ _ _ _ HW) as (_ & W & _). exact W.
Qed.
(** Three bytes when a valuation takes two. *)
Example C74_unusable_nonvacuous : unusable ex_f ["s"%char] ["i"%char] 9 /\ unusable ex_f ["s"%char] (lit "none") 2 /\
  unusable ex_f (lit "none") ["i"%char] 2 /\
  exists out, do_plain_t ex_f ["s"%char] ["i"%char] 1 9 [] = (out, Fail FAssert) /\ length out = 5.
Proof.
  split; [right; right; eexists; split; [reflexivity|discriminate]|]. split; [right; left; reflexivity|].
  split; [left; eexists; vm_compute; reflexivity|]. eexists. split; [vm_compute; reflexivity|reflexivity].
Qed.
Example C74_nonvacuous : exists out, bench_main_t ex_T ex_Y ex_clock (fun _ => 0%Z) ex_f ex_now
    (map lit ["plain"; "--ap"; "9"; "--spec"; "s"; "--in"; "i"; "--out-freq"; "2"]%string) = (out, Fail FAssert) /\ length out = 6.
Proof. eexists. split; [vm_compute; reflexivity|reflexivity]. Qed.

Print Assumptions C74_same.
Print Assumptions C74_manual.
Print Assumptions C74_rejected.
Print Assumptions C74_config.
Print Assumptions C74_unusable.
Print Assumptions C74_sanitize.
Print Assumptions C74_plain.
Print Assumptions C74_offline.
Print Assumptions C74_reversed.
Print Assumptions C74_bbs.
Print Assumptions C74_qtrlwe2.
