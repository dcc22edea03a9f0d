(** C55, C56: what the benchmark program prints. *)
From Coq Require Import String.
From Coq Require Import List Arith Bool NArith ZArith Ascii Permutation Lia.
Import ListNotations.
From Verif Require Import Base BaseFacts GraphModel Spec GraphFacts GraphOps GraphMore Minimize Quotient PropsGraph TextModel DotModel
  BitsModel BitsFacts TorusModel TfheSpec TfheFacts RunnerModel RunnerFacts LookupFacts RunnerSpec ReachFacts ParFacts BlockFacts
  FlutFacts PropsRunner InputSpec PropsInput TimeModel PropsTime ClientModel CmdModel CmdSpec CmdFacts PropsCmd
  BenchModel BenchSpec BenchFacts BenchFacts2.
Local Open Scope list_scope.

Lemma workload_facts f spec input ap g w : workload f spec input ap g w ->
  from_file f spec = Ok g /\ wf_graph g /\ exists bytes, open_file f input = Ok bytes /\
  forall S (func : S -> bool -> res S) s, each_input_bit bytes ap func s = foldM func w s.
Proof.
  intros (EF & SZ & AP & vals & blocks & HP & EI & ->). split; [auto|]. split; [eapply from_file_wf; eauto|].
  exists (concat blocks). unfold open_file. rewrite EI. split; [reflexivity|]. intros. apply C20_input_decoding; auto.
Qed.
Lemma count_fold {A} (l : list A) : forall n, foldM (fun n (_ : A) => Ok (S n)) l n = Ok (n + length l).
Proof. induction l as [|x l IH]; intros n; cbn [foldM length bind]; [rewrite Nat.add_0_r; reflexivity|]. rewrite IH. f_equal. lia. Qed.
Lemma gather_fold {A} (l : list A) : forall v, foldM (fun v (b : A) => Ok (v ++ [b])) l v = Ok (v ++ l).
Proof.
  induction l as [|x l IH]; intros v; cbn [foldM bind]; [rewrite app_nil_r; reflexivity|]. rewrite IH, <- app_assoc. reflexivity.
Qed.
Lemma values_other key k v : key <> k -> values key [(lit k, v)] = [].
Proof.
  intros N. unfold values. cbn [filter fst]. destruct (list_eq_dec _ _ _) as [E|E]; [|reflexivity].
  exfalso. apply N. unfold lit in E. rewrite <- (string_of_list_ascii_of_string key), <- E, string_of_list_ascii_of_string.
  reflexivity.
Qed.
Lemma values_same key v : values key [(lit key, v)] = [v].
Proof. unfold values. cbn [filter fst]. destruct (list_eq_dec _ _ _) as [E|E]; [reflexivity|]. contradiction. Qed.
Lemma shows_bool b : shows (show_bool b) b.
Proof. destruct b; reflexivity. Qed.
Lemma right_of {C} (dec : C -> bool) verdict w freq outs vs :
  map (fun c => Ok (dec c)) outs = map (fun m => verdict (firstn m w)) (multiples freq (length w)) ->
  vs = map (fun c => show_bool (dec c)) outs -> right_results verdict w freq vs.
Proof.
  intros H ->. unfold right_results. remember (multiples freq (length w)) as ms eqn:Em. clear Em. revert ms H.
  induction outs as [|c outs IH]; intros [|m ms] H; try discriminate; cbn [map]; [constructor|].
  cbn [map] in H. injection H as H1 H2. constructor; [|apply IH; auto]. exists (dec c). split; [congruence|apply shows_bool].
Qed.
Lemma mirrored_schedule g freq w : forall fed,
  mirrored_verdicts g fed (schedule freq (length fed) w) =
  map (fun m => accepts g (rev (firstn m (fed ++ w)))) (filter (fun m => m mod freq =? 0) (seq (S (length fed)) (length w))).
Proof.
  induction w as [|b w IH]; intros fed; cbn [schedule mirrored_verdicts]; [reflexivity|].
  cbn [length seq filter mirrored_verdicts].
  specialize (IH (fed ++ [b])). rewrite app_length in IH. cbn [length] in IH. rewrite Nat.add_1_r in IH.
  rewrite <- app_assoc in IH. cbn [app] in IH.
  destruct (S (length fed) mod freq =? 0); cbn [app mirrored_verdicts map]; [|exact IH].
  rewrite IH. assert (X : firstn (S (length fed)) (fed ++ b :: w) = fed ++ [b]); [|rewrite X; reflexivity].
  replace (fed ++ b :: w) with ((fed ++ [b]) ++ w) by (rewrite <- app_assoc; reflexivity).
  replace (S (length fed)) with (length (fed ++ [b]) + 0) by (rewrite app_length; cbn; lia).
  rewrite firstn_app_2, firstn_O, app_nil_r. reflexivity.
Qed.

(** * C55: the program reports the right verdicts, with every method *)
Theorem C55_plain f spec input ap g w freq out :
  workload f spec input ap g w -> 0 < freq ->
  exists more, do_plain f spec input freq ap out = Ok (out ++ more, None) /\
    right_results (accepts g) w freq (values "result" more) /\
    values "config-spec_num_states" more = [show_nat (size g)] /\
    values "config-input_size" more = [show_nat (length w)] /\
    Forall2 (fun v n => exists q, run_from g (initial_state g) (firstn n w) = Ok q /\ v = show_nat q)
      (values "state" more) (seq 1 (length w)).
Proof.
  intros HW HF. destruct (workload_facts _ _ _ _ _ _ HW) as (EF & WG & bytes & EO & EB).
  unfold do_plain. rewrite EF. cbn [bind]. rewrite EO. cbn [bind]. rewrite !EB, count_fold. cbn [bind]. rewrite EB.
  cbn [Nat.add].
  match goal with |- context [foldM ?F w (_, 0, ?o)] => set (step := F); set (o0 := o) end.
  set (st := fun u => run g (initial_state g) u).
  assert (LR : forall u, st u < size g) by (intros; apply run_lt; auto using init_lt).
  assert (HS : forall u b o, step (st u, length u, o) b = Ok (st (u ++ [b]), length (u ++ [b]),
    o ++ [(lit "state", show_nat (st (u ++ [b])))] ++
         if length (u ++ [b]) mod freq =? 0 then [(lit "result", show_bool (fin g (st (u ++ [b]))))] else [])).
  { intros u b o. unfold step. rewrite next_state_nxt by auto. cbn [bind].
    replace (nxt g (st u) b) with (st (u ++ [b])) by (unfold st; rewrite run_app; reflexivity).
    rewrite app_length. cbn [length]. rewrite Nat.add_1_r. destruct (Nat.eqb_spec freq 0); [lia|].
    destruct (_ =? 0).
    - rewrite is_final_fin by auto. cbn [bind]. unfold print. rewrite <- !app_assoc. destruct (fin _ _); reflexivity.
    - cbn [app]. unfold print. reflexivity. }
  assert (G : forall v u o, exists more q n, foldM step v (st u, length u, o) = Ok (q, n, o ++ more) /\
    Forall2 (fun x m => exists b, accepts g (firstn m (u ++ v)) = Ok b /\ shows x b) (values "result" more)
      (filter (fun m => m mod freq =? 0) (seq (S (length u)) (length v))) /\
    Forall2 (fun x m => exists q, run_from g (initial_state g) (firstn m (u ++ v)) = Ok q /\ x = show_nat q)
      (values "state" more) (seq (S (length u)) (length v)) /\
    (forall key, key <> "result"%string -> key <> "state"%string -> values key more = [])).
  { induction v as [|b v IH]; intros u o.
    - exists [], (st u), (length u). cbn. rewrite app_nil_r. repeat (split; [solve [auto|constructor]|]). auto.
    - cbn [foldM]. rewrite HS. cbn [bind].
      assert (EP : firstn (S (length u)) (u ++ b :: v) = u ++ [b]).
      { replace (u ++ b :: v) with ((u ++ [b]) ++ v) by (rewrite <- app_assoc; reflexivity).
        replace (S (length u)) with (length (u ++ [b]) + 0) by (rewrite app_length; cbn; lia).
        rewrite firstn_app_2, firstn_O, app_nil_r. reflexivity. }
      assert (ER : run_from g (initial_state g) (u ++ [b]) = Ok (st (u ++ [b])))
        by (apply run_from_run; auto using init_lt).
      match goal with |- context [foldM step v (_, _, ?o')] => destruct (IH (u ++ [b]) o') as (more & q & n & E1 & E2 & E3 & E4) end.
      rewrite app_length in *. cbn [length] in *. rewrite Nat.add_1_r, <- app_assoc in *. cbn [app] in E2, E3.
      eexists. exists q, n. rewrite E1, <- app_assoc. split; [reflexivity|].
      cbn [seq filter]. rewrite !values_app, !(values_other "result" "state") by discriminate. split; [|split].
      + destruct (S (length u) mod freq =? 0); [|exact E2]. rewrite values_same. constructor; [|exact E2].
        rewrite EP. eexists. split; [|apply shows_bool]. unfold accepts. rewrite ER. apply is_final_fin; auto.
      + rewrite values_same. destruct (S (length u) mod freq =? 0); rewrite ?(values_other "state" "result") by discriminate; (constructor; [|exact E3]);
          rewrite EP; eauto.
      + intros key N1 N2. rewrite !values_app, (E4 key N1 N2), (values_other key "state") by auto.
        destruct (S (length u) mod freq =? 0); rewrite ?(values_other key "result") by auto; reflexivity. }
  destruct (G w [] o0) as (more & q & n & E1 & E2 & E3 & E4).
  change (st []) with (initial_state g) in E1. cbn [length app] in *. rewrite E1. cbn [bind].
  unfold o0, print. rewrite <- !app_assoc. eexists. split; [reflexivity|].
  rewrite !values_app, !(E4 "config-spec_num_states"%string), !(E4 "config-input_size"%string) by discriminate.
  split; [exact E2|]. split; [reflexivity|]. split; [reflexivity|exact E3].
Qed.

Section Encrypted.
Context (T : tfhe) (s0 s1 : list Z) (bit : trgsw T -> bool -> Prop) (E : noise) (Y : crypto T).
Hypothesis OK : tfhe_ok T s0 s1 bit E.
Hypothesis NN : noise_nonneg E.
Hypothesis HY : crypto_ok T Y s1 bit.
Context (clock : nat -> text) (times : nat -> Z).
Context (f : fs) (spec input : text) (ap : nat) (g : Graph) (w : list bool).
Hypothesis HW : workload f spec input ap g w.

(** ** offline *)
Lemma offline_loop l : forall r res0 o, l <> [] -> exists cts, Forall2 bit cts l /\
  match (do r' <- foldM (offline_eval_one T) cts r; offline_result T r') with
  | Fail e => foldM (fun '(runner, out) input =>
         let enc_input := c_enc T Y (length out) input in
         let out := print_elapsed clock "enc" out in
         do runner <- offline_bench_run T runner enc_input;
         Ok (runner, print_elapsed clock "run" out)) l (mkOB r res0 (length l), o) = Fail e
  | Ok c => exists r' more, foldM (fun '(runner, out) input =>
         let enc_input := c_enc T Y (length out) input in
         let out := print_elapsed clock "enc" out in
         do runner <- offline_bench_run T runner enc_input;
         Ok (runner, print_elapsed clock "run" out)) l (mkOB r res0 (length l), o) = Ok (mkOB r' c 0, o ++ more) /\
      forall key, key <> "enc"%string -> key <> "run"%string -> values key more = []
  end.
Proof.
  match goal with |- context [foldM ?F] => match F with fun _ => _ => set (step := F) end end.
  induction l as [|b l IH]; intros r res0 o NE; [congruence|].
  set (c := c_enc T Y (length o) b).
  set (o1 := print_elapsed clock "run" (print_elapsed clock "enc" o)).
  assert (VO : exists m2, o1 = o ++ m2 /\ forall key, key <> "enc"%string -> key <> "run"%string -> values key m2 = []).
  { eexists. split; [unfold o1, print_elapsed, print; rewrite <- app_assoc; reflexivity|].
    intros key N1 N2. rewrite values_app, !values_other by auto. reflexivity. }
  destruct VO as (m2 & EO & VM).
  destruct (offline_eval_one T r c) as [r1|e] eqn:E1.
  2:{ exists (c :: map (fun b => c_enc T Y 0 b) l). split.
      - constructor; [apply HY|]. clear - HY. induction l; cbn; constructor; auto. apply HY.
      - cbn [foldM]. rewrite E1. cbn [bind]. unfold step at 1, offline_bench_run. cbn [ob_runner]. fold c. rewrite E1. reflexivity. }
  destruct l as [|b2 l].
  - exists [c]. split; [constructor; [apply HY|constructor]|]. cbn [foldM]. rewrite E1. cbn [bind].
    assert (ES : step (mkOB r res0 1, o) b = (do c1 <- offline_result T r1; Ok (mkOB r1 c1 0, o1))).
    { unfold step, offline_bench_run. cbn [ob_runner ob_remaining]. fold c. rewrite E1. cbn [bind Nat.eqb].
      destruct (offline_result T r1); reflexivity. }
    cbn [length]. rewrite ES. destruct (offline_result T r1) as [c1|e]; cbn [bind]; [|reflexivity].
    exists r1, m2. fold o1. rewrite EO. auto.
  - destruct (IH r1 res0 o1 ltac:(discriminate)) as (cts & HF & H). exists (c :: cts). split; [constructor; [apply HY|auto]|].
    remember (b2 :: l) as l' eqn:El. cbn [foldM]. rewrite E1. cbn [bind].
    assert (ES : step (mkOB r res0 (length (b :: l')), o) b = Ok (mkOB r1 res0 (length l'), o1)).
    { unfold step, offline_bench_run. cbn [ob_runner ob_remaining length]. fold c. rewrite E1. cbn [bind].
      subst l'. reflexivity. }
    rewrite ES. cbn [bind].
    match goal with |- match ?m with _ => _ end => destruct m as [c1|e] end; [|exact H].
    destruct H as (r' & more & H1 & H2). exists r', (m2 ++ more). rewrite H1, EO, <- app_assoc. split; [reflexivity|].
    intros key N1 N2. rewrite values_app, VM, H2 by auto. reflexivity.
Qed.

Theorem C55_offline interval out : w <> [] ->
  (0 < interval)%nat -> back_margin E interval -> (Z.of_nat (length w) < 2 ^ 31)%Z ->
  exists more b, do_offline T Y clock f spec input interval ap false out = Ok (out ++ more, None) /\
    accepts g w = Ok b /\ values "result" more = [show_bool b] /\
    values "config-spec_num_states" more = [show_nat (size g)] /\
    values "config-input_size" more = [show_nat (length w)].
Proof.
  intros NE HI HM HL. destruct (workload_facts _ _ _ _ _ _ HW) as (EF & WG & bytes & EO & EB).
  unfold do_offline. rewrite EO. cbn [bind]. rewrite EB, gather_fold. cbn [bind app].
  unfold offline_bench_new. rewrite EF. cbn [bind].
  destruct (states_at_depth_correct g (length w) WG) as (g' & ER & _ & D & _).
  assert (HS : exists r, offline_new T g (length w) interval true false = Ok r /\ size (b_graph r) = size g).
  { destruct (offline_new_ok T g (length w) interval WG HI HL) as (r & EN & _). exists r. split; [auto|].
    unfold offline_new, backstream_new in EN. cbn [assert_] in EN. rewrite ER in EN. cbn [bind] in EN.
    apply bind_ok in EN as (wt & _ & [= <-]). cbn [b_graph]. unfold size. rewrite D. reflexivity. }
  destruct HS as (r & EN & HS). rewrite EN. cbn [bind ob_runner]. rewrite HS.
  match goal with |- context [foldM _ (rev w) (_, ?o)] => set (o0 := o) end.
  assert (NR : rev w <> []) by (intros X; apply NE; rewrite <- (rev_involutive w), X; reflexivity).
  destruct (offline_loop (rev w) r [] o0 NR) as (cts & HF & H). rewrite rev_length in H.
  assert (HF' : Forall2 bit (rev cts) w) by (rewrite <- (rev_involutive w); apply Forall2_rev, HF).
  destruct (C30_offline T s0 s1 bit E OK NN g interval w (rev cts) WG HI HM HL HF') as (c & EC & AC).
  unfold offline_run in EC. rewrite rev_length, rev_involutive in EC.
  pose proof (Forall2_len _ _ _ HF) as LF. rewrite LF, rev_length, EN in EC. cbn [bind] in EC. rewrite EC in H.
  destruct H as (r' & more & H & HV).
  match goal with |- context [foldM ?F (rev w) ?x] => replace (foldM F (rev w) x) with (Ok (mkOB r' c 0, o0 ++ more)) end.
  cbn [bind ob_result].
  rewrite (y_key _ _ _ _ HY).
  unfold o0, print, print_elapsed, print. rewrite <- !app_assoc. eexists. eexists. split; [reflexivity|].
  split; [exact AC|].
  rewrite !values_app, !HV by discriminate. repeat split.
Qed.
(** With no input at all the result is always 0, whatever the automaton says about the empty word. *)
Theorem C55_offline_empty interval out : w = [] -> (0 < interval)%nat ->
  exists more, do_offline T Y clock f spec input interval ap false out = Ok (out ++ more, None) /\
    values "result" more = [lit "0"].
Proof.
  intros NE HI. destruct (workload_facts _ _ _ _ _ _ HW) as (EF & WG & bytes & EO & EB).
  unfold do_offline. rewrite EO. cbn [bind]. rewrite EB, gather_fold. cbn [bind app].
  unfold offline_bench_new. rewrite EF. cbn [bind]. rewrite NE.
  destruct (offline_new_ok T g 0 interval WG HI ltac:(lia)) as (r & EN & _).
  cbn [length]. rewrite EN. cbn [bind rev foldM ob_result].
  assert (ED : decrypt_TLWELvl1_to_bit (t_n1 T) [] (c_key T Y) = false).
  { unfold decrypt_TLWELvl1_to_bit, phase_of_TLWE. assert (C0 : forall i, cf [] i = 0%Z) by (intros [|i]; reflexivity).
    assert (P0 : forall l, fold_left (fun phase i => w32 (phase - cf [] i * cf (c_key T Y) i)) l 0%Z = 0%Z).
    { induction l as [|i l IH]; cbn [fold_left]; [reflexivity|]. rewrite C0. exact IH. }
    rewrite C0, P0. reflexivity. }
  rewrite ED. unfold print, print_elapsed, print. rewrite <- !app_assoc. eexists. split; reflexivity.
Qed.

(** ** reversed *)
(** The automaton that the runner works on: given or, without --spec-reversed, the minimal automaton
    of the mirrored language. *)
Definition reversed_spec (sr : bool) (m : Graph) : Prop :=
  if sr then m = g
  else wf_graph m /\ (forall u, exists b, accepts g u = Ok b /\ accepts m (rev u) = Ok b) /\
       forall h, wf_graph h -> (forall u, accepts h u = accepts m u) -> size m <= size h.

Lemma reversed_run interval freq (sr : bool) out :
  0 < freq -> 0 < interval -> back_margin E interval ->
  exists more m (r : backstream) n, do_reversed T Y clock times f spec input freq interval ap sr false out =
      Ok (out ++ more, Some (samples_of times (b_timer r))) /\
    right_results (fun u => accepts g (if sr then rev u else u)) w freq (values "result" more) /\
    reversed_spec sr m /\ wf_graph m /\
    values "config-spec_num_states" more = [show_nat (size m)] /\
    n = length w /\ values "config-input_size" more = [show_nat n] /\
    (forall e, In e (b_timer r) -> snd e = size m) /\
    tot T_CMUX (b_timer r) = n * size m /\ tot T_BOOTSTRAPPING (b_timer r) = n / interval * size m /\
    tot T_CIRCUIT_BOOTSTRAPPING (b_timer r) = 0.
Proof.
  intros HF HI HM. destruct (workload_facts _ _ _ _ _ _ HW) as (EF & WG & bytes & EO & EB).
  assert (NEW : exists m r, online2_new T g interval sr true false = Ok r /\ b_graph r = m /\ reversed_spec sr m /\ wf_graph m /\
     b_input_size r = None /\ b_interval r = interval /\ b_nproc r = 0 /\ b_timer r = [] /\
     forall h hb, encrypts bit h hb -> exists outs s', play (online2_eval_one T) (rev_ask T) h r = Ok (outs, s') /\
       map (fun c => Ok (decrypt_TLWELvl1_to_bit (t_n1 T) c s1)) outs =
       if sr then mirrored_verdicts g [] hb else RunnerSpec.verdicts g [] hb).
  { assert (NB : forall m, wf_graph m -> exists r, backstream_new T m interval None true false = Ok r /\ b_graph r = m /\
        b_input_size r = None /\ b_interval r = interval /\ b_nproc r = 0 /\ b_timer r = []).
    { intros m Wm. destruct (backstream_new_none T interval m Wm) as (r & H1 & H2 & H3 & H4 & H5 & _ & _ & H6 & _). eauto 10. }
    destruct sr.
    - destruct (NB g WG) as (r & E1 & E2 & E3 & E4 & E5 & E6). exists g, r. unfold online2_new. cbn [bind].
      repeat match goal with |- _ /\ _ => split end; auto; [reflexivity|]. intros h hb HE.
      destruct (C31_spec_reversed T s0 s1 bit E OK NN g interval h hb WG HI HM HE) as (outs & s' & H1 & H2).
      exists outs, s'. split; [|exact H2]. unfold reverse_new, online2_new in H1. cbn [bind] in H1. rewrite E1 in H1. exact H1.
    - destruct (reversed_correct g WG) as (rg & ER & WR & AR & _).
      destruct (minimized_correct rg WR) as (m & EM & WM & AM & RM & DM).
      destruct (NB m WM) as (r & E1 & E2 & E3 & E4 & E5 & E6). exists m, r. unfold online2_new. rewrite ER. cbn [bind]. rewrite EM. cbn [bind].
      split; [exact E1|]. split; [exact E2|]. split.
      { split; [exact WM|]. split.
        - intros u. destruct (AR u) as (b & A1 & A2). exists b. rewrite AM. auto.
        - intros h Wh A. apply minimal; auto. }
      repeat match goal with |- _ /\ _ => split end; auto. intros h hb HE.
      destruct (C31_reverse T s0 s1 bit E OK NN g interval h hb WG HI HM HE) as (outs & s' & H1 & H2).
      exists outs, s'. split; [|exact H2]. unfold reverse_new, online2_new in H1. rewrite ER in H1. cbn [bind] in H1. rewrite EM in H1.
      cbn [bind] in H1. rewrite E1 in H1. exact H1. }
  destruct NEW as (m & r & EN & HG & HR & WM & HN & HV & HP & HT & HPL).
  unfold do_reversed. rewrite EF. cbn [bind]. rewrite EN. cbn [bind]. rewrite EO. cbn [bind]. rewrite EB, count_fold. cbn [bind Nat.add].
  unfold enc_run_dec_loop. rewrite EB. rewrite HG.
  match goal with |- context [foldM _ w (_, ?o)] => set (o0 := o) end.
  destruct (loop_play T Y s1 bit HY clock (online2_eval_one T) (rev_ask T) (fun _ => []) (bench2_run T)
    ltac:(intros s c o; unfold bench2_run; rewrite app_nil_r; reflexivity) ltac:(reflexivity) freq HF w (bench_new r freq) o0 eq_refl)
    as (cts & HFc & H).
  cbn [bn_num bn_runner bench_new] in H.
  destruct (HPL _ _ (schedule_encrypts bit freq cts w HFc 0)) as (outs & r' & EP & PO). rewrite EP in H.
  destruct H as (s' & more & H1 & H2 & H3 & H4).
  match goal with |- context [foldM ?F w ?x] => replace (foldM F w x) with (Ok (s', o0 ++ more)) by (symmetry; exact H1) end.
  cbn [bind].
  destruct (back_play_timer T _ _ _ _ HN ltac:(lia) EP) as (_ & _ & _ & N1 & N2 & N3 & N4 & N5).
  rewrite HT, HP, HG, HV, inputs_schedule in *. cbn [tot map list_sum fold_right Nat.add] in *.
  pose proof (Forall2_len _ _ _ HFc) as LF. rewrite LF in *.
  assert (V4 : forall key, ~ In key ["enc"; "run"; "dec"; "result"]%string -> values key more = []).
  { intros key NI. rewrite (H4 key NI). clear. induction (trail _ _ _ _) as [|x l IH]; cbn; auto. }
  unfold o0, print, print_elapsed, print. rewrite <- !app_assoc. 
  eexists. exists m, r', (length w). rewrite H2. split; [reflexivity|].
  rewrite !values_app, H3, !V4 by (cbn; intuition discriminate).
  split; [|split; [exact HR|]]; [|split; [exact WM|]; split; [reflexivity|]; split; [reflexivity|]; split; [reflexivity|]].
  - cbn [app values map filter fst]. 
    eapply (right_of (fun c => decrypt_TLWELvl1_to_bit (t_n1 T) c s1)); [|reflexivity].
    rewrite PO. destruct sr.
    + apply (mirrored_schedule g freq w []).
    + apply (verdicts_schedule g freq w []).
  - split; [intros e He; destruct (N2 e He) as [[]|]; auto|]. unfold tot in *. cbn [map list_sum fold_right] in *.
    rewrite Nat.div_0_l in N4 by lia. rewrite N1 in N4. cbn [Nat.add] in N4. lia.
Qed.

Theorem C55_reversed interval freq (sr : bool) out :
  0 < freq -> 0 < interval -> back_margin E interval ->
  exists more samples m, do_reversed T Y clock times f spec input freq interval ap sr false out = Ok (out ++ more, Some samples) /\
    right_results (fun u => accepts g (if sr then rev u else u)) w freq (values "result" more) /\
    reversed_spec sr m /\
    values "config-spec_num_states" more = [show_nat (size m)] /\
    values "config-input_size" more = [show_nat (length w)].
Proof.
  intros HF HI HM. destruct (reversed_run interval freq sr out HF HI HM) as (more & m & r & n & H1 & H2 & H3 & _ & H4 & -> & H5 & _).
  eauto 10.
Qed.

(** ** qtrlwe2 *)
Definition live_numbers (q freq : nat) (vs : list text) : Prop :=
  Forall2 (fun v n => exists k, width g n k /\ v = show_nat k) vs (consumed q 0 0 (schedule freq 0 w)).

Lemma trail_values {R C A} (feed : R -> C -> res R) (ask : R -> res (A * R)) (key : string) (info : R -> list line)
    (live : R -> list nat) (wg : wf_graph g) h r0 ns :
  (forall r, values key (info r) = [show_nat (length (live r))]) ->
  Forall2 (fun m r => reach_set g m (live r)) ns (trail feed ask h r0) ->
  Forall2 (fun v n => exists k, width g n k /\ v = show_nat k) (concat (map (fun r => values key (info r)) (trail feed ask h r0))) ns.
Proof.
  intros HI HF. induction HF as [|n r ns l H HF IH]; cbn [map concat]; [constructor|].
  rewrite HI. cbn [app]. constructor; [|exact IH]. eexists. split; [apply (reach_width g wg n (live r) H)|reflexivity].
Qed.

Lemma consumed_schedule {C D} (bt : C -> D -> Prop) q freq l l' : Forall2 bt l l' -> forall n p i,
  consumed q n p (schedule freq i l) = consumed q n p (schedule freq i l').
Proof.
  intros H. induction H as [|x y l l' _ H IH]; intros n p i; [reflexivity|]. cbn [schedule].
  destruct (S i mod freq =? 0); cbn [app consumed]; f_equal; destruct (S p <? q); cbn; rewrite ?IH; reflexivity.
Qed.

Theorem C55_qtrlwe2 freq depth q boot out : 0 < freq ->
  0 < q < 31 -> 0 < boot -> depth < 31 -> table_fits (t_n1 T) depth q g ->
  flut_margin (size g * 2 ^ (q / 2)) q boot E ->
  let run := do_qtrlwe2 T Y clock f spec input freq depth q boot ap false out in
  let fits := forall n k, In n (flushes q 0 0 (schedule freq 0 w)) -> width g n k -> k < 2 ^ depth in
  (fits -> exists more, run = Ok (out ++ more, None) /\
     right_results (accepts g) w freq (values "result" more) /\
     values "config-spec_num_states" more = [show_nat (size g)] /\
     values "config-input_size" more = [show_nat (length w)] /\
     live_numbers q freq (values "num_live_states" more)) /\
  (~ fits -> run = Fail FExit).
Proof.
  intros HF HQ HB HD HN HM. cbv zeta. destruct (workload_facts _ _ _ _ _ _ HW) as (EF & WG & bytes & EO & EB).
  destruct (flut_new_inv T s0 s1 bit E OK NN g WG depth q boot) as (s & EN & INV); try lia; auto.
  unfold do_qtrlwe2. rewrite EF. cbn [bind]. rewrite EN. cbn [bind]. rewrite EO. cbn [bind]. rewrite EB, count_fold. cbn [bind Nat.add].
  unfold enc_run_dec_loop. rewrite EB.
  assert (HG : f_graph T s = g) by apply INV. rewrite HG.
  match goal with |- context [foldM _ w (_, ?o)] => set (o0 := o) end.
  set (info := fun r : RunnerModel.flut T => [(lit "num_live_states", show_nat (length (f_live T r)));
    (lit "first_lut_depth", show_nat (f_first T r)); (lit "second_lut_depth", show_nat (f_second T r))]).
  assert (HR : forall s c o, bench3_run T s c o =
    (do '(b, s') <- bench_run T (flut_eval_one T) (flut_result T) s c; Ok (b, s', o ++ info (bn_runner s)))).
  { intros s' c o. unfold bench3_run, print. rewrite <- !app_assoc. reflexivity. }
  destruct (loop_play T Y s1 bit HY clock (flut_eval_one T) (flut_result T) info (bench3_run T) HR ltac:(reflexivity)
              freq HF w (bench_new s freq) o0 eq_refl) as (cts & HFc & H).
  cbn [bn_num bn_runner bench_new] in H.
  pose proof (schedule_encrypts bit freq cts w HFc 0) as HE.
  pose proof (flut_play T s0 s1 bit E OK NN g WG depth q boot ltac:(lia) HB HD HN HM ltac:(lia) _ _ HE [] [] s INV ltac:(cbn; lia)) as HP.
  pose proof (flut_play_live T s0 s1 bit E OK NN g WG depth q boot ltac:(lia) ltac:(lia) HB HD HN HM _ _ HE [] [] s) as HL.
  destruct (play (flut_eval_one T) (flut_result T) (schedule freq 0 cts) s) as [[outs r']|e] eqn:EP.
  - destruct HP as [PO HFit]. specialize (HL outs r' INV ltac:(cbn; lia) eq_refl). cbn [length] in HL, HFit. split.
    2:{ intros NF. exfalso. apply NF. exact HFit. }
    intros _. destruct H as (s' & more & H1 & H2 & H3 & H4).
    match goal with |- context [foldM ?F w ?x] => replace (foldM F w x) with (Ok (s', o0 ++ more)) by (symmetry; exact H1) end.
    cbn [bind]. unfold o0, print, print_elapsed, print. rewrite <- !app_assoc. eexists. split; [reflexivity|].
    assert (V4 : forall key, ~ In key ["enc"; "run"; "dec"; "result"]%string -> (forall r, values key (info r) = []) -> values key more = []).
    { intros key NI HN0. rewrite (H4 key NI). clear - HN0. induction (trail _ _ _ _) as [|x l IH]; cbn [map concat]; auto. rewrite HN0. exact IH. }
    rewrite !values_app, H3, !(V4 "config-spec_num_states"%string), !(V4 "config-input_size"%string), (H4 "num_live_states"%string)
      by (try (cbn; intuition discriminate); reflexivity).
    split; [|split; [reflexivity|split; [reflexivity|]]].
    + eapply (right_of (fun c => decrypt_TLWELvl1_to_bit (t_n1 T) c s1)); [|reflexivity].
      rewrite PO. apply (verdicts_schedule g freq w []).
    + apply (trail_values _ _ "num_live_states" info (f_live T)); auto.
  - destruct HP as [-> (n & k & N1 & N2 & N3)]. cbn [length] in N1. split.
    { intros HFit. specialize (HFit n k N1 N2). lia. }
    intros _. match goal with |- context [foldM ?F w ?x] => replace (foldM F w x) with (@Fail (bench (RunnerModel.flut T) * list line) FExit) by (symmetry; exact H) end.
    reflexivity.
Qed.

(** ** bbs *)
Lemma flushes_schedule {C D} (bt : C -> D -> Prop) q freq l l' : Forall2 bt l l' -> forall n p i,
  flushes q n p (schedule freq i l) = flushes q n p (schedule freq i l').
Proof.
  intros H. induction H as [|x y l l' _ H IH]; intros n p i; [reflexivity|]. cbn [schedule].
  destruct (S i mod freq =? 0); cbn [app flushes]; destruct (S p <? q); cbn; rewrite ?IH; reflexivity.
Qed.
Lemma bbs_run freq q out : 0 < freq ->
  block_margin g q E -> Nat.log2 (size g) + 1 < t_n1 T -> Nat.log2 (size g) + 1 < 31 ->
  exists more (r : RunnerModel.block T), do_bbs T Y clock times f spec input freq q ap false out =
      Ok (out ++ more, Some (samples_of times (k_timer T r))) /\
    right_results (accepts g) w freq (values "result" more) /\
    values "config-spec_num_states" more = [show_nat (size g)] /\
    values "config-input_size" more = [show_nat (length w)] /\
    live_numbers q freq (values "num_live_states" more) /\
    (forall W, (forall n, width g n (W n)) ->
       tot T_CMUX (k_timer T r) = cmuxes W 0 (flushes q 0 0 (schedule freq 0 w)) /\
       tot T_CIRCUIT_BOOTSTRAPPING (k_timer T r) = bootstraps W 0 (flushes q 0 0 (schedule freq 0 w)) /\
       tot T_BOOTSTRAPPING (k_timer T r) = 0) /\
    forall e, In e (k_timer T r) -> 0 < snd e /\ (snd e <= size g \/ (N.of_nat (snd e) < 2 ^ 31)%N).
Proof.
  intros HF HM H1N H31. destruct (workload_facts _ _ _ _ _ _ HW) as (EF & WG & bytes & EO & EB).
  destruct (block_new_struct T g q) as (s & EN & HS & HT0).
  unfold do_bbs. rewrite EF. cbn [bind]. rewrite EN. cbn [bind]. rewrite EO. cbn [bind]. rewrite EB, count_fold. cbn [bind Nat.add].
  unfold enc_run_dec_loop. rewrite EB. rewrite (bs_graph _ _ _ _ _ _ HS).
  match goal with |- context [foldM _ w (_, ?o)] => set (o0 := o) end.
  set (info := fun r : RunnerModel.block T => [(lit "num_live_states", show_nat (length (k_live T r)))]).
  destruct (loop_play T Y s1 bit HY clock (block_eval_one T) (block_result T) info (bench4_run T) ltac:(reflexivity) ltac:(reflexivity)
              freq HF w (bench_new s freq) o0 eq_refl) as (cts & HFc & H).
  cbn [bn_num bn_runner bench_new] in H.
  pose proof (schedule_encrypts bit freq cts w HFc 0) as HE.
  assert (HD : hd_error (schedule freq 0 w) <> Some None) by (destruct w; discriminate).
  destruct (C32_block T s0 s1 bit E OK NN g q _ _ WG HM H1N H31 HE HD) as (outs & r' & EP & PO).
  rewrite EN in EP. cbn [bind] in EP. rewrite EP in H.
  destruct H as (s' & more & H1 & H2 & H3 & H4).
  match goal with |- context [foldM ?F w ?x] => replace (foldM F w x) with (Ok (s', o0 ++ more)) by (symmetry; exact H1) end.
  cbn [bind]. unfold o0, print, print_elapsed, print. rewrite <- !app_assoc. eexists. exists r'. rewrite H2. split; [reflexivity|].
  assert (V4 : forall key, ~ In key ["enc"; "run"; "dec"; "result"]%string -> (forall r, values key (info r) = []) -> values key more = []).
  { intros key NI HN0. rewrite (H4 key NI). clear - HN0. induction (trail _ _ _ _) as [|x l IH]; cbn [map concat]; auto. rewrite HN0. exact IH. }
  rewrite !values_app, H3, !(V4 "config-spec_num_states"%string), !(V4 "config-input_size"%string), (H4 "num_live_states"%string)
    by (try (cbn; intuition discriminate); reflexivity).
  assert (WE : exists W, forall n, width g n (W n)).
  { exists (fun n => length (reach_list g n)). apply width_exists, WG. }
  split; [|split; [reflexivity|split; [reflexivity|]]].
  - eapply (right_of (fun c => decrypt_TLWELvl1_to_bit (t_n1 T) c s1)); [|reflexivity].
    rewrite PO. apply (verdicts_schedule g freq w []).
  - rewrite <- (flushes_schedule bit q freq cts w HFc 0 0 0).
    assert (HB : forall W, (forall n, width g n (W n)) -> _) by
      (intros W HWd; exact (block_play_struct T g WG q W HWd _ 0 0 s r' outs HS ltac:(lia) EP)).
    cbn beta in HB. destruct WE as (W0 & HW0). destruct (HB W0 HW0) as (HL & tm & T1 & _ & _ & _ & T5). rewrite HT0 in T1. cbn [app] in T1.
    split; [|split].
    + unfold live_numbers. rewrite <- (consumed_schedule bit q freq cts w HFc 0 0 0).
      apply (trail_values _ _ "num_live_states" info (k_live T)); auto.
    + intros W HWd. destruct (HB W HWd) as (_ & tm' & T1' & A1 & A2 & A3 & _). rewrite T1'. rewrite HT0. cbn [app]. auto.
    + rewrite T1. exact T5.
Qed.

Theorem C55_bbs freq q out : 0 < freq ->
  block_margin g q E -> Nat.log2 (size g) + 1 < t_n1 T -> Nat.log2 (size g) + 1 < 31 ->
  exists more samples, do_bbs T Y clock times f spec input freq q ap false out = Ok (out ++ more, Some samples) /\
    right_results (accepts g) w freq (values "result" more) /\
    values "config-spec_num_states" more = [show_nat (size g)] /\
    values "config-input_size" more = [show_nat (length w)] /\
    live_numbers q freq (values "num_live_states" more).
Proof.
  intros H1 H2 H3 H4. destruct (bbs_run freq q out H1 H2 H3 H4) as (more & r & A & B & C & D & F & _). eauto 10.
Qed.

(** The option --sanitize-result always ends the program without a result. *)
Theorem C55_sanitize out :
  (forall interval, exists e, do_offline T Y clock f spec input interval ap true out = Fail e) /\
  (forall freq interval sr, exists e, do_reversed T Y clock times f spec input freq interval ap sr true out = Fail e) /\
  (forall freq depth q boot, do_qtrlwe2 T Y clock f spec input freq depth q boot ap true out = Fail FExit) /\
  (forall freq q, do_bbs T Y clock times f spec input freq q ap true out = Fail FExit).
Proof.
  destruct (workload_facts _ _ _ _ _ _ HW) as (EF & WG & bytes & EO & EB).
  destruct (C40_sanitize T) as (S1 & S2 & S3 & S4 & _). repeat split; intros.
  - unfold do_offline. rewrite EO. cbn [bind]. rewrite EB, gather_fold. cbn [bind]. unfold offline_bench_new. rewrite EF. cbn [bind].
    destruct (S1 g (length ([] ++ w)) interval true) as (e & ->). exists e. reflexivity.
  - unfold do_reversed. rewrite EF. cbn [bind]. destruct (S2 g interval sr true WG) as (e & ->). exists e. reflexivity.
  - unfold do_qtrlwe2. rewrite EF. cbn [bind]. rewrite S3. reflexivity.
  - unfold do_bbs. rewrite EF. cbn [bind]. rewrite S4. reflexivity.
Qed.

(** * C56: the operations that the program counts *)
Lemma samples_time t : forall timer i, (forall i, 0 <= times i)%Z ->
  (total_time t (map (fun '(i, (t, n)) => mkSample (kind_of t) (N.of_nat n) (times i)) (combine (seq i (length timer)) timer)) <=
   fold_right Z.add 0 (map times (seq i (length timer))))%Z.
Proof.
  induction timer as [|[t' n] timer IH]; intros i HN; cbn; [lia|]. specialize (IH (S i) HN). pose proof (HN i).
  destruct (target_eq_dec _ _); lia.
Qed.
Lemma table_drop a b c r : table [a; b; c] r -> snd c = 0%N -> table [a; b] r.
Proof.
  intros (lines & P & H) H0. exists lines. split; [|exact H]. cbn [filter] in *. rewrite H0 in P. cbn [N.eqb negb] in P. exact P.
Qed.
Lemma table_drop2 a b c r : table [a; b; c] r -> snd b = 0%N -> table [a; c] r.
Proof.
  intros (lines & P & H) H0. exists lines. split; [|exact H]. cbn [filter] in *. rewrite H0 in P. cbn [N.eqb negb] in P. exact P.
Qed.

Theorem C56_reversed interval freq (sr : bool) out : measured times ->
  0 < freq -> 0 < interval -> back_margin E interval ->
  exists more samples m n, do_reversed T Y clock times f spec input freq interval ap sr false out = Ok (out ++ more, Some samples) /\
    values "config-spec_num_states" more = [show_nat m] /\
    values "config-input_size" more = [show_nat n] /\
    ((N.of_nat m < 2 ^ 64)%N ->
     (exists csv, dumpCSV samples (Ok csv)) /\
     forall r, dumpCSV samples r ->
       table [(Cmux, N.of_nat (n * m)); (Bootstrapping, N.of_nat (n / interval * m))] r).
Proof.
  intros [HT HS] HF HI HM.
  destruct (reversed_run interval freq sr out HF HI HM) as (more & m & r & n & H1 & _ & _ & WM & H4 & _ & H5 & H6 & H7 & H8 & H9).
  exists more, (samples_of times (b_timer r)), (size m), n. split; [exact H1|]. split; [exact H4|]. split; [exact H5|].
  intros H64.
  destruct (table_of times (b_timer r)) as [X1 X2].
  - intros e He. rewrite (H6 e He). split; [apply (Nat.le_lt_trans _ (initial_state m)); [lia|apply init_lt; auto]|auto].
  - exact HT.
  - intros t. eapply Z.le_lt_trans; [apply samples_time, HT|apply HS].
  - split; [exact X1|]. intros res0 Hr. specialize (X2 res0 Hr). rewrite H7, H8, H9 in X2. apply (table_drop _ _ _ _ X2). reflexivity.
Qed.

Theorem C56_bbs freq q out W : measured times -> (forall n, width g n (W n)) -> 0 < freq ->
  block_margin g q E -> Nat.log2 (size g) + 1 < t_n1 T -> Nat.log2 (size g) + 1 < 31 ->
  let evaluations := flushes q 0 0 (schedule freq 0 w) in
  exists more samples, do_bbs T Y clock times f spec input freq q ap false out = Ok (out ++ more, Some samples) /\
    (exists csv, dumpCSV samples (Ok csv)) /\
    forall r, dumpCSV samples r ->
      table [(Cmux, N.of_nat (cmuxes W 0 evaluations)); (CircuitBootstrapping, N.of_nat (bootstraps W 0 evaluations))] r.
Proof.
  intros [HT HS] HWd H1 H2 H3 H4. cbv zeta.
  destruct (bbs_run freq q out H1 H2 H3 H4) as (more & r & A & _ & _ & _ & _ & C & D).
  exists more, (samples_of times (k_timer T r)). split; [exact A|]. destruct (C W HWd) as (C1 & C2 & C3).
  destruct (table_of times (k_timer T r)) as [X1 X2].
  - intros e He. destruct (D e He) as [D1 D2]. split; [auto|].
    assert (SZ : (N.of_nat (size g) < 2 ^ 31)%N).
    { assert (P : size g < 2 ^ 31) by (apply Nat.log2_lt_cancel; rewrite Nat.log2_pow2 by lia; lia).
      assert (N.of_nat (size g) < N.of_nat (2 ^ 31))%N by lia. rewrite Nnat.Nat2N.inj_pow in *. exact H. }
    assert (2 ^ 31 < 2 ^ 64)%N by reflexivity. destruct D2; lia.
  - exact HT.
  - intros t. eapply Z.le_lt_trans; [apply samples_time, HT|apply HS].
  - split; [exact X1|]. intros res0 Hr. specialize (X2 res0 Hr). rewrite C1, C2, C3 in X2. apply (table_drop2 _ _ _ _ X2). reflexivity.
Qed.
End Encrypted.

