(** C53, C54: the randomised test programs. *)
From Coq Require Import List Arith Bool NArith ZArith Lia.
From Coq Require Import ZifyBool ZifyNat ZifyN.
Import ListNotations.
From Verif Require Import Base BaseFacts GraphModel Spec GraphFacts GraphOps Quotient TextModel TorusModel TfheSpec TfheFacts
  RunnerModel RunnerSpec ReachFacts PropsRunner LtlModel LtlFacts4 LtlSpec PropsLtl RandomModel RandomSpec RandomFacts.
Local Open Scope nat_scope.

(** * C53: the plain test reports exactly the differences there are *)
(** The oracle answers whether the monitor can read the valuations of the word one after another. *)
Theorem C53_oracle M n w k : monitor_ok M n -> no_dead_ends M -> 0 < n -> 0 < k -> length w = k * n ->
  exists b, monitor_accepts M w n = Ok b /\ (b = true <-> whole M n w).
Proof. intros HM ND H0 HK L. eapply oracle_whole; eauto. Qed.

Lemma compare_with_agrees M n w b g v : (b = true <-> whole M n w) -> (exists r, accepts g v = Ok r) ->
  (compare_with b g v = Ok tt /\ agrees M n w g v) \/ (compare_with b g v = Fail FExit /\ ~ agrees M n w g v).
Proof.
  intros HB (r & E). unfold compare_with, agrees, dfa_accepts, dfa_rejects. rewrite E. cbn [bind].
  destruct b, r; cbn [Bool.eqb].
  - left. split; auto. split; auto. intros H. exfalso. apply H, HB. reflexivity.
  - right. split; auto. intros (H & _). specialize (H (proj1 HB eq_refl)). discriminate.
  - right. split; auto. intros (_ & H). assert (K : ~ whole M n w) by (intros K; apply HB in K; discriminate). specialize (H K). discriminate.
  - left. split; auto. split; auto. intros H. apply HB in H. discriminate.
Qed.
Lemma compare_opt_agrees M n w b g v : (b = true <-> whole M n w) -> (forall g', g = Some g' -> exists r, accepts g' v = Ok r) ->
  (compare_opt b g v = Ok tt /\ agrees_opt M n w g v) \/ (compare_opt b g v = Fail FExit /\ ~ agrees_opt M n w g v).
Proof. intros HB HE. destruct g as [g|]; [|left; split; cbn; auto]. apply compare_with_agrees; auto. Qed.

(** A wrong automaton is reported: for any six automata, a word passes if and only if every one of
    them gives the monitor's verdict on it, and otherwise the program stops. *)
Theorem C53_reports M n gr rgr rgr2 mgr mrgr mrgr2 w k :
  monitor_ok M n -> no_dead_ends M -> 0 < n -> 0 < k -> length w = k * n ->
  (forall g, In g [gr; rgr; rgr2] \/ In (Some g) [mgr; mrgr; mrgr2] -> wf_graph g) ->
  let all_agree := agrees M n w gr w /\ agrees_opt M n w mgr w /\ agrees M n w rgr (rev w) /\ agrees_opt M n w mrgr (rev w) /\
                   agrees M n w rgr2 (rev w) /\ agrees_opt M n w mrgr2 (rev w) in
  (all_agree -> compare_all M n gr rgr rgr2 mgr mrgr mrgr2 w = Ok tt) /\
  (~ all_agree -> compare_all M n gr rgr rgr2 mgr mrgr mrgr2 w = Fail FExit).
Proof.
  intros HM ND H0 HK L W all_agree. destruct (C53_oracle M n w k HM ND H0 HK L) as (b & E & HB).
  assert (T : forall g v, wf_graph g -> exists r, accepts g v = Ok r).
  { intros g v Wg. destruct (reversed_correct g Wg) as (g' & _ & _ & A & _). destruct (A v) as (r & A1 & _). eauto. }
  unfold compare_all, all_agree. rewrite E. cbn [bind].
  destruct (compare_with_agrees M n w b gr w HB (T _ _ (W gr ltac:(cbn; auto)))) as [(-> & A1)|(-> & A1)]; cbn [bind]; [|tauto].
  destruct (compare_opt_agrees M n w b mgr w HB) as [(-> & A2)|(-> & A2)]; [intros g ->; apply T, W; cbn; auto| |]; cbn [bind]; [|tauto].
  destruct (compare_with_agrees M n w b rgr (rev w) HB (T _ _ (W rgr ltac:(cbn; auto)))) as [(-> & A3)|(-> & A3)]; cbn [bind]; [|tauto].
  destruct (compare_opt_agrees M n w b mrgr (rev w) HB) as [(-> & A4)|(-> & A4)]; [intros g ->; apply T, W; cbn; auto| |]; cbn [bind]; [|tauto].
  destruct (compare_with_agrees M n w b rgr2 (rev w) HB (T _ _ (W rgr2 ltac:(cbn; auto)))) as [(-> & A5)|(-> & A5)]; cbn [bind]; [|tauto].
  destruct (compare_opt_agrees M n w b mrgr2 (rev w) HB) as [(-> & A6)|(-> & A6)]; [intros g ->; apply T, W; cbn; auto 6| |]; tauto.
Qed.

Lemma small_minimized_ok g : wf_graph g -> exists m, small_minimized g = Ok m /\
  forall g', m = Some g' -> wf_graph g' /\ forall w, accepts g' w = accepts g w.
Proof.
  intros W. unfold small_minimized. destruct (_ <? _)%N.
  - destruct (minimized_correct g W) as (m & -> & Wm & A & _). exists (Some m). split; auto. intros g' [= <-]. auto.
  - exists None. split; auto. discriminate.
Qed.
Lemma test_formula_ok M n num_test rand : monitor_ok M n -> no_dead_ends M -> 0 < n <= 32 ->
  (forall i, 100 <= i < num_test -> exists w k, nth_error rand (i - 100) = Some w /\ 0 < k /\ length w = k * n) ->
  test_formula M n num_test rand = Ok tt.
Proof.
  intros HM ND HN HR. unfold test_formula.
  destruct (C42_ltl M n false HM) as (gr & EG & WG & DG).
  destruct (C43_reversed M n false HM) as (gr' & rgr2 & EG' & E2 & W2 & A2). rewrite EG in EG'. injection EG' as <-.
  destruct (reversed_correct gr WG) as (rgr & ER & WR & AR & _).
  destruct (small_minimized_ok gr WG) as (mgr & EM & HM1).
  destruct (small_minimized_ok rgr WR) as (mrgr & EM2 & HM2).
  destruct (small_minimized_ok rgr2 W2) as (mrgr2 & EM3 & HM3).
  rewrite EG. cbn [bind]. rewrite ER. cbn [bind]. rewrite E2. cbn [bind]. rewrite EM. cbn [bind]. rewrite EM2. cbn [bind]. rewrite EM3. cbn [bind].
  assert (AG : forall w, agrees M n w gr w) by (intros w; destruct (DG w) as (H1 & H2 & _); split; [apply H1|apply H2]).
  assert (G : forall w k, 0 < k -> length w = k * n -> compare_all M n gr rgr rgr2 mgr mrgr mrgr2 w = Ok tt).
  { intros w k HK L. apply (C53_reports M n gr rgr rgr2 mgr mrgr mrgr2 w k HM ND ltac:(lia) HK L).
    - intros g [[<-|[<-|[<-|[]]]]|[->|[->|[->|[]]]]]; auto; [apply (HM1 g eq_refl)|apply (HM2 g eq_refl)|apply (HM3 g eq_refl)].
    - assert (EQ : forall g v, accepts g v = accepts gr w -> agrees M n w g v).
      { intros g v E. destruct (AG w) as (H1 & H2). unfold agrees, dfa_accepts, dfa_rejects. rewrite E. split; auto. }
      assert (RR : accepts rgr (rev w) = accepts gr w) by (destruct (AR w) as (b & -> & ->); reflexivity).
      split; [apply AG|]. split; [destruct mgr as [g|]; [|exact I]; apply EQ, (HM1 g eq_refl)|].
      split; [apply EQ, RR|]. split; [destruct mrgr as [g|]; [|exact I]; apply EQ; rewrite (proj2 (HM2 g eq_refl)); exact RR|].
      split; [apply EQ, A2|]. destruct mrgr2 as [g|]; [|exact I]. apply EQ. rewrite (proj2 (HM3 g eq_refl)). apply A2. }
  destruct (foldM_ind (fun (_ : unit) i =>
    do w <- (if i <? 100 then int2bvec (i + 1) n else at_ rand (i - 100));
    compare_all M n gr rgr rgr2 mgr mrgr mrgr2 w) (fun _ _ => True) (seq 0 num_test) tt I) as ([] & EF & _); auto.
  intros done i rest [] EQ _. assert (HI : i < num_test).
  { assert (K : In i (seq 0 num_test)) by (rewrite EQ; apply in_or_app; right; left; reflexivity). apply in_seq in K. lia. }
  exists tt. split; auto. destruct (Nat.ltb_spec i 100).
  - destruct (int2bvec_ok (i + 1) n ltac:(lia) HN) as (w & k & -> & HK & L). cbn [bind]. eapply G; eauto.
  - destruct (HR i ltac:(lia)) as (w & k & NE & HK & L). unfold at_. rewrite NE. cbn [bind]. eapply G; eauto.
Qed.
(** The program finds no difference: for every file of formulas, every number of propositions from 1
    to 32 and all random words. *)
Theorem C53_no_difference spot input n draw : 0 < n <= 32 ->
  (forall fml, In fml (getlines c_nl [] input) -> parses spot fml = true /\ monitor_ok (spot fml n) n /\ no_dead_ends (spot fml n)) ->
  test_plain_main spot input n draw = Ok tt.
Proof.
  intros HN HS. unfold test_plain_main, test_plain.
  destruct (mapM_total (fun i => random_bvec (draw i) n) (seq 0 (300 - 100))) as (rand & ER).
  { intros i _. destruct (random_bvec_ok (draw i) n ltac:(lia)) as (w & k & E & _). eauto. }
  rewrite ER. cbn [bind].
  destruct (foldM_ind (fun (_ : unit) fml => do M <- ltl_to_monitor spot fml n; test_formula M n 300 rand) (fun _ _ => True) (getlines c_nl [] input) tt I) as ([] & EF & _); auto.
  intros done fml rest [] EQ _. exists tt. split; auto. destruct (HS fml) as (HF & HM & ND); [rewrite EQ; apply in_or_app; right; left; reflexivity|].
  unfold ltl_to_monitor. rewrite HF. cbn [assert_ bind].
  apply test_formula_ok; auto. intros i HI.
  destruct (mapM_nth _ _ _ (i - 100) (i - 100) ER) as (w & NE & EW).
  { rewrite (nth_error_nth' _ 0) by (rewrite seq_length; lia). rewrite seq_nth by lia. reflexivity. }
  destruct (random_bvec_ok (draw (i - 100)) n ltac:(lia)) as (w' & k & E' & HK & L). rewrite EW in E'. injection E' as <-. eauto.
Qed.
(** Outside that range the program's behaviour is not defined. *)
Theorem C53_limits spot input n draw :
  (n = 0 -> test_plain_main spot input n draw = Fail FUndefined) /\
  (33 <= n -> getlines c_nl [] input <> [] -> (forall fml, In fml (getlines c_nl [] input) -> parses spot fml = true /\ monitor_ok (spot fml n) n) ->
   test_plain_main spot input n draw = Fail FUndefined).
Proof.
  split; [intros ->; reflexivity|]. intros HN NE HS. unfold test_plain_main, test_plain.
  destruct (mapM_total (fun i => random_bvec (draw i) n) (seq 0 (300 - 100))) as (rand & ->).
  { intros i _. destruct (random_bvec_ok (draw i) n ltac:(lia)) as (w & k & E & _). eauto. }
  cbn [bind]. destruct (getlines c_nl [] input) as [|fml lines]; [congruence|]. cbn [foldM]. clear NE.
  destruct (HS fml (or_introl eq_refl)) as (HF & HS'). clear HS. rename HS' into HS. unfold ltl_to_monitor. rewrite HF. cbn [assert_ bind]. set (M := spot fml n) in *.
  enough (test_formula M n 300 rand = Fail FUndefined) as -> by reflexivity. unfold test_formula.
  destruct (C42_ltl M n false HS) as (gr & EG & WG & DG).
  destruct (C43_reversed M n false HS) as (gr' & rgr2 & EG' & E2 & W2 & A2). rewrite EG in EG'. injection EG' as <-.
  destruct (reversed_correct gr WG) as (rgr & ER & WR & AR & _).
  destruct (small_minimized_ok gr WG) as (mgr & EM & HM1).
  destruct (small_minimized_ok rgr WR) as (mrgr & EM2 & HM2).
  destruct (small_minimized_ok rgr2 W2) as (mrgr2 & EM3 & HM3).
  rewrite EG. cbn [bind]. rewrite ER. cbn [bind]. rewrite E2. cbn [bind]. rewrite EM. cbn [bind]. rewrite EM2. cbn [bind]. rewrite EM3. cbn [bind].
  change (seq 0 300) with (0 :: seq 1 299). cbn [foldM]. change (0 <? 100) with true. cbn [Nat.add]. 
  enough (int2bvec 1 n = Fail FUndefined) as -> by reflexivity. unfold int2bvec. destruct (Nat.eqb_spec n 0); [lia|].
  destruct (round_up_ok n ltac:(lia) n (Nat.log2 1 + 1)) as (s & -> & S1 & S2); [cbn; lia|]. cbn [bind].
  destruct (mod0_mul s n ltac:(lia) S1) as (k & ->). assert (k <> 0) by (intros ->; cbn in S2; lia). assert (HL : 33 <= k * n) by nia.
  replace (k * n) with (32 + (1 + (k * n - 33))) by lia. rewrite seq_app, seq_app. cbn. reflexivity.
Qed.

Example ex_no_dead_ends : no_dead_ends ex_monitor.
Proof.
  intros [|[|q]] q' c; cbn; intuition (try discriminate); repeat match goal with H : (_, _) = (_, _) |- _ => injection H as <- <- end; discriminate.
Qed.
(** A file of two lines with the formula of [ex_monitor]. *)
Definition ex_formulas : text := [Ascii.ascii_of_nat 112; c_nl; Ascii.ascii_of_nat 113].
Definition ex_draw (i : nat) : nat * (nat -> bool) := (i mod 20, fun j => Nat.testbit (i + 3 * j) 1).
Example C53_nonvacuous :
  length (getlines c_nl [] ex_formulas) = 2 /\ 0 < 3 <= 32 /\ monitor_ok ex_monitor 3 /\ no_dead_ends ex_monitor /\
  test_plain_main (mkSpot (fun _ _ => ex_monitor) (fun _ => true)) ex_formulas 3 ex_draw = Ok tt.
Proof.
  split; [vm_compute; reflexivity|]. split; [lia|]. split; [exact ex_monitor_ok|]. split; [exact ex_no_dead_ends|].
  vm_compute. reflexivity.
Qed.
(** The word 100 010 is accepted and the word 100 011 is not; an automaton with the opposite verdicts,
    or one that reads the reversed word in the wrong order, is reported. *)
Example C53_reports_nonvacuous :
  monitor_accepts ex_monitor [true; false; false; false; true; false] 3 = Ok true /\
  monitor_accepts ex_monitor [true; false; false; false; true; true] 3 = Ok false /\
  exists g gn gr, from_ltl_formula ex_monitor 3 false = Ok g /\ negated g = Ok gn /\ reversed g = Ok gr /\
    compare_all ex_monitor 3 g gr gr None None None [true; false; false; false; true; false] = Ok tt /\
    compare_all ex_monitor 3 gn gr gr None None None [true; false; false; false; true; true] = Fail FExit /\
    compare_all ex_monitor 3 g g gr None None None [true; false; false; false; true; true] = Fail FExit.
Proof.
  split; [vm_compute; reflexivity|]. split; [vm_compute; reflexivity|].
  destruct (C42_ltl ex_monitor 3 false ex_monitor_ok) as (g & E & W & _). exists g.
  assert (K : (do g <- from_ltl_formula ex_monitor 3 false; do gn <- negated g; do gr <- reversed g;
     Ok (compare_all ex_monitor 3 g gr gr None None None [true; false; false; false; true; false],
         compare_all ex_monitor 3 gn gr gr None None None [true; false; false; false; true; true],
         compare_all ex_monitor 3 g g gr None None None [true; false; false; false; true; true])) = Ok (Ok tt, Fail FExit, Fail FExit))
    by (vm_compute; reflexivity).
  rewrite E in K. cbn [bind] in K. destruct (negated g) as [gn|]; [|discriminate]. destruct (reversed g) as [gr|]; [|discriminate].
  cbn [bind] in K. injection K as K1 K2 K3. exists gn, gr. auto 8.
Qed.

(** * C54: the encrypted test *)
(** The encrypted run gets the bits that the oracle gets if every proposition occurs in the formula. *)
Theorem C54_same_word M n ap_vars w k : monitor_ok M n -> 0 < n -> map (m_var M) (seq 0 n) = map Some ap_vars -> length w = k * n ->
  permutation_table M ap_vars n = Ok (seq 0 n) /\ permutate_input_bits (seq 0 n) w = Ok w.
Proof.
  intros HM H0 HV L. split.
  - unfold permutation_table.
    assert (LA : length ap_vars = n) by (apply (f_equal (@length _)) in HV; rewrite !map_length, seq_length in HV; auto).
    assert (E : flat_map (fun v => match find_key Nat.eq_dec v (var2idx M n) with Some i => [i] | None => [] end) ap_vars = seq 0 n).
    { clear L. assert (G : forall l m, m + length l <= n -> map (m_var M) (seq m (length l)) = map Some l ->
        flat_map (fun v => match find_key Nat.eq_dec v (var2idx M n) with Some i => [i] | None => [] end) l = seq m (length l)).
      { induction l as [|v l IH]; intros m HL EL; [reflexivity|]. cbn [length seq map flat_map] in *. injection EL as EV EL.
        rewrite (proj2 (var2idx_find M n (mo_vars _ _ HM) n (le_n _) v m)) by (split; [lia|auto]).
        cbn [app]. f_equal. apply IH; auto. lia. }
      pose proof (G ap_vars 0) as K. rewrite LA in K. apply K; auto. }
    rewrite E, seq_length, Nat.sub_diag. cbn [repeat]. rewrite app_nil_r, seq_length, Nat.eqb_refl. reflexivity.
  - unfold permutate_input_bits. rewrite seq_length. destruct (Nat.eqb_spec n 0); [lia|]. rewrite L, Nat.div_mul by lia.
    destruct (chop n k w L) as (vals & F & -> & LV). clear L.
    assert (IN : forall (val pre post : list bool) m l acc, length l = m -> (exists h, val = h ++ l /\ length h + m = n) ->
      foldM (fun w j => do b <- at_ (pre ++ val ++ post) (length pre + j); Ok (w ++ [b])) (seq (n - m) m) acc = Ok (acc ++ l)).
    { intros val pre post m. induction m as [|m IH]; intros l acc LL (h & -> & LH).
      - destruct l; [|discriminate]. cbn. rewrite app_nil_r. reflexivity.
      - destruct l as [|b l]; [discriminate|]. cbn [seq foldM].
        assert (AT : at_ (pre ++ (h ++ b :: l) ++ post) (length pre + (n - S m)) = Ok b).
        { unfold at_. rewrite nth_error_app2 by lia. rewrite <- app_assoc, nth_error_app2 by lia.
          replace (length pre + (n - S m) - length pre - length h) with 0 by lia. reflexivity. }
        rewrite AT. cbn [bind]. replace (S (n - S m)) with (n - m) by lia.
        rewrite (IH l (acc ++ [b])); [rewrite <- app_assoc; reflexivity|cbn in LL; lia|].
        exists (h ++ [b]). rewrite <- app_assoc, app_length. cbn. split; auto. lia. }
    assert (G : forall vals (pre : list bool) i acc, Forall (fun val : list bool => length val = n) vals -> length pre = i * n ->
      foldM (fun w i => foldM (fun w j => do b <- at_ (pre ++ concat vals) (i * n + j); Ok (w ++ [b])) (seq 0 n) w)
        (seq i (length vals)) acc = Ok (acc ++ concat vals)).
    { intros vs. induction vs as [|v vs IH]; intros pre i acc FV LP; [cbn; rewrite app_nil_r; reflexivity|].
      inversion FV as [|x l0 E1 F1 Q]; subst x l0. cbn [length seq foldM concat].
      rewrite <- LP. pose proof (IN v pre (concat vs) n v acc E1 (ex_intro _ [] (conj eq_refl eq_refl))) as K.
      rewrite Nat.sub_diag in K. rewrite K. cbn [bind].
      rewrite (app_assoc acc), app_assoc. apply IH; auto. rewrite app_length. lia. }
    rewrite <- LV. exact (G vals [] 0 [] F eq_refl).
Qed.

Lemma play_one {St C R} (feed : St -> C -> res St) (ask : St -> res (R * St)) cts : forall s,
  play feed ask (map Some cts ++ [None]) s = do s' <- foldM feed cts s; do '(r, s'') <- ask s'; Ok ([r], s'').
Proof.
  induction cts as [|c cts IH]; intros s; cbn [map app play foldM].
  - cbn [bind]. destruct (ask s) as [(r, s')|]; reflexivity.
  - destruct (feed s c) as [s'|]; cbn [bind]; auto.
Qed.
Lemma verdicts_one g w : forall fed, RunnerSpec.verdicts g fed (map Some w ++ [None]) = [accepts g (fed ++ w)].
Proof.
  induction w as [|b w IH]; intros fed; cbn [map app RunnerSpec.verdicts]; [rewrite app_nil_r; reflexivity|].
  rewrite IH, <- app_assoc. reflexivity.
Qed.
Lemma encrypts_one {C} (bit : C -> bool -> Prop) cts w : Forall2 bit cts w -> encrypts bit (map Some cts ++ [None]) (map Some w ++ [None]).
Proof. intros F. apply Forall2_app; [|repeat constructor]. induction F; constructor; auto. constructor. auto. Qed.
Lemma same_accepts g g' : wf_graph g -> wf_graph g' -> g_delta g' = g_delta g -> g_final g' = g_final g -> g_init g' = g_init g ->
  forall w, accepts g' w = accepts g w.
Proof.
  intros W W' HD HF HI w. apply wf_graph_iff in W as (_ & _ & E & _). apply wf_graph_iff in W' as (_ & _ & E' & _).
  rewrite E, E', HD, HF, HI. reflexivity.
Qed.

Lemma test_stream_bits T (bit : trgsw T -> bool -> Prop) c0 c1 w : bit c0 false -> bit c1 true -> Forall2 bit (test_stream T c0 c1 w) w.
Proof. intros B0 B1. induction w as [|[] w IH]; cbn; constructor; auto. Qed.

(** Where the encrypted runs of the test are meant to be: the noise leaves room for the bootstrapping
    intervals they use, the words are shorter than 2^31, and for QTRLWE2 fewer than 2^8 states are
    reached by words of the lengths at which the queue of 15 is evaluated. *)
Definition crypto_fits (T : tfhe) (E : noise) (method : METHOD) (gr : Graph) (w : list bool) : Prop :=
  match method with
  | OFFLINE => back_margin E (N.to_nat 30000) /\ (Z.of_nat (length w) < 2 ^ 31)%Z
  | ONLINE_REVERSED => back_margin E (N.to_nat 30000)
  | ONLINE_QTRLWE2 => 2 ^ 8 <= t_n1 T /\ flut_margin (size gr * 2 ^ (15 / 2)) 15 1 E /\
      forall n k, In n (flushes 15 0 0 (map Some w ++ [None])) -> width gr n k -> k < 2 ^ 8
  end.
(** The ciphertext of the verdict, decrypted as the clients decrypt it, is the verdict of the automaton. *)
Theorem C54_encrypted_verdict : forall T s0 s1 bit E, tfhe_ok T s0 s1 bit E -> noise_nonneg E ->
  forall method gr c0 c1 w, wf_graph gr -> bit c0 false -> bit c1 true -> crypto_fits T E method gr w ->
  exists c, encrypted_verdict T method gr c0 c1 w = Ok c /\ accepts gr w = Ok (decrypt_TLWELvl1_to_bit (t_n1 T) c s1).
Proof.
  intros T s0 s1 bit E OK NN method gr c0 c1 w W B0 B1 FITS.
  assert (HF : Forall2 bit (test_stream T c0 c1 w) w) by (apply test_stream_bits; auto).
  pose proof (encrypts_one bit _ _ HF) as HE. destruct method; cbn [crypto_fits encrypted_verdict] in *.
  - destruct FITS as (HM & HL). destruct (C30_offline T s0 s1 bit E OK NN gr (N.to_nat 30000) w _ W ltac:(lia) HM HL HF) as (c & EC & A).
    exists c. split; auto. unfold offline_run in EC. rewrite rev_length. exact EC.
  - destruct (C31_reverse T s0 s1 bit E OK NN gr (N.to_nat 30000) _ _ W ltac:(lia) FITS HE) as (outs & s' & EO & EV).
    unfold reverse_new in EO. destruct (online2_new T gr (N.to_nat 30000) false true false) as [r|]; cbn [bind] in *; [|discriminate].
    rewrite play_one in EO. destruct (foldM _ _ r) as [r'|]; cbn [bind] in *; [|discriminate]. unfold reverse_ask in EO.
    destruct (online2_result T r') as [c|]; cbn [bind] in *; [|discriminate]. injection EO as <- <-.
    rewrite verdicts_one in EV. cbn [map app] in EV. injection EV as EV. exists c. auto.
  - destruct FITS as (HN & HM & HW).
    destruct (C33_flut T s0 s1 bit E OK NN gr 8 15 1 _ _ W ltac:(lia) ltac:(lia) ltac:(lia) (FlutFacts.depth_fits _ _ _ _ HN) HM HE HW) as (outs & s' & EO & EV).
    destruct (flut_new T gr 8 15 1 false) as [r|]; cbn [bind] in *; [|discriminate].
    rewrite play_one in EO. destruct (foldM _ _ r) as [r'|]; cbn [bind] in *; [|discriminate].
    destruct (flut_result T r') as [(c, r'')|]; cbn [bind] in *; [|discriminate]. injection EO as <- <-.
    rewrite verdicts_one in EV. cbn [map app] in EV. injection EV as EV. exists c. auto.
Qed.
(** The automaton that the test runs *)
Definition tested_automaton (M : monitor) (n : nat) (gr : Graph) : Prop :=
  (do g <- from_ltl_formula M n false; do g <- minimized g; reserve_states_at_depth g (N.to_nat 10000)) = Ok gr.
(** For a formula in which every proposition occurs, all three methods compute the verdict of the
    monitor on the word that the oracle gets. *)
Theorem C54_verdict_partial : forall T s0 s1 bit E, tfhe_ok T s0 s1 bit E -> noise_nonneg E ->
  forall M n ap_vars method c0 c1 w k, monitor_ok M n -> no_dead_ends M -> 0 < n ->
  map (m_var M) (seq 0 n) = map Some ap_vars -> bit c0 false -> bit c1 true -> 0 < k -> length w = k * n ->
  (forall gr, tested_automaton M n gr -> crypto_fits T E method gr w) ->
  exists gr tbl w' c, tested_automaton M n gr /\ permutation_table M ap_vars n = Ok tbl /\ permutate_input_bits tbl w = Ok w' /\
    encrypted_verdict T method gr c0 c1 w' = Ok c /\ monitor_accepts M w n = Ok (decrypt_TLWELvl1_to_bit (t_n1 T) c s1).
Proof.
  intros T s0 s1 bit E OK NN M n ap_vars method c0 c1 w k HM ND H0 HV B0 B1 HK L FITS.
  destruct (C42_ltl M n false HM) as (g & EG & WG & DG). destruct (minimized_correct g WG) as (m & EM & WM & AM & _).
  destruct (states_at_depth_correct m (N.to_nat 10000) WM) as (gr & ER & WR & HD & HF & HI & _).
  assert (TA : tested_automaton M n gr) by (unfold tested_automaton; rewrite EG; cbn [bind]; rewrite EM; cbn [bind]; exact ER).
  destruct (C54_same_word M n ap_vars w k HM H0 HV L) as (P1 & P2).
  destruct (C54_encrypted_verdict T s0 s1 bit E OK NN method gr c0 c1 w WR B0 B1 (FITS gr TA)) as (c & EC & A).
  exists gr, (seq 0 n), w, c. split; auto. split; auto. split; auto. split; auto.
  destruct (C53_oracle M n w k HM ND H0 HK L) as (b & EB & HB). rewrite EB, <- A, (same_accepts m gr WM WR HD HF HI w), AM.
  destruct (DG w) as (D1 & D2 & _). unfold dfa_accepts, dfa_rejects in *. destruct b.
  - symmetry. apply D1, HB. reflexivity.
  - symmetry. apply D2. intros K. apply HB in K. discriminate.
Qed.

(** ** What is missing: the test itself rejects right verdicts *)
(** "G p1" over five propositions, of which only p1 has a variable: p1 has to hold in every valuation. *)
Definition g_p1 : monitor :=
  {| m_ns := 1; m_init := 0; m_out := fun q => match q with 0 => [(0, BN 7 BF BT)] | _ => [] end;
     m_var := fun i => if i =? 1 then Some 7 else None |}.
Example g_p1_ok : monitor_ok g_p1 5 /\ no_dead_ends g_p1.
Proof.
  split; [constructor|].
  - cbn. lia.
  - intros [|q] q' c; cbn; [|lia]. intros _ [[= <- <-]|[]]. lia.
  - cbn. intros i j v _ _. destruct (Nat.eqb_spec i 1), (Nat.eqb_spec j 1); intros [= <-]; try discriminate; lia.
  - intros [|q] q' c; cbn; [|lia]. intros _ [[= <- <-]|[]]. apply (ordered_node _ _ _ 1); [lia|reflexivity|constructor|constructor].
  - intros [|q] q' c; cbn; [|lia]. intros _ [[= <- <-]|[]]. exists [false; true; false; false; false]. split; auto.
    apply (sat_high _ _ _ _ _ 1); auto. constructor.
  - intros [|q] q' c; cbn; [|intros []]. intros [[= <- <-]|[]]. discriminate.
Qed.
(** The second word of the test, 01000, satisfies it; the encrypted run gets 10000, which does not. *)
Theorem C54_padding_refuted : exists gr w', from_ltl_formula g_p1 5 false = Ok gr /\ int2bvec 2 5 = Ok [false; true; false; false; false] /\
  monitor_accepts g_p1 [false; true; false; false; false] 5 = Ok true /\ accepts gr [false; true; false; false; false] = Ok true /\
  (do tbl <- permutation_table g_p1 [7] 5; permutate_input_bits tbl [false; true; false; false; false]) = Ok w' /\ accepts gr w' = Ok false.
Proof.
  destruct (C42_ltl g_p1 5 false (proj1 g_p1_ok)) as (g & E & W & _). exists g, [true; false; false; false; false]. split; auto.
  split; [reflexivity|]. split; [reflexivity|].
  assert (K : (do g <- from_ltl_formula g_p1 5 false; Ok (accepts g [false; true; false; false; false], accepts g [true; false; false; false; false]))
     = Ok (Ok true, Ok false)) by (vm_compute; reflexivity).
  rewrite E in K. cbn [bind] in K. injection K as K1 K2. auto.
Qed.
(** Without noise, an accepted word's verdict is exactly 1/2: the clients decrypt it to 1, the test
    decrypts it to 0 and stops. *)
Definition exact_T : tfhe := toy 3 8 [1; 0; 1]%Z ex_s1 0.
Theorem C54_decryption_refuted :
  tfhe_ok exact_T [1; 0; 1]%Z ex_s1 (fun c b => c = b) (toy_noise 0) /\ monitor_accepts ex_monitor [true; false; false; false; true; false] 3 = Ok true /\
  exists gr c, (do g <- from_ltl_formula ex_monitor 3 false; minimized g) = Ok gr /\
    encrypted_verdict exact_T OFFLINE gr false true [true; false; false; false; true; false] = Ok c /\
    decrypt_TLWELvl1_to_bit 8 c ex_s1 = true /\ tlweSymDecrypt exact_T c ex_s1 = false /\
    crypto_word exact_T OFFLINE ex_monitor 3 gr [0; 1; 2] false true ex_s1 [true; false; false; false; true; false] = Fail FExit.
Proof.
  split; [apply toy_ok; lia|]. split; [reflexivity|].
  assert (K : (do g <- from_ltl_formula ex_monitor 3 false; do gr <- minimized g;
     do c <- encrypted_verdict exact_T OFFLINE gr false true [true; false; false; false; true; false];
     Ok (decrypt_TLWELvl1_to_bit 8 c ex_s1, tlweSymDecrypt exact_T c ex_s1,
         crypto_word exact_T OFFLINE ex_monitor 3 gr [0; 1; 2] false true ex_s1 [true; false; false; false; true; false])) = Ok (true, false, Fail FExit))
    by (vm_compute; reflexivity).
  destruct (from_ltl_formula ex_monitor 3 false) as [g|]; cbn [bind] in *; [|discriminate].
  destruct (minimized g) as [gr|]; cbn [bind] in *; [|discriminate].
  destruct (encrypted_verdict exact_T OFFLINE gr false true [true; false; false; false; true; false]) as [c|] eqn:EC; cbn [bind] in *; [|discriminate].
  injection K as K1 K2 K3. exists gr, c. auto 6.
Qed.
(** The hypotheses of [C54_verdict_partial] hold for [ex_monitor], whose propositions all occur, with each
    method and any word. *)
Definition wide_T : tfhe := toy 3 256 [1; 0; 1]%Z (repeat 1%Z 256) 10.
Example C54_nonvacuous : forall method w k, 0 < k -> length w = k * 3 -> (Z.of_nat (length w) < 2 ^ 31)%Z ->
  tfhe_ok wide_T [1; 0; 1]%Z (repeat 1%Z 256) (fun c b => c = b) (toy_noise 10) /\ noise_nonneg (toy_noise 10) /\
  map (m_var ex_monitor) (seq 0 3) = map Some [10; 11; 12] /\
  exists gr, tested_automaton ex_monitor 3 gr /\ size gr = 10 /\
    (forall gr, tested_automaton ex_monitor 3 gr -> crypto_fits wide_T (toy_noise 10) method gr w).
Proof.
  intros method w k HK L HL. split; [apply toy_ok; lia|]. split; [unfold noise_nonneg; cbn; lia|]. split; [reflexivity|].
  destruct (C42_ltl ex_monitor 3 false ex_monitor_ok) as (g & EG & WG & _). destruct (minimized_correct g WG) as (m & EM & WM & AM & _).
  destruct (states_at_depth_correct m (N.to_nat 10000) WM) as (gr & ER & WR & HD & HF & HI & _). exists gr.
  assert (TA : tested_automaton ex_monitor 3 gr) by (unfold tested_automaton; rewrite EG; cbn [bind]; rewrite EM; cbn [bind]; exact ER).
  assert (SZ : size gr = 10).
  { assert (K : (do g <- from_ltl_formula ex_monitor 3 false; do m <- minimized g; Ok (size m)) = Ok 10) by (vm_compute; reflexivity).
    rewrite EG in K. cbn [bind] in K. rewrite EM in K. cbn [bind] in K. injection K as K. unfold size in *. rewrite HD. exact K. }
  split; auto. split; auto. intros gr' TA'. unfold tested_automaton in TA, TA'. rewrite TA in TA'. injection TA' as <-.
  destruct method; cbn [crypto_fits].
  - split; auto. vm_compute. reflexivity.
  - vm_compute. reflexivity.
  - split; [cbn [wide_T toy t_n1]; lia|]. split; [rewrite SZ; vm_compute; reflexivity|]. intros n0 k0 _ HW.
    destruct (reach_exists gr n0) as [l HR]. rewrite (width_unique _ _ _ _ HW (reach_width _ WR _ _ HR)).
    pose proof (reach_len _ WR _ _ HR). change (2 ^ 8) with 256. lia.
Qed.

Print Assumptions C53_oracle.
Print Assumptions C53_reports.
Print Assumptions C53_no_difference.
Print Assumptions C53_limits.
Print Assumptions C54_same_word.
Print Assumptions C54_encrypted_verdict.
Print Assumptions C54_verdict_partial.
Print Assumptions C54_padding_refuted.
Print Assumptions C54_decryption_refuted.
