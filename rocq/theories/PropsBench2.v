(** C57: the command line of the benchmark program, and the agreement of its methods.  The
    hypotheses of C55 - C57 are met: examples. *)
From Coq Require Import String.
From Coq Require Import List Arith Bool NArith ZArith Ascii Permutation Lia.
Import ListNotations.
From Verif Require Import Base BaseFacts GraphModel Spec GraphFacts TextModel DotModel DotFacts
  TorusModel TfheSpec TfheFacts RunnerModel RunnerSpec ReachFacts BlockFacts FlutFacts
  PropsRunner InputSpec PropsInput TimeModel PropsTime ClientModel CmdModel CmdSpec CmdFacts PropsCmd
  MainSpec MainFacts BenchModel BenchSpec BenchFacts BenchFacts2 BenchManual BenchCli PropsBench.
Local Open Scope list_scope.

(** * C57 *)
(** The manual describes the program. *)
Theorem C57_manual T Y clock times f now argv c o r : bench_line argv c o -> bench_manual T Y clock times f now c o r ->
  bench_main T Y clock times f now argv = r.
Proof. apply bench_manual_main. Qed.
(** Every other command line is rejected, except for spellings that the model leaves open. *)
Theorem C57_total T Y clock times f now argv :
  (exists c o r, bench_line argv c o /\ bench_manual T Y clock times f now c o r) \/
  bench_main T Y clock times f now argv = Fail FExit \/
  (bench_main T Y clock times f now argv = Fail FUndefined /\ bench_outside argv).
Proof. apply bench_cases. Qed.

Lemma shows_fun v v' b : shows v b -> shows v' b -> v = v'.
Proof. unfold shows. congruence. Qed.
Lemma right_unique verdict w freq vs vs' : right_results verdict w freq vs -> right_results verdict w freq vs' -> vs = vs'.
Proof.
  unfold right_results. generalize (multiples freq (length w)) as l. intros l H. revert vs'. induction H as [|v m vs l (b & A & B) _ IH];
    intros vs' H'; inversion H' as [|v' m' vs2 l2 (b' & A' & B') F]; subst; auto.
  rewrite A in A'. injection A' as <-. f_equal; [eapply shows_fun; eauto|apply IH; auto].
Qed.
Lemma workload_readable f s i a g w : workload f s i a g w -> readable f s /\ readable f i.
Proof.
  intros (EF & _ & _ & vals & blocks & _ & EI & _). split; unfold readable; [|congruence].
  unfold from_file, open_file in EF. destruct (f s); discriminate.
Qed.
Lemma header_values now more : values "result" (header now ++ more) = values "result" more.
Proof. rewrite values_app. reflexivity. Qed.
Lemma last_multiple k n : 0 < k -> 0 < n -> n mod k = 0 -> last (multiples k n) 0 = n.
Proof.
  intros K N M. unfold multiples. destruct n as [|n]; [lia|]. rewrite seq_S, filter_app. cbn [filter].
  replace (1 + n) with (S n) by lia. rewrite M. cbn [Nat.eqb]. apply last_last.
Qed.
Lemma right_last verdict w freq vs d : 0 < freq -> w <> [] -> length w mod freq = 0 -> right_results verdict w freq vs ->
  exists b, verdict w = Ok b /\ shows (last vs d) b.
Proof.
  intros F W M H. assert (L : 0 < length w) by (destruct w; [congruence|cbn; lia]).
  pose proof (last_multiple freq (length w) F L M) as E. unfold right_results in H.
  assert (G : vs <> [] -> exists b, verdict (firstn (last (multiples freq (length w)) 0) w) = Ok b /\ shows (last vs d) b).
  { clear - H. induction H as [|v m vs l P Q IH]; [congruence|intros _]. destruct vs as [|v' vs]; inversion Q; subst; [exact P|].
    apply IH. discriminate. }
  rewrite E, firstn_all in G. apply G. intros ->. destruct (multiples freq (length w)); [cbn in E; lia|inversion H].
Qed.

Section Compare.
Context (T : tfhe) (s0 s1 : list Z) (bit : trgsw T -> bool -> Prop) (E : noise) (Y : crypto T).
Hypothesis OK : tfhe_ok T s0 s1 bit E.
Hypothesis NN : noise_nonneg E.
Hypothesis HY : crypto_ok T Y s1 bit.
(** The same specification, input and frequency given to the program under its methods: the same
    results, and these are the right ones; the offline method prints the last of them. *)
Theorem C57_same_results f s i ta a tk k tq q td d tb b g w clock times now
    plain offline reversed qtrlwe2 bbs :
  workload f s i a g w ->
  positive ta a -> positive tk k -> positive tq q -> positive td d -> positive tb b ->
  bench_line plain "plain" [("--ap", Some ta); ("--spec", Some s); ("--in", Some i); ("--out-freq", Some tk)]%string ->
  bench_line offline "offline" [("--ap", Some ta); ("--bootstrapping-freq", Some tb); ("--spec", Some s); ("--in", Some i)]%string ->
  bench_line reversed "reversed" [("--ap", Some ta); ("--out-freq", Some tk); ("--bootstrapping-freq", Some tb);
    ("--spec", Some s); ("--in", Some i)]%string ->
  bench_line qtrlwe2 "qtrlwe2" [("--ap", Some ta); ("--out-freq", Some tk); ("--queue-size", Some tq);
    ("--bootstrapping-freq", Some tb); ("--spec", Some s); ("--in", Some i); ("--max-second-lut-depth", Some td)]%string ->
  bench_line bbs "bbs" [("--ap", Some ta); ("--out-freq", Some tk); ("--queue-size", Some tq); ("--spec", Some s);
    ("--in", Some i)]%string ->
  back_margin E b -> (Z.of_nat (length w) < 2 ^ 31)%Z ->
  q < 31 -> d < 31 -> table_fits (t_n1 T) d q g -> flut_margin (size g * 2 ^ (q / 2)) q b E ->
  (forall n c, In n (flushes q 0 0 (schedule k 0 w)) -> width g n c -> c < 2 ^ d) ->
  block_margin g q E -> Nat.log2 (size g) + 1 < t_n1 T -> Nat.log2 (size g) + 1 < 31 ->
  exists vs, right_results (accepts g) w k vs /\
    Forall (fun argv => exists out table, bench_main T Y clock times f now argv = Ok (out, table) /\ values "result" out = vs)
      [plain; reversed; qtrlwe2; bbs] /\
    (w <> [] -> length w mod k = 0 ->
     exists out, bench_main T Y clock times f now offline = Ok (out, None) /\ values "result" out = [last vs []]).
Proof.
  intros HW Pa Pk Pq Pd Pb L1 L2 L3 L4 L5 M1 W31 Q31 D31 DN M2 FT M3 B1 B2.
  destruct (workload_readable _ _ _ _ _ _ HW) as [RS RI].
  pose proof Pk as [_ K0]. pose proof Pq as [_ Q0]. pose proof Pb as [_ B0].
  destruct (C55_plain f s i a g w k (header now) HW K0) as (o1 & A1 & R1 & _).
  destruct (C55_reversed T s0 s1 bit E Y OK NN HY clock times f s i a g w HW b k false (header now) K0 B0 M1) as (o3 & t3 & m3 & A3 & R3 & _).
  destruct (C55_qtrlwe2 T s0 s1 bit E Y OK NN HY clock times f s i a g w HW k d q b (header now) K0 (conj Q0 Q31) B0 D31 DN M2) as [X _].
  destruct (X FT) as (o4 & A4 & R4 & _).
  destruct (C55_bbs T s0 s1 bit E Y OK NN HY clock times f s i a g w HW k q (header now) K0 M3 B1 B2) as (o5 & t5 & A5 & R5 & _).
  exists (values "result" o1). split; [exact R1|].
  split.
  - repeat (apply Forall_cons); [| | | |constructor].
    + do 2 eexists. split; [rewrite (C57_manual _ _ _ _ _ _ _ _ _ _ L1 (bm_plain T Y clock times f now s i ta a tk k RS RI Pa Pk)); exact A1|].
      apply header_values.
    + do 2 eexists. split; [rewrite (C57_manual _ _ _ _ _ _ _ _ _ _ L3
        (bm_reversed T Y clock times f now s i ta a tk k tb b false false RS RI Pa Pk Pb)); exact A3|].
      rewrite header_values. eapply right_unique; eauto.
    + do 2 eexists. split; [rewrite (C57_manual _ _ _ _ _ _ _ _ _ _ L4
        (bm_qtrlwe2 T Y clock times f now s i ta a tk k tq q tb b td d false RS RI Pa Pk Pq Pb Pd)); exact A4|].
      rewrite header_values. eapply right_unique; eauto.
    + do 2 eexists. split; [rewrite (C57_manual _ _ _ _ _ _ _ _ _ _ L5
        (bm_bbs T Y clock times f now s i ta a tk k tq q false RS RI Pa Pk Pq)); exact A5|].
      rewrite header_values. eapply right_unique; eauto.
  - intros WN WM.
    destruct (C55_offline T s0 s1 bit E Y OK NN HY clock f s i a g w HW b (header now) WN B0 M1 W31) as (o2 & v & A2 & V2 & R2 & _).
    eexists. split; [rewrite (C57_manual _ _ _ _ _ _ _ _ _ _ L2
      (bm_offline T Y clock times f now s i ta a tb b false RS RI Pa Pb)); exact A2|].
    rewrite header_values, R2. destruct (right_last _ _ _ _ [] K0 WN WM R1) as (v' & V & S'). f_equal.
    rewrite V2 in V. injection V as <-. eapply shows_fun; [apply shows_bool|exact S'].
Qed.
End Compare.

(** * The hypotheses are met: the files of PropsCmd.v, the inputs 1, 0, 0, 1, 1, 0 *)
Definition ex_w : list bool := [true; false; false; true; true; false].
Example ex_workload : workload ex_f ["s"%char] ["i"%char] 2 ex_g ex_w.
Proof.
  destruct ex_from_file as (H1 & _ & H3). split; [exact H1|]. split; [rewrite H3; repeat constructor|]. split; [repeat constructor|].
  exists [[true; false]; [false; true]; [true; false]], [[1]; [2]; [1]]%N. split; [exact ex_packs|]. split; reflexivity.
Qed.
Definition ex_clock (n : nat) : text := show_nat n.
Example C55_plain_nonvacuous : exists out, do_plain ex_f ["s"%char] ["i"%char] 1 2 [] = Ok (out, None) /\
  values "result" out = map lit ["0"; "1"; "1"; "1"; "1"; "1"]%string /\
  values "state" out = map lit ["0"; "1"; "2"; "1"; "1"; "2"]%string.
Proof. eexists. split; [vm_compute; reflexivity|]. split; reflexivity. Qed.
(** C55_offline, C55_reversed, C55_qtrlwe2, C55_bbs, C56_reversed and C56_bbs apply to these files. *)
Example ex_measured : measured (fun _ => 0%Z).
Proof.
  split; [intros; lia|]. intros n. apply (Z.le_lt_trans _ 0); [|reflexivity].
  assert (A : forall l, fold_right Z.add 0%Z (map (fun _ : nat => 0%Z) l) = 0%Z) by (induction l as [|x l IH]; cbn; auto).
  rewrite A. lia.
Qed.
Example ex_fits : forall n k, In n (flushes 2 0 0 (schedule 2 0 ex_w)) -> width ex_g n k -> k < 2 ^ 2.
Proof.
  destruct ex_from_file as (EG & W & SG). intros n k _ HW. destruct (reach_exists ex_g n) as [l HR].
  rewrite (width_unique _ _ _ _ HW (reach_width _ W _ _ HR)). pose proof (reach_len _ W _ _ HR) as HL. rewrite SG in HL. cbn. lia.
Qed.
Example C55_offline_nonvacuous : exists out, do_offline ex_T ex_Y ex_clock ex_f ["s"%char] ["i"%char] 2 2 false [] = Ok (out, None) /\
  values "result" out = [lit "1"].
Proof.
  destruct ex_contract as (H1 & H2). destruct ex_margins as (M1 & _).
  destruct (C55_offline ex_T _ _ _ _ ex_Y H1 H2 ex_crypto ex_clock _ _ _ _ _ _ ex_workload 2 []) as (more & b & A & B & C & _);
    [discriminate|lia|exact M1|reflexivity|]. assert (b = true) as -> by (vm_compute in B; congruence). exists more. auto.
Qed.
Example C56_reversed_nonvacuous : exists out samples,
  do_reversed ex_T ex_Y ex_clock (fun _ => 0%Z) ex_f ["s"%char] ["i"%char] 2 2 2 false false [] = Ok (out, Some samples) /\
  values "result" out = map lit ["1"; "1"; "1"]%string /\ values "config-spec_num_states" out = [lit "8"] /\
  (exists csv, dumpCSV samples (Ok csv)) /\
  forall r, dumpCSV samples r -> table [(Cmux, 48%N); (Bootstrapping, 24%N)] r.
Proof.
  destruct ex_contract as (H1 & H2). destruct ex_margins as (M1 & _).
  destruct (C56_reversed ex_T _ _ _ _ ex_Y H1 H2 ex_crypto ex_clock (fun _ => 0%Z) _ _ _ _ _ _ ex_workload 2 2 false []) as
    (more & samples & m & n & A & B & C & D); [exact ex_measured|lia|lia|exact M1|].
  assert (E : exists out samples, do_reversed ex_T ex_Y ex_clock (fun _ => 0%Z) ex_f ["s"%char] ["i"%char] 2 2 2 false false [] = Ok (out, Some samples) /\
    values "result" out = map lit ["1"; "1"; "1"]%string /\ values "config-spec_num_states" out = [lit "8"] /\
    values "config-input_size" out = [lit "6"]) by (eexists; eexists; split; [vm_compute; reflexivity|repeat split; reflexivity]).
  destruct E as (out & samples' & A' & R & B' & C'). rewrite A in A'. injection A' as E1 E2. cbn [app] in E1. subst out samples'.
  assert (m = 8) as ->. { apply show_inj. rewrite B in B'. injection B' as E1. exact E1. }
  assert (n = 6) as ->. { apply show_inj. rewrite C in C'. injection C' as E1. exact E1. }
  exists more, samples. do 3 (split; [auto|]). exact (D eq_refl).
Qed.
Example C55_qtrlwe2_nonvacuous : exists out,
  do_qtrlwe2 ex_T ex_Y ex_clock ex_f ["s"%char] ["i"%char] 2 2 2 2 2 false [] = Ok (out, None) /\
  values "result" out = map lit ["1"; "1"; "1"]%string.
Proof.
  destruct ex_contract as (H1 & H2). destruct ex_margins as (_ & _ & M1). destruct ex_from_file as (EG & W & SG).
  destruct (C55_qtrlwe2 ex_T _ _ _ _ ex_Y H1 H2 ex_crypto ex_clock (fun _ => 0%Z) _ _ _ _ _ _ ex_workload 2 2 2 2 []) as [A _];
    [lia|lia|lia|lia|apply FlutFacts.depth_fits; cbn; lia|rewrite SG; exact M1|].
  destruct (A ex_fits) as (more & R & V & _). exists more. split; [exact R|].
  eapply right_unique; [exact V|]. unfold right_results.
  change (multiples 2 (length ex_w)) with [2; 4; 6].
  repeat constructor; exists true; (split; [vm_compute; reflexivity|reflexivity]).
Qed.
Example C55_bbs_nonvacuous : exists out samples,
  do_bbs ex_T ex_Y ex_clock (fun _ => 0%Z) ex_f ["s"%char] ["i"%char] 3 2 2 false [] = Ok (out, Some samples) /\
  values "result" out = map lit ["1"; "1"]%string /\ values "num_live_states" out = map lit ["1"; "1"; "3"; "3"; "3"; "3"]%string.
Proof.
  destruct ex_contract as (H1 & H2). destruct ex_margins as (_ & M1 & _). destruct ex_from_file as (EG & W & SG).
  destruct (C55_bbs ex_T _ _ _ _ ex_Y H1 H2 ex_crypto ex_clock (fun _ => 0%Z) _ _ _ _ _ _ ex_workload 3 2 []) as (more & samples & A & _);
    [lia|unfold block_margin, block_noise in *; rewrite SG; exact M1|rewrite SG; cbn; lia|rewrite SG; cbn; lia|].
  cbn [app] in A. exists more, samples. split; [exact A|]. vm_compute in A. injection A as <- _. split; reflexivity.
Qed.
Example C56_bbs_nonvacuous : exists out samples,
  do_bbs ex_T ex_Y ex_clock (fun _ => 0%Z) ex_f ["s"%char] ["i"%char] 3 2 2 false [] = Ok (out, Some samples) /\
  flushes 2 0 0 (schedule 3 0 ex_w) = [2; 3; 5; 6] /\
  (exists csv, dumpCSV samples (Ok csv)) /\
  forall r, dumpCSV samples r -> table [(Cmux, 24%N); (CircuitBootstrapping, 6%N)] r.
Proof.
  destruct ex_contract as (H1 & H2). destruct ex_margins as (_ & M1 & _). destruct ex_from_file as (EG & W & SG).
  destruct (C56_bbs ex_T _ _ _ _ ex_Y H1 H2 ex_crypto ex_clock (fun _ => 0%Z) _ _ _ _ _ _ ex_workload 3 2 []
    (fun n => length (reach_list ex_g n))) as (more & samples & A & B & C);
    [exact ex_measured|exact (width_exists _ W)|lia|unfold block_margin, block_noise in *; rewrite SG; exact M1
    |rewrite SG; cbn; lia|rewrite SG; cbn; lia|].
  exists more, samples. split; [exact A|]. split; [reflexivity|]. split; [exact B|]. intros r Hr. specialize (C r Hr).
  change (flushes 2 0 0 (schedule 3 0 ex_w)) with [2; 3; 5; 6] in C. exact C.
Qed.
Example C55_sanitize_nonvacuous :
  do_bbs ex_T ex_Y ex_clock (fun _ => 0%Z) ex_f ["s"%char] ["i"%char] 3 2 2 true [] = Fail FExit /\
  do_qtrlwe2 ex_T ex_Y ex_clock ex_f ["s"%char] ["i"%char] 2 2 2 2 2 true [] = Fail FExit.
Proof. destruct (C55_sanitize ex_T ex_Y ex_clock (fun _ => 0%Z) _ _ _ _ _ _ ex_workload []) as (_ & _ & A & B). auto. Qed.

(** The automaton with one final state, and no input: the empty word is accepted, and the method
    offline prints 0. *)
Definition ex_f0 : fs := write ex_f (lit "all") (map N_of_ascii (lit ">0* 0 0")).
Theorem C55_offline_empty_refuted : exists g out, workload ex_f0 (lit "all") ["e"%char] 2 g [] /\
  do_offline ex_T ex_Y ex_clock ex_f0 (lit "all") ["e"%char] 2 2 false [] = Ok (out, None) /\
  accepts g [] = Ok true /\ values "result" out = [lit "0"].
Proof.
  assert (E : exists g, from_file ex_f0 (lit "all") = Ok g /\ size g = 1 /\ accepts g [] = Ok true)
    by (eexists; split; [vm_compute; reflexivity|split; reflexivity]).
  destruct E as (g & E1 & E2 & E3). exists g.
  assert (HW : workload ex_f0 (lit "all") ["e"%char] 2 g []).
  { split; [exact E1|]. split; [lia|]. split; [lia|]. exists [], []. repeat constructor. }
  destruct (C55_offline_empty ex_T ex_Y ex_clock (fun _ => 0%Z) _ _ _ _ _ _ HW 2 []) as (out & A & B); [auto|lia|].
  exists out. auto.
Qed.

(** The date is printed with the number of the month minus one: 2021-12-31 23:59:58. *)
Definition ex_now : tm := mkTm 121 11 31 23 59 58.
Example C57_month : header ex_now = [(lit "time", lit "2021-11-31_23-59-58")].
Proof. reflexivity. Qed.
Example C57_nonvacuous : let run := bench_main ex_T ex_Y ex_clock (fun _ => 0%Z) ex_f ex_now in
  Forall (fun argv => exists out table, run argv = Ok (out, table) /\ values "result" out = map lit ["1"; "1"; "1"]%string)
    (map (map lit) [["plain"; "--ap"; "2"; "--spec"; "s"; "--in"; "i"; "--out-freq"; "2"];
     ["reversed"; "--ap"; "2"; "--out-freq"; "2"; "--bootstrapping-freq"; "2"; "--spec"; "s"; "--in"; "i"];
     ["qtrlwe2"; "--ap"; "2"; "--out-freq"; "2"; "--queue-size"; "2"; "--bootstrapping-freq"; "2"; "--spec"; "s"; "--in"; "i";
      "--max-second-lut-depth"; "2"];
     ["--verbose"; "bbs"; "--ap"; "2"; "--out-freq"; "2"; "--queue-size"; "2"; "--spec"; "s"; "--in"; "i"]]%string) /\
  (exists out, run (map lit ["offline"; "--ap"; "2"; "--bootstrapping-freq"; "2"; "--spec"; "s"; "--in"; "i"]%string) = Ok (out, None) /\
     values "result" out = [lit "1"]) /\
  run (map lit ["plain"; "--ap"; "0"; "--spec"; "s"; "--in"; "i"; "--out-freq"; "2"]%string) = Fail FExit /\
  run (map lit ["--verbose"; "--verbose"; "plain"]%string) = Fail FUndefined.
Proof.
  destruct ex_contract as (H1 & H2). destruct ex_margins as (M1 & M2 & M3). destruct ex_from_file as (EG & W & SG). cbv zeta.
  assert (N2 : positive (lit "2") 2) by (split; [split; [reflexivity|lia]|lia]).
  assert (CL : forall (v : bool) c items o, options items = o -> positionals items = [] ->
    bench_line ((if v then [lit "--verbose"] else []) ++ lit c :: words items) c o).
  { intros v c items o <- P. exists v, items. auto. }
  destruct (C57_same_results ex_T _ _ _ _ ex_Y H1 H2 ex_crypto ex_f ["s"%char] ["i"%char] (lit "2") 2 (lit "2") 2 (lit "2") 2 (lit "2") 2
    (lit "2") 2 ex_g ex_w ex_clock (fun _ => 0%Z) ex_now
    (map lit ["plain"; "--ap"; "2"; "--spec"; "s"; "--in"; "i"; "--out-freq"; "2"]%string)
    (map lit ["offline"; "--ap"; "2"; "--bootstrapping-freq"; "2"; "--spec"; "s"; "--in"; "i"]%string)
    (map lit ["reversed"; "--ap"; "2"; "--out-freq"; "2"; "--bootstrapping-freq"; "2"; "--spec"; "s"; "--in"; "i"]%string)
    (map lit ["qtrlwe2"; "--ap"; "2"; "--out-freq"; "2"; "--queue-size"; "2"; "--bootstrapping-freq"; "2"; "--spec"; "s"; "--in"; "i";
      "--max-second-lut-depth"; "2"]%string)
    (map lit ["--verbose"; "bbs"; "--ap"; "2"; "--out-freq"; "2"; "--queue-size"; "2"; "--spec"; "s"; "--in"; "i"]%string))
    as (vs & R & A & B).
  - exact ex_workload.
  - exact N2.
  - exact N2.
  - exact N2.
  - exact N2.
  - exact N2.
  - exact (CL false "plain"%string [Opt "--ap" (lit "2"); Opt "--spec" ["s"%char]; Opt "--in" ["i"%char]; Opt "--out-freq" (lit "2")] _ eq_refl eq_refl).
  - exact (CL false "offline"%string [Opt "--ap" (lit "2"); Opt "--bootstrapping-freq" (lit "2"); Opt "--spec" ["s"%char]; Opt "--in" ["i"%char]]
      _ eq_refl eq_refl).
  - exact (CL false "reversed"%string [Opt "--ap" (lit "2"); Opt "--out-freq" (lit "2"); Opt "--bootstrapping-freq" (lit "2");
      Opt "--spec" ["s"%char]; Opt "--in" ["i"%char]] _ eq_refl eq_refl).
  - exact (CL false "qtrlwe2"%string [Opt "--ap" (lit "2"); Opt "--out-freq" (lit "2"); Opt "--queue-size" (lit "2"); Opt "--bootstrapping-freq" (lit "2");
      Opt "--spec" ["s"%char]; Opt "--in" ["i"%char]; Opt "--max-second-lut-depth" (lit "2")] _ eq_refl eq_refl).
  - exact (CL true "bbs"%string [Opt "--ap" (lit "2"); Opt "--out-freq" (lit "2"); Opt "--queue-size" (lit "2");
      Opt "--spec" ["s"%char]; Opt "--in" ["i"%char]] _ eq_refl eq_refl).
  - exact M1.
  - reflexivity.
  - lia.
  - lia.
  - apply FlutFacts.depth_fits. cbn. lia.
  - rewrite SG. exact M3.
  - exact ex_fits.
  - unfold block_margin, block_noise in *. rewrite SG. exact M2.
  - rewrite SG. cbn. lia.
  - rewrite SG. cbn. lia.
  - assert (E : vs = map lit ["1"; "1"; "1"]%string).
    { eapply right_unique; [exact R|]. unfold right_results. change (multiples 2 (length ex_w)) with [2; 4; 6].
      repeat constructor; exists true; (split; [vm_compute; reflexivity|reflexivity]). }
    subst vs. split; [exact A|]. split; [apply B; [discriminate|reflexivity]|]. split; vm_compute; reflexivity.
Qed.

Print Assumptions C55_plain.
Print Assumptions C55_offline.
Print Assumptions C55_offline_empty.
Print Assumptions C55_offline_empty_refuted.
Print Assumptions C55_reversed.
Print Assumptions C55_qtrlwe2.
Print Assumptions C55_bbs.
Print Assumptions C55_sanitize.
Print Assumptions C56_reversed.
Print Assumptions C56_bbs.
Print Assumptions C57_manual.
Print Assumptions C57_total.
Print Assumptions C57_same_results.
