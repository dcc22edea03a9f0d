(** C36: results do not depend on thread scheduling.

    A parallel region is a list of tasks, each a sequence of reads and writes of shared cells
    (ParModel.v).  [region ps m ps' m'] holds when some interleaving of the steps of the tasks ps,
    started in memory m, ends with memory m'.  The functions ending in _any return the set of
    outcomes over all interleavings of all their regions and all intermediate contents of
    half-written cells.  Each theorem says this set has exactly one element, the outcome of the
    sequential model, whose verdicts are right (C30-C33). *)
From Coq Require Import List Arith Bool NArith ZArith Lia.
Import ListNotations.
From Verif Require Import Base BaseFacts GraphModel Spec GraphFacts TorusModel TfheSpec RunnerModel RunnerSpec
  PropsRunner ParModel ParFacts SchedFacts.

(** Tasks such that no task writes what another one reads or writes: whatever the interleaving,
    every task ends as if it had run alone, and its cells hold what it wrote. *)
Theorem C36_race_free : forall V (rd wr : nat -> addr -> Prop) (ps : list (prog V)) (m : mem V) ps' m',
  (forall i p, nth_error ps i = Some p -> confined (rd i) (wr i) p) ->
  (forall i j a, i <> j -> i < length ps -> j < length ps -> wr i a -> ~ rd j a /\ ~ wr j a) ->
  region ps m ps' m' ->
  length ps' = length ps /\
  (forall i p p', nth_error ps i = Some p -> nth_error ps' i = Some p' ->
     match solo p m with
     | Ok mi => p' = Done /\ forall a, wr i a -> m' a = mi a
     | Fail f => p' = Throw f
     end) /\
  (forall a, (forall i, i < length ps -> ~ wr i a) -> m' a = m a).
Proof. intros V. apply race_free. Qed.

(** No schedule runs forever or gets stuck: steps are well-founded, and some task can move as long
    as one has not ended. *)
Theorem C36_schedules_end : forall V,
  well_founded (fun c' c : list (prog V) * mem V => step c c') /\
  (forall (ps : list (prog V)) m, Forall ended ps \/ exists c, step (ps, m) c).
Proof. intros V. split; [apply region_terminates|apply region_progress]. Qed.

(** ** The runners, for any implementation T of the TFHEpp functions *)
Theorem C36_histories_reverse : forall T h s out,
  play (online2_eval_one T) (reverse_ask T) h s = Ok out ->
  forall x, play_any (backstream_eval_any T) (fun s => det (reverse_ask T s)) h s x <-> x = Ok out.
Proof.
  intros T h s out E. revert out E. apply exact_play.
  - apply backstream_any_exact.
  - intros; apply exact_det.
Qed.
Theorem C36_histories_flut : forall T h s out,
  play (flut_eval_one T) (flut_result T) h s = Ok out ->
  forall x, play_any (flut_eval_one_any T) (flut_result_any T) h s x <-> x = Ok out.
Proof.
  intros T h s out E. revert out E. apply exact_play.
  - apply flut_one_any_exact.
  - apply flut_result_any_exact.
Qed.
Theorem C36_histories_block : forall T h s out,
  play (block_eval_one T) (block_result T) h s = Ok out ->
  forall x, play_any (block_eval_one_any T) (block_result_any T) h s x <-> x = Ok out.
Proof.
  intros T h s out E. revert out E. apply exact_play.
  - apply block_one_any_exact.
  - apply block_result_any_exact.
Qed.
Theorem C36_histories_legacy : forall T cs s out,
  foldM (legacy_eval_one T) cs s = Ok out -> forall x, foldS (legacy_eval_one_any T) cs s x <-> x = Ok out.
Proof. intros T cs s out E. revert out E. apply exact_fold. apply legacy_any_exact. Qed.

(** ** With the verdicts *)
Definition offline_run_any (T : tfhe) (g : Graph) (interval : nat) (cts : list (trgsw T)) : outcomes tlwe :=
  any r <- det (offline_new T g (length cts) interval true false);
  any r <- foldS (backstream_eval_any T) (rev cts) r;
  det (offline_result T r).

Theorem C36_offline : forall T s0 s1 bit E, tfhe_ok T s0 s1 bit E -> noise_nonneg E ->
  forall g interval w cts, wf_graph g -> (0 < interval)%nat -> back_margin E interval ->
  (Z.of_nat (length w) < 2 ^ 31)%Z -> Forall2 bit cts w ->
  exists c, (forall x, offline_run_any T g interval cts x <-> x = Ok c) /\
    accepts g w = Ok (decrypt_TLWELvl1_to_bit (t_n1 T) c s1).
Proof.
  intros T s0 s1 bit E OK NN g interval w cts W HI HM HL HF.
  destruct (C30_offline T s0 s1 bit E OK NN g interval w cts W HI HM HL HF) as (c & EC & AC).
  exists c. split; [|exact AC]. revert c EC AC. unfold offline_run. intros c EC _. revert c EC.
  apply exact_bind_det. intros r _. apply exact_bind; [|intros; apply exact_det].
  apply exact_fold. apply backstream_any_exact.
Qed.

Theorem C36_reverse : forall T s0 s1 bit E, tfhe_ok T s0 s1 bit E -> noise_nonneg E ->
  forall g interval h hb, wf_graph g -> (0 < interval)%nat -> back_margin E interval -> encrypts bit h hb ->
  exists outs s',
    (forall x, (any r <- det (reverse_new T g interval false);
                play_any (backstream_eval_any T) (fun s => det (reverse_ask T s)) h r) x <-> x = Ok (outs, s')) /\
    map (fun c => Ok (decrypt_TLWELvl1_to_bit (t_n1 T) c s1)) outs = verdicts g [] hb.
Proof.
  intros T s0 s1 bit E OK NN g interval h hb W HI HM HE.
  destruct (C31_reverse T s0 s1 bit E OK NN g interval h hb W HI HM HE) as (outs & s' & EO & PO).
  exists outs, s'. split; [|exact PO]. revert EO. generalize (outs, s'). apply exact_bind_det. intros r _ out E1.
  now apply C36_histories_reverse.
Qed.

Theorem C36_flut : forall T s0 s1 bit E, tfhe_ok T s0 s1 bit E -> noise_nonneg E ->
  forall g max_depth queue_size freq h hb, wf_graph g ->
  (0 < queue_size < 31)%nat -> (0 < freq)%nat -> (max_depth < 31)%nat -> (table_fits (t_n1 T) max_depth queue_size g)%nat ->
  flut_margin (size g * 2 ^ (queue_size / 2)) queue_size freq E -> encrypts bit h hb ->
  (forall n k, In n (flushes queue_size 0 0 hb) -> width g n k -> (k < 2 ^ max_depth)%nat) ->
  exists outs s',
    (forall x, (any r <- det (flut_new T g max_depth queue_size freq false);
                play_any (flut_eval_one_any T) (flut_result_any T) h r) x <-> x = Ok (outs, s')) /\
    map (fun c => Ok (decrypt_TLWELvl1_to_bit (t_n1 T) c s1)) outs = verdicts g [] hb.
Proof.
  intros T s0 s1 bit E OK NN g md qs freq h hb W HQ HF HD HN HM HE HWd.
  destruct (C33_flut T s0 s1 bit E OK NN g md qs freq h hb W HQ HF HD HN HM HE HWd) as (outs & s' & EO & PO).
  exists outs, s'. split; [|exact PO]. revert EO. generalize (outs, s'). apply exact_bind_det. intros r _ out E1.
  now apply C36_histories_flut.
Qed.

Theorem C36_block : forall T s0 s1 bit E, tfhe_ok T s0 s1 bit E -> noise_nonneg E ->
  forall g queue_size h hb, wf_graph g -> block_margin g queue_size E ->
  (Nat.log2 (size g) + 1 < t_n1 T)%nat -> (Nat.log2 (size g) + 1 < 31)%nat ->
  encrypts bit h hb -> hd_error hb <> Some None ->
  exists outs s',
    (forall x, (any r <- det (block_new T g queue_size false);
                play_any (block_eval_one_any T) (block_result_any T) h r) x <-> x = Ok (outs, s')) /\
    map (fun c => Ok (decrypt_TLWELvl1_to_bit (t_n1 T) c s1)) outs = verdicts g [] hb.
Proof.
  intros T s0 s1 bit E OK NN g qs h hb W HM H1 H2 HE HF.
  destruct (C32_block T s0 s1 bit E OK NN g qs h hb W HM H1 H2 HE HF) as (outs & s' & EO & PO).
  exists outs, s'. split; [|exact PO]. revert EO. generalize (outs, s'). apply exact_bind_det. intros r _ out E1.
  now apply C36_histories_block.
Qed.

(** ** Concrete cases *)
(** The hypotheses of the runner theorems are those of C30-C33, met by ex_dfa and ex_T
    (PropsRunner.v).  Two interleaved CMUX tasks with a half-written cell, step by step. *)
Definition ex_w : list trlwe := [([], [1%Z]); ([], [2%Z]); ([], [3%Z])].
Definition ex_m : mem (cell ex_T) := fun a =>
  match a with (B_weight, i) => C_rlwe ex_T (nth i ex_w ([], [])) | _ => C_rlwe ex_T ([], []) end.
Definition ex_tasks : list (prog (cell ex_T)) :=
  map (fun q => cmux_task ex_T ex_dfa true 3 3 [C_rlwe ex_T ([], [9%Z])] q) [0; 1].
Example C36_region_nonvacuous : NoDup [0; 1] /\ vec ex_T ex_m B_weight ex_w /\
  exists ps' m', region ex_tasks ex_m ps' m'.
Proof.
  split; [repeat constructor; cbn; intuition lia|]. split; [|apply region_exists].
  intros i v H. unfold ex_m. f_equal. now apply nth_error_nth.
Qed.
(** If two tasks share a cell the outcome does depend on the schedule, so the hypothesis of
    C36_race_free is needed. *)
Example C36_race_matters : exists (ps : list (prog nat)) m ps1 m1 ps2 m2 a,
  region ps m ps1 m1 /\ region ps m ps2 m2 /\ m1 a <> m2 a.
Proof.
  pose (a := (B_out, 0)).
  exists [Wr a 1 Done; Wr a 2 Done], (fun _ => 0), [Done; Done], (store (store (fun _ => 0) a 1) a 2),
    [Done; Done], (store (store (fun _ => 0) a 2) a 1), a.
  assert (En : Forall ended [@Done nat; Done]) by (repeat constructor).
  split; [|split; [|cbn; discriminate]].
  - split; [|exact En].
    eapply steps_step; [apply (step_at [] _ [Wr a 2 Done]); constructor|].
    eapply steps_step; [apply (step_at [Done] _ []); constructor|]. constructor.
  - split; [|exact En].
    eapply steps_step; [apply (step_at [Wr a 1 Done] _ []); constructor|].
    eapply steps_step; [apply (step_at [] _ [Done]); constructor|]. constructor.
Qed.

Print Assumptions C36_race_free.
Print Assumptions C36_schedules_end.
Print Assumptions C36_histories_reverse.
Print Assumptions C36_histories_flut.
Print Assumptions C36_histories_block.
Print Assumptions C36_histories_legacy.
Print Assumptions C36_offline.
Print Assumptions C36_reverse.
Print Assumptions C36_flut.
Print Assumptions C36_block.
