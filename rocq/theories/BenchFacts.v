(** The benchmark program: lemmas. *)
From Coq Require Import String.
From Coq Require Import List Arith Bool NArith ZArith Ascii Permutation Lia.
Import ListNotations.
From Verif Require Import Base BaseFacts GraphModel Spec GraphFacts TextModel DotModel BitsModel TorusModel TfheSpec
  RunnerModel RunnerFacts RunnerSpec ReachFacts TimeModel PropsTime CmdModel CmdSpec BenchModel BenchSpec.
Local Open Scope list_scope.

Lemma values_app k a b : values k (a ++ b) = values k a ++ values k b.
Proof. unfold values. rewrite filter_app, map_app. reflexivity. Qed.

(** * Verdicts along a schedule *)
Lemma verdicts_schedule g freq w : forall fed,
  RunnerSpec.verdicts g fed (schedule freq (length fed) w) =
  map (fun m => accepts g (firstn m (fed ++ w))) (filter (fun m => m mod freq =? 0) (seq (S (length fed)) (length w))).
Proof.
  induction w as [|b w IH]; intros fed; cbn [schedule RunnerSpec.verdicts length seq filter map]; [reflexivity|].
  specialize (IH (fed ++ [b])). rewrite app_length in IH. cbn [length] in IH. rewrite Nat.add_1_r in IH.
  rewrite <- app_assoc in IH. cbn [app] in IH.
  destruct (S (length fed) mod freq =? 0); cbn [app RunnerSpec.verdicts map]; [|exact IH].
  rewrite IH. assert (X : firstn (S (length fed)) (fed ++ b :: w) = fed ++ [b]); [|rewrite X; reflexivity].
  replace (fed ++ b :: w) with ((fed ++ [b]) ++ w) by (rewrite <- app_assoc; reflexivity).
  rewrite firstn_app, app_length. cbn [length]. replace (S (length fed) - (length fed + 1)) with 0 by lia.
  rewrite firstn_O, app_nil_r, firstn_all2; auto. rewrite app_length. cbn. lia.
Qed.
Lemma schedule_encrypts {C} (bit : C -> bool -> Prop) freq cts w : Forall2 bit cts w -> forall n,
  encrypts bit (schedule freq n cts) (schedule freq n w).
Proof.
  unfold encrypts. induction 1 as [|c b cts w H F IH]; intros n; cbn [schedule]; [constructor|].
  constructor; [constructor; auto|]. apply Forall2_app; [|apply IH].
  destruct (S n mod freq =? 0); repeat constructor.
Qed.

(** * The loop *)
(** The states of the runner before each input. *)
Fixpoint trail {R C A} (feed : R -> C -> res R) (ask : R -> res (A * R)) (h : list (option C)) (r : R) : list R :=
  match h with
  | [] => []
  | Some c :: h' => r :: match feed r c with Ok r' => trail feed ask h' r' | Fail _ => [] end
  | None :: h' => match ask r with Ok (_, r') => trail feed ask h' r' | Fail _ => [] end
  end.

Section Loop.
Context (T : tfhe) (Y : crypto T) (s1 : list Z) (bit : trgsw T -> bool -> Prop).
Context (HY : crypto_ok T Y s1 bit).
Context (clock : nat -> text).
Notation N1 := (t_n1 T).
Context {R : Type} (feed : R -> trgsw T -> res R) (ask : R -> res (tlwe * R)) (info : R -> list line).
Context (run : bench R -> trgsw T -> list line -> res (bool * bench R * list line)).
Hypothesis Hrun : forall s c o, run s c o =
  (do '(b, s') <- bench_run T feed ask s c; Ok (b, s', o ++ info (bn_runner s))).
Hypothesis Hinfo : forall r, values "result" (info r) = [].
Context (freq : nat) (Hfreq : 0 < freq).

Definition loop_step : bench R * list line -> bool -> res (bench R * list line) :=
    (fun '(runner, out) input =>
       let enc_input := c_enc T Y (length out) input in
       let out := print_elapsed clock "enc" out in
       do '(output_exists, runner, out) <- run runner enc_input out;
       let out := print_elapsed clock "run" out in
       if output_exists : bool then
         do c <- bench_result runner;
         let out := print_elapsed clock "dec" out in
         Ok (runner, print "result" (show_bool (decrypt_TLWELvl1_to_bit N1 c (c_key T Y))) out)
       else Ok (runner, out)).

Lemma loop_play w : forall s o, bn_freq s = freq -> exists cts, Forall2 bit cts w /\
  match play feed ask (schedule freq (bn_num s) cts) (bn_runner s) with
  | Fail e => foldM loop_step w (s, o) = Fail e
  | Ok (outs, r') => exists s' more, foldM loop_step w (s, o) = Ok (s', o ++ more) /\ bn_runner s' = r' /\
      values "result" more = map (fun c => show_bool (decrypt_TLWELvl1_to_bit N1 c s1)) outs /\
      forall key, ~ In key ["enc"; "run"; "dec"; "result"]%string ->
        values key more = concat (map (fun r => values key (info r)) (trail feed ask (schedule freq (bn_num s) cts) (bn_runner s)))
  end.
Proof.
  assert (NK : forall key k v, key <> k -> values key [(lit k, v)] = []).
  { intros key k v N. unfold values. cbn [filter fst]. destruct (list_eq_dec _ _ _) as [E|E]; [|reflexivity].
    exfalso. apply N. unfold lit in E. rewrite <- (string_of_list_ascii_of_string key), <- E, string_of_list_ascii_of_string.
    reflexivity. }
  induction w as [|b w IH]; intros s o HF.
  - exists []. split; [constructor|]. cbn. exists s, []. rewrite app_nil_r. auto.
  - set (c := c_enc T Y (length o) b). set (o1 := print_elapsed clock "enc" o).
    assert (K : forall s' o', bn_freq s' = freq -> bn_num s' = S (bn_num s) ->
      exists cts, Forall2 bit cts w /\
        match play feed ask (schedule freq (S (bn_num s)) cts) (bn_runner s') with
        | Fail e => foldM loop_step w (s', o') = Fail e
        | Ok (outs, r') => exists s'' more, foldM loop_step w (s', o') = Ok (s'', o' ++ more) /\ bn_runner s'' = r' /\
           values "result" more = map (fun c => show_bool (decrypt_TLWELvl1_to_bit N1 c s1)) outs /\
           forall key, ~ In key ["enc"; "run"; "dec"; "result"]%string ->
             values key more = concat (map (fun r => values key (info r))
                (trail feed ask (schedule freq (S (bn_num s)) cts) (bn_runner s')))
        end).
    { intros s' o' F' N'. rewrite <- N'. apply IH. exact F'. }
    clear IH. cbn [foldM]. remember (loop_step (s, o) b) as L eqn:EL.
    unfold loop_step in EL. cbv beta iota zeta in EL. fold c in EL. fold o1 in EL. rewrite Hrun in EL. unfold bench_run in EL.
    destruct (feed (bn_runner s) c) as [r1|e] eqn:EF; cbn [bind] in EL.
    2:{ assert (exists cts, Forall2 bit cts w) as (cts & HC).
        { exists (map (c_enc T Y 0) w). clear - HY. induction w; constructor; auto. apply (y_bit _ _ _ _ HY). }
        exists (c :: cts). split; [constructor; auto; apply (y_bit _ _ _ _ HY)|].
        cbn [schedule play]. rewrite EF, EL. reflexivity. }
    rewrite HF in EL. destruct (Nat.eqb_spec freq 0) as [?|_]; [lia|].
    destruct (S (bn_num s) mod freq =? 0) eqn:EM; cbn [negb] in EL.
    + destruct (ask r1) as [[d r2]|e] eqn:EA; cbn [bind] in EL.
      2:{ assert (exists cts, Forall2 bit cts w) as (cts & HC).
          { exists (map (c_enc T Y 0) w). clear - HY. induction w; constructor; auto. apply (y_bit _ _ _ _ HY). }
          exists (c :: cts). split; [constructor; auto; apply (y_bit _ _ _ _ HY)|].
          cbn [schedule play]. rewrite EF. cbn [bind]. rewrite EM. cbn [app play]. rewrite EA, EL. reflexivity. }
      unfold bench_result in EL. cbn [bn_result bind] in EL.
      match type of EL with _ = Ok (?a, ?b) => set (s' := a) in EL; set (o' := b) in EL end. rewrite EL. cbn [bind].
      destruct (K s' o') as (cts & HC & H); [reflexivity|reflexivity|].
      exists (c :: cts). split; [constructor; auto; apply (y_bit _ _ _ _ HY)|].
      cbn [schedule play trail]. rewrite EF. cbn [bind]. rewrite EM. cbn [app play trail]. rewrite EA. cbn [bind].
      change (bn_runner s') with r2 in H.
      destruct (play feed ask (schedule freq (S (bn_num s)) cts) r2) as [[outs r']|e]; cbn [bind]; [|exact H].
      destruct H as (s'' & more & E & H1 & H2 & H3).
      exists s''. eexists. split; [|split; [exact H1|split]].
      * rewrite E. f_equal. f_equal. subst o' o1. unfold print, print_elapsed, print. rewrite <- !app_assoc. reflexivity.
      * rewrite !values_app, Hinfo, H2. rewrite !NK by discriminate. cbn. rewrite (y_key _ _ _ _ HY). reflexivity.
      * intros key NI. rewrite !values_app, (H3 key NI). cbn in NI. rewrite !NK by intuition. cbn [map concat app].
        reflexivity.
    + cbn [bind] in EL.
      match type of EL with _ = Ok (?a, ?b) => set (s' := a) in EL; set (o' := b) in EL end. rewrite EL. cbn [bind].
      destruct (K s' o') as (cts & HC & H); [reflexivity|reflexivity|].
      exists (c :: cts). split; [constructor; auto; apply (y_bit _ _ _ _ HY)|].
      cbn [schedule play trail]. rewrite EF. cbn [bind]. rewrite EM. cbn [app].
      change (bn_runner s') with r1 in H.
      destruct (play feed ask (schedule freq (S (bn_num s)) cts) r1) as [[outs r']|e]; [|exact H].
      destruct H as (s'' & more & E & H1 & H2 & H3).
      exists s''. eexists. split; [|split; [exact H1|split]].
      * rewrite E. f_equal. f_equal. subst o' o1. unfold print, print_elapsed, print. rewrite <- !app_assoc. reflexivity.
      * rewrite !values_app, Hinfo, H2. rewrite !NK by discriminate. reflexivity.
      * intros key NI. rewrite !values_app, (H3 key NI). cbn in NI. rewrite !NK by intuition. cbn [map concat app].
        reflexivity.
Qed.
End Loop.

(** * Counting operations *)
Definition rt_eqb (a b : RunnerModel.target) : bool :=
  match a, b with
  | T_CIRCUIT_BOOTSTRAPPING, T_CIRCUIT_BOOTSTRAPPING | T_BOOTSTRAPPING, T_BOOTSTRAPPING | T_CMUX, T_CMUX => true
  | _, _ => false
  end.
Definition tot (t : RunnerModel.target) (timer : list (RunnerModel.target * nat)) : nat :=
  list_sum (map (fun e => if rt_eqb t (fst e) then snd e else 0) timer).
Lemma tot_app t a b : tot t (a ++ b) = tot t a + tot t b.
Proof. unfold tot. rewrite map_app, list_sum_app. reflexivity. Qed.

Lemma samples_total times t timer : total_count (kind_of t) (samples_of times timer) = N.of_nat (tot t timer).
Proof.
  unfold samples_of. generalize 0 as i. induction timer as [|[t' n] timer IH]; intros i; [reflexivity|].
  cbn [length seq combine map total_count s_target s_count]. rewrite IH. cbn [tot map fst snd list_sum].
  unfold tot. cbn [map list_sum fold_right fst snd]. rewrite Nnat.Nat2N.inj_add. f_equal.
  destruct t, t'; cbn; try reflexivity;
    match goal with |- context [target_eq_dec ?a ?b] => destruct (target_eq_dec a b); congruence end.
Qed.
Lemma samples_in times timer s : In s (samples_of times timer) ->
  exists i t n, s = mkSample (kind_of t) (N.of_nat n) (times i) /\ In (t, n) timer.
Proof.
  unfold samples_of. intros H. apply in_map_iff in H as ([i [t n]] & <- & H). apply in_combine_r in H. eauto 6.
Qed.
Lemma in_samples times timer t n : In (t, n) timer -> recorded (kind_of t) (samples_of times timer).
Proof.
  unfold samples_of, recorded. generalize 0 as i. induction timer as [|[t' n'] timer IH]; intros i H; [destruct H|].
  cbn [length seq combine map]. destruct H as [[= -> ->]|H].
  - eexists. split; [left; reflexivity|reflexivity].
  - destruct (IH (S i) H) as (s & I & E). exists s. split; [right; exact I|exact E].
Qed.
Lemma tot_zero t timer : (forall e, In e timer -> 0 < snd e) -> (tot t timer = 0 <-> forall n, ~ In (t, n) timer).
Proof.
  unfold tot. induction timer as [|[t' n'] timer IH]; intros H; cbn [map list_sum fold_right fst snd].
  - split; auto.
  - assert (IH' := IH (fun e He => H e (or_intror He))). pose proof (H (t', n') (or_introl eq_refl)) as P. cbn in P.
    unfold list_sum in *. destruct (rt_eqb t t') eqn:E.
    + split; [lia|]. intros N. exfalso. apply (N n'). left. destruct t, t'; try discriminate; reflexivity.
    + cbn [Nat.add]. rewrite IH'. split; intros N n I.
      * destruct I as [[= <- <-]|I]; [destruct t'; discriminate|exact (N n I)].
      * apply (N n). right. exact I.
Qed.
Lemma kind_of_inj a b : kind_of a = kind_of b -> a = b.
Proof. destruct a, b; cbn; congruence. Qed.

(** The table that is printed for a recorder. *)
Lemma table_of times timer :
  (forall e, In e timer -> 0 < snd e /\ (N.of_nat (snd e) < 2 ^ 64)%N) -> (forall i, 0 <= times i)%Z ->
  (forall t, total_time t (samples_of times timer) < 2 ^ 63)%Z ->
  (exists out, dumpCSV (samples_of times timer) (Ok out)) /\
  forall r, dumpCSV (samples_of times timer) r ->
    table [(Cmux, N.of_nat (tot T_CMUX timer)); (Bootstrapping, N.of_nat (tot T_BOOTSTRAPPING timer));
           (CircuitBootstrapping, N.of_nat (tot T_CIRCUIT_BOOTSTRAPPING timer))] r.
Proof.
  intros HP HT HB.
  set (l := samples_of times timer) in *.
  assert (EC : forall l', current (map (fun s => Record (s_target s) (s_count s) (s_time s)) l') = l' /\
     existsb (fun c => match c with Clear => true | _ => false end) (map (fun s => Record (s_target s) (s_count s) (s_time s)) l') = false).
  { induction l' as [|s l' [IH1 IH2]]; [auto|]. cbn [map current existsb orb]. rewrite IH1, IH2. destruct s; auto. }
  pose proof (C44_summary (map (fun s => Record (s_target s) (s_count s) (s_time s)) l)) as C. cbv zeta in C.
  rewrite (steps_current _ []), (proj1 (EC l)), (proj2 (EC l)) in C. cbn [app] in C.
  destruct C as (C1 & C2).
  { intros s Hs. apply samples_in in Hs as (i & t & n & -> & I). cbn. destruct (HP _ I). auto. }
  { exact HB. }
  split; [exact C1|]. intros r Hr. destruct (C2 r Hr) as (order & ND & HO & ->).
  exists (map (fun t => (t, total_count t l)) order). split.
  - apply NoDup_Permutation.
    + apply FinFun.Injective_map_NoDup; auto. intros a b [= -> _]. reflexivity.
    + apply NoDup_filter. repeat constructor; cbn; intuition congruence.
    + assert (KEY : forall t, In (kind_of t) order <-> tot t timer <> 0).
      { intros t. rewrite HO. split.
        - intros (s & I & E) Z0. apply samples_in in I as (i & t' & n & -> & I). cbn in E. apply kind_of_inj in E as ->.
          apply (proj1 (tot_zero t timer (fun e He => proj1 (HP e He))) Z0 n I).
        - intros NZ. assert (DT : forall a b : RunnerModel.target, {a = b} + {a <> b}) by decide equality.
          destruct (in_dec DT t (map fst timer)) as [I|NI].
          + apply in_map_iff in I as ([t' n] & <- & I). cbn. eapply in_samples; eauto.
          + exfalso. apply NZ. apply (tot_zero t timer (fun e He => proj1 (HP e He))). intros n I. apply NI.
            apply (in_map fst) in I. exact I. }
      intros [t n]. rewrite in_map_iff, filter_In. cbn [In snd]. split.
      * intros (t' & [= -> <-] & I). 
        assert (exists t0, t = kind_of t0) as (t0 & ->).
        { destruct t; [exists T_CIRCUIT_BOOTSTRAPPING|exists T_BOOTSTRAPPING|exists T_CMUX]; reflexivity. }
        unfold l. rewrite samples_total. apply KEY in I. split.
        -- destruct t0; cbn [kind_of]; auto.
        -- apply negb_true_iff. apply N.eqb_neq. lia.
      * intros (D & NZ). apply negb_true_iff in NZ. apply N.eqb_neq in NZ.
        assert (exists t0, (t, n) = (kind_of t0, N.of_nat (tot t0 timer))) as (t0 & [= -> ->]).
        { destruct D as [<-|[<-|[<-|[]]]]; [exists T_CMUX|exists T_BOOTSTRAPPING|exists T_CIRCUIT_BOOTSTRAPPING]; reflexivity. }
        exists (kind_of t0). split; [unfold l; rewrite samples_total; reflexivity|]. apply KEY. lia.
  - exists (fun t => total_time t l). rewrite map_map. reflexivity.
Qed.

(** ** Reverse *)
Lemma div_S n k : 0 < k -> S n / k = n / k + (if S n mod k =? 0 then 1 else 0).
Proof.
  intros K. pose proof (Nat.div_mod n k ltac:(lia)) as D1. pose proof (Nat.mod_upper_bound n k ltac:(lia)) as B1.
  pose proof (Nat.div_mod (S n) k ltac:(lia)) as D2. pose proof (Nat.mod_upper_bound (S n) k ltac:(lia)) as B2.
  revert D1 B1 D2 B2. generalize (n / k), (n mod k), (S n / k), (S n mod k). intros a b c d D1 B1 D2 B2.
  destruct (Nat.eqb_spec d 0); nia.
Qed.
Section Back.
Context (T : tfhe).
Lemma back_eval_timer (s s' : backstream) c : b_input_size s = None -> 0 < b_interval s -> backstream_eval T s c = Ok s' ->
  b_input_size s' = None /\ b_interval s' = b_interval s /\ b_graph s' = b_graph s /\ b_nproc s' = S (b_nproc s) /\
  b_timer s' = b_timer s ++ (T_CMUX, size (b_graph s)) ::
    (if S (b_nproc s) mod b_interval s =? 0 then [(T_BOOTSTRAPPING, size (b_graph s))] else []).
Proof.
  intros HN HI H. unfold backstream_eval in H. cbv zeta in H. rewrite HN in H. cbn [bind] in H.
  apply bind_ok in H as (w & _ & H). destruct (Nat.eqb_spec (b_interval s) 0); [lia|].
  assert (LA : length (all_states (b_graph s)) = size (b_graph s)) by apply seq_length.
  destruct (_ =? 0).
  - apply bind_ok in H as (w2 & _ & [= <-]). cbn. rewrite LA, <- app_assoc. auto.
  - injection H as <-. cbn. rewrite LA. auto.
Qed.
Definition rev_ask (r : backstream) : res (tlwe * backstream) := do c <- online2_result T r; Ok (c, r).
Lemma back_play_timer h : forall (r r' : backstream) outs, b_input_size r = None -> 0 < b_interval r ->
  play (online2_eval_one T) rev_ask h r = Ok (outs, r') ->
  b_input_size r' = None /\ b_interval r' = b_interval r /\ b_graph r' = b_graph r /\
  b_nproc r' = b_nproc r + length (inputs h) /\
  (forall e, In e (b_timer r') -> In e (b_timer r) \/ snd e = size (b_graph r)) /\
  tot T_CMUX (b_timer r') = tot T_CMUX (b_timer r) + length (inputs h) * size (b_graph r) /\
  tot T_BOOTSTRAPPING (b_timer r') + b_nproc r / b_interval r * size (b_graph r) =
    tot T_BOOTSTRAPPING (b_timer r) + b_nproc r' / b_interval r * size (b_graph r) /\
  tot T_CIRCUIT_BOOTSTRAPPING (b_timer r') = tot T_CIRCUIT_BOOTSTRAPPING (b_timer r).
Proof.
  induction h as [|[c|] h IH]; intros r r' outs HN HI H; cbn [play inputs length] in *.
  - injection H as _ <-. rewrite Nat.add_0_r.
    repeat match goal with |- _ /\ _ => split end; auto; lia.
  - apply bind_ok in H as (r1 & E1 & H). destruct (back_eval_timer _ _ _ HN HI E1) as (A1 & A2 & A3 & A4 & A5).
    destruct (IH r1 r' outs) as (B1 & B2 & B3 & B4 & B5 & B6 & B7 & B8); [auto|lia|exact H|].
    rewrite A2, A3 in *. split; [auto|]. split; [auto|]. split; [auto|]. split; [lia|].
    rewrite A5 in *. rewrite tot_app in B6, B7, B8. split; [|split; [|split]].
    + intros e He. destruct (B5 e He) as [I|I]; auto. apply in_app_iff in I as [I|I]; auto. right.
      destruct I as [<-|I]; auto. destruct (_ =? 0); [destruct I as [<-|[]]; auto|destruct I].
    + rewrite B6. destruct (_ =? 0); cbn; lia.
    + rewrite A4 in B7. rewrite (div_S (b_nproc r) (b_interval r)) in B7 by lia.
      revert B7. generalize (b_nproc r / b_interval r), (b_nproc r' / b_interval r). intros a b B7.
      destruct (_ =? 0); cbn in B7; lia.
    + rewrite B8. destruct (_ =? 0); cbn; lia.
  - apply bind_ok in H as ([c r1] & E1 & H). unfold rev_ask in E1. apply bind_ok in E1 as (c' & _ & [= -> <-]).
    apply bind_ok in H as ([o s'] & H & [= _ <-]). eapply IH; eauto.
Qed.
End Back.
Lemma inputs_schedule {C} freq (l : list C) : forall n, inputs (schedule freq n l) = l.
Proof.
  induction l as [|x l IH]; intros n; [reflexivity|]. cbn [schedule inputs]. f_equal.
  destruct (S n mod freq =? 0); cbn [app inputs]; apply IH.
Qed.
