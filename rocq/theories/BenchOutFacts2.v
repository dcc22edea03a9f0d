(** The loop of benchmark qtrlwe2 with its output: lemmas. *)
From Coq Require Import String.
From Coq Require Import List Arith Bool NArith ZArith Ascii Lia.
Import ListNotations.
From Verif Require Import Base BaseFacts GraphModel Spec GraphFacts TextModel DotModel BitsModel TorusModel TfheSpec TfheFacts
  RunnerModel RunnerFacts LookupFacts RunnerSpec ReachFacts ParFacts BlockFacts FlutFacts TimeModel CmdModel CmdSpec
  BenchModel BenchSpec BenchFacts BenchFacts2 PropsBench BenchOutModel BenchOutFacts.
Local Open Scope list_scope.

Lemma flushes_ge {C} q : forall (h : list (option C)) n p m, In m (flushes q n p h) -> n + p <= m.
Proof.
  induction h as [|[x|] h IH]; intros n p m H; cbn [flushes] in H; [destruct H| |].
  - destruct (S p <? q); [specialize (IH _ _ _ H); lia|]. destruct H as [<-|H]; [lia|]. specialize (IH _ _ _ H). lia.
  - destruct (Nat.eqb_spec p 0); [specialize (IH _ _ _ H); lia|]. destruct H as [<-|H]; [lia|]. specialize (IH _ _ _ H). lia.
Qed.

Section Flut.
Context (T : tfhe) (s0 s1 : list Z) (bit : trgsw T -> bool -> Prop) (E : noise) (Y : crypto T).
Hypothesis OK : tfhe_ok T s0 s1 bit E.
Hypothesis NN : noise_nonneg E.
Hypothesis HY : crypto_ok T Y s1 bit.
Context (clock : nat -> text) (g : Graph) (Wg : wf_graph g) (max q boot freq : nat).
Hypothesis Hq0 : 0 < q.
Hypothesis Hq : q < 31.
Hypothesis Hboot : 0 < boot.
Hypothesis Hmax : max < 31.
Hypothesis HmaxN : table_fits (t_n1 T) max q g.
Hypothesis HM : flut_margin (size g * 2 ^ (q / 2)) q boot E.
Hypothesis Hfreq : 0 < freq.
Notation inv := (flut_inv T s1 bit E g max q boot).
Notation step := (enc_run_dec T Y clock (bench3_step T) bench_result).
Notation live := "num_live_states"%string.

Lemma flut_step u v (s : bench (RunnerModel.flut T)) b o : inv u v (bn_runner s) -> length v < q -> bn_freq s = freq ->
  bn_num s = length u + length v -> let n := length u + length v in
  exists more r, step s b o = (o ++ more, r) /\ (exists k, width g (length u) k /\ values live more = [show_nat k]) /\
  match r with
  | Ok s' => exists u' v', u' ++ v' = u ++ v ++ [b] /\ inv u' v' (bn_runner s') /\ length v' < q /\ bn_freq s' = freq /\ bn_num s' = S n /\
      (if S n mod freq =? 0 then exists x, accepts g (u ++ v ++ [b]) = Ok x /\ values "result" more = [show_bool x]
       else values "result" more = []) /\
      (exists fl, (forall w : list bool, flushes q (length u) (length v) (schedule freq n (b :: w)) =
                     fl ++ flushes q (length u') (length v') (schedule freq (S n) w)) /\
                  forall m, In m fl -> m = S n /\ forall k, width g m k -> k < 2 ^ max) /\
      (forall w : list bool, consumed q (length u) (length v) (schedule freq n (b :: w)) =
                     length u :: consumed q (length u') (length v') (schedule freq (S n) w))
  | Fail e => e = FExit /\ values "result" more = [] /\
      (forall w : list bool, In (S n) (flushes q (length u) (length v) (schedule freq n (b :: w)))) /\
      exists k, width g (S n) k /\ 2 ^ max <= k
  end.
Proof.
  intros HI LV HF HN n. subst n. set (n := length u + length v) in *.
  assert (ES : step s b o =
    let c := c_enc T Y (length o) b in
    let o1 := o ++ [(lit "enc", clock (length o)); (lit live, show_nat (length (f_live T (bn_runner s))));
                    (lit "first_lut_depth", show_nat (f_first T (bn_runner s))); (lit "second_lut_depth", show_nat (f_second T (bn_runner s)))] in
    match bench_run T (flut_eval_one T) (flut_result T) s c with
    | Fail e => (o1, Fail e)
    | Ok (false, s') => (o1 ++ [(lit "run", clock (length o1))], Ok s')
    | Ok (true, s') => match bench_result s' with
                       | Fail e => (o1 ++ [(lit "run", clock (length o1))], Fail e)
                       | Ok c => (o1 ++ [(lit "run", clock (length o1)); (lit "dec", clock (S (length o1)));
                                         (lit "result", show_bool (decrypt_TLWELvl1_to_bit (t_n1 T) c s1))], Ok s')
                       end
    end).
  { unfold enc_run_dec, bench3_step, tbind, say_elapsed, say, lines_so_far, tres, tret, print_elapsed, print.
    rewrite <- !app_assoc. cbn [app]. destruct (bench_run _ _ _ _ _) as [[[|] s']|e]; try reflexivity.
    2:{ rewrite <- !app_assoc. reflexivity. }
    destruct (bench_result s') as [c|e]; rewrite <- !app_assoc; cbn [app]; [|reflexivity]. rewrite (y_key _ _ _ _ HY), !app_length. cbn [length].
    rewrite (Nat.add_succ_r _ 4). reflexivity. }
  rewrite ES. clear ES. cbv zeta. set (c := c_enc T Y (length o) b). assert (Hc : bit c b) by apply (y_bit _ _ _ _ HY).
  set (mo := [_; _; _; _]). set (o1 := o ++ mo).
  assert (HWu : width g (length u) (length (f_live T (bn_runner s)))) by (apply (reach_width g Wg), HI).
  assert (VL : values live mo = [show_nat (length (f_live T (bn_runner s)))]) by reflexivity.
  assert (VR : values "result" mo = []) by reflexivity.
  unfold bench_run. rewrite HF, HN. fold n.
  pose proof (flut_feed_ok T s0 s1 bit E OK NN g Wg max q boot Hq Hboot Hmax HmaxN HM u v (bn_runner s) c b HI Hc (or_introl LV)) as HFD.
  destruct (Nat.eqb_spec freq 0) as [?|_]; [lia|].
  (* after the feed: either it has failed, or we are at u1, v1 *)
  assert (FD : (exists e, flut_eval_one T (bn_runner s) c = Fail e /\ e = FExit /\
      (forall w : list bool, In (S n) (flushes q (length u) (length v) (schedule freq n (b :: w)))) /\
      exists k, width g (S n) k /\ 2 ^ max <= k) \/
    (exists r1 u1 v1, flut_eval_one T (bn_runner s) c = Ok r1 /\ inv u1 v1 r1 /\ u1 ++ v1 = u ++ v ++ [b] /\ length v1 < q /\
      (exists fl, (forall h : list (option bool), flushes q (length u) (length v) (Some b :: h) = fl ++ flushes q (length u1) (length v1) h) /\
                  forall m, In m fl -> m = S n /\ forall k, width g m k -> k < 2 ^ max) /\
      (forall h : list (option bool), consumed q (length u) (length v) (Some b :: h) = length u :: consumed q (length u1) (length v1) h))).
  { destruct (Nat.ltb_spec (S (length v)) q) as [L|L].
    - destruct HFD as (s' & E' & I'). right. exists s', u, (v ++ [b]). rewrite app_length. cbn [length]. rewrite Nat.add_1_r.
      split; [exact E'|]. split; [exact I'|]. split; [reflexivity|]. split; [exact L|]. split.
      + exists []. split; [|intros m []]. intros h. cbn [flushes app]. apply Nat.ltb_lt in L. rewrite L. reflexivity.
      + intros h. cbn [consumed]. apply Nat.ltb_lt in L. rewrite L. reflexivity.
    - destruct HFD as [?|(next & HR & HO)]; [lia|]. pose proof (proj2 (Nat.ltb_ge _ _) L) as L'.
      destruct (flut_eval_one T (bn_runner s) c) as [s'|e]; cbn [flut_outcome] in HO.
      + destruct HO as [RF I']. apply Nat.leb_gt in RF. right. exists s', (u ++ v ++ [b]), [].
        rewrite app_nil_r, !app_length. cbn [length].
        split; [reflexivity|]. split; [exact I'|]. split; [reflexivity|]. split; [exact Hq0|]. split.
        * exists [S n]. split.
          -- intros h. cbn [flushes]. rewrite L'. cbn [app]. replace (length u + S (length v)) with (S n) by (unfold n; lia).
             replace (length u + (length v + 1)) with (S n) by (unfold n; lia). reflexivity.
          -- intros m [<-|[]]. split; [reflexivity|]. intros k Hk. replace (length u + S (length v)) with (S n) in HR by (unfold n; lia).
             rewrite (width_unique _ _ _ _ Hk (reach_width g Wg _ _ HR)). exact RF.
        * intros h. cbn [consumed]. rewrite L'. replace (length u + (length v + 1)) with (length u + S (length v)) by lia. reflexivity.
      + destruct HO as [RF ->]. apply Nat.leb_le in RF. left. exists FExit.
        replace (length u + S (length v)) with (S n) in HR by (unfold n; lia).
        split; [reflexivity|]. split; [reflexivity|]. split.
        * intros w. cbn [schedule flushes]. rewrite L'. left. unfold n. lia.
        * exists (length next). split; [apply (reach_width g Wg), HR|exact RF]. }
  destruct FD as [(e & -> & -> & F1 & F2)|(r1 & u1 & v1 & -> & I1 & E1 & L1 & (fl & F1 & F2) & C1)]; cbn [bind].
  { exists mo, (Fail FExit). split; [reflexivity|]. rewrite VL, VR. split; [eauto|]. auto. }
  assert (LN : length u1 + length v1 = S n).
  { rewrite <- app_length, E1, !app_length. cbn [length]. unfold n. lia. }
  destruct (S n mod freq =? 0) eqn:EM; cbn [negb].
  - destruct (flut_ask_ok T s0 s1 bit E OK NN g Wg max q boot Hq Hboot Hmax HmaxN HM u1 v1 r1 I1 ltac:(lia)) as (next & HR & HO).
    rewrite LN in HR. destruct (flut_result T r1) as [[d r2]|e]; cbn [bind].
    + destruct HO as (RF & I2 & AC). unfold bench_result. cbn [bn_result].
      eexists. eexists. split; [unfold o1; rewrite <- app_assoc; reflexivity|]. split.
      { exists (length (f_live T (bn_runner s))). split; [exact HWu|]. rewrite values_app, VL. reflexivity. }
      exists (u1 ++ v1), []. cbn [bn_runner bn_freq bn_num length]. rewrite app_nil_r. split; [exact E1|]. split; [exact I2|].
      split; [lia|]. split; [reflexivity|]. split; [reflexivity|]. split.
      { exists (decrypt_TLWELvl1_to_bit (t_n1 T) d s1). rewrite <- E1. split; [exact AC|]. rewrite values_app, VR. reflexivity. }
      rewrite app_length, LN. split.
      * exists (fl ++ if length v1 =? 0 then [] else [S n]). split.
        -- intros w. cbn [schedule]. rewrite EM. cbn [app]. rewrite F1. cbn [flushes]. rewrite <- app_assoc. f_equal.
           destruct (Nat.eqb_spec (length v1) 0) as [Z|Z]; [rewrite Z, Nat.add_0_r in LN; rewrite LN; reflexivity|].
           rewrite LN. reflexivity.
        -- intros m Hm. apply in_app_iff in Hm as [Hm|Hm]; [auto|]. destruct (Nat.eqb_spec (length v1) 0) as [Z|Z]; [destruct Hm|].
           destruct Hm as [<-|[]]. split; [reflexivity|]. intros k Hk. rewrite (width_unique _ _ _ _ Hk (reach_width g Wg _ _ HR)).
           destruct RF as [->|RF]; [cbn in Z; congruence|exact RF].
      * intros w. cbn [schedule]. rewrite EM. cbn [app]. rewrite C1. cbn [consumed]. f_equal.
        destruct (Nat.eqb_spec (length v1) 0) as [Z|Z]; [rewrite Z, Nat.add_0_r in LN; rewrite LN; reflexivity|]. rewrite LN. reflexivity.
    + destruct HO as (NE & RF & ->). exists mo, (Fail FExit). split; [reflexivity|]. rewrite VL, VR. split; [eauto|].
      split; [reflexivity|]. split; [reflexivity|]. split; [|exists (length next); split; [apply (reach_width g Wg), HR|exact RF]].
      intros w. cbn [schedule]. rewrite EM. cbn [app]. rewrite F1. apply in_app_iff. right. cbn [flushes].
      destruct (Nat.eqb_spec (length v1) 0) as [Z|Z]; [destruct v1; [congruence|discriminate]|]. left. exact LN.
  - eexists. eexists. split; [unfold o1; rewrite <- app_assoc; reflexivity|]. split.
    { exists (length (f_live T (bn_runner s))). split; [exact HWu|]. rewrite values_app, VL. reflexivity. }
    exists u1, v1. cbn [bn_runner bn_freq bn_num length]. split; [exact E1|]. split; [exact I1|].
    split; [exact L1|]. split; [reflexivity|]. split; [reflexivity|]. split; [rewrite values_app, VR; reflexivity|]. split.
    + exists fl. split; [|exact F2]. intros w. cbn [schedule]. rewrite EM. cbn [app]. apply F1.
    + intros w. cbn [schedule]. rewrite EM. cbn [app]. apply C1.
Qed.

(** j inputs are processed completely. *)
Lemma flut_loop w : forall u v (s : bench (RunnerModel.flut T)) o, inv u v (bn_runner s) -> length v < q -> bn_freq s = freq ->
  bn_num s = length u + length v -> let n := length u + length v in
  let fl := flushes q (length u) (length v) (schedule freq n w) in
  exists more r j, tfoldM step w s o = (o ++ more, r) /\
  Forall2 (fun x m => exists b, accepts g (firstn m (u ++ v ++ w)) = Ok b /\ shows x b)
    (values "result" more) (filter (fun m => m mod freq =? 0) (seq (S n) j)) /\
  Forall2 (fun x m => exists k, width g m k /\ x = show_nat k)
    (values live more) (firstn (match r with Ok _ => j | Fail _ => S j end) (consumed q (length u) (length v) (schedule freq n w))) /\
  match r with
  | Ok _ => j = length w /\ forall m k, In m fl -> width g m k -> k < 2 ^ max
  | Fail e => e = FExit /\ j < length w /\ In (n + S j) fl /\ (exists k, width g (n + S j) k /\ 2 ^ max <= k) /\
              forall m k, In m fl -> m < n + S j -> width g m k -> k < 2 ^ max
  end.
Proof.
  induction w as [|b w IH]; intros u v s o HI LV HF HN n fl.
  - exists [], (Ok s), 0. cbn [tfoldM]. unfold tret. rewrite app_nil_r. split; [reflexivity|]. split; [constructor|]. split; [constructor|].
    split; [reflexivity|]. intros m k [].
  - destruct (flut_step u v s b o HI LV HF HN) as (more & r & ES & (k & HK & VL) & HR). fold n in HR.
    cbn [tfoldM]. unfold tbind. rewrite ES. destruct r as [s'|e].
    + destruct HR as (u' & v' & EU & I' & L' & F' & N' & VR & (f1 & FL1 & FL2) & CO).
      assert (LN : length u' + length v' = S n) by (rewrite <- app_length, EU, !app_length; cbn [length]; unfold n; lia).
      destruct (IH u' v' s' (o ++ more) I' L' F' ltac:(lia)) as (more' & r & j & E2 & V2 & C2 & R2). rewrite LN in *.
      exists (more ++ more'), r, (S j). rewrite E2, <- app_assoc. split; [reflexivity|]. rewrite !values_app, VL, CO. split; [|split].
      * cbn [seq filter]. assert (EW : u ++ v ++ b :: w = u' ++ v' ++ w) by (rewrite (app_assoc u'), EU, <- !app_assoc; reflexivity).
        rewrite EW. destruct (S n mod freq =? 0); [|rewrite VR; exact V2].
        destruct VR as (x & AC & ->). cbn [app]. constructor; [|exact V2]. exists x. split; [|apply shows_bool].
        rewrite (app_assoc u'), firstn_app, app_length, LN, Nat.sub_diag, firstn_O, app_nil_r, firstn_all2 by (rewrite app_length; lia).
        rewrite EU. exact AC.
      * replace (match r with Ok _ => S j | Fail _ => S (S j) end) with (S (match r with Ok _ => j | Fail _ => S j end)) by (destruct r; reflexivity).
        cbn [firstn app]. constructor; [eauto|exact C2].
      * unfold fl. rewrite FL1. destruct r as [s2|e].
        -- destruct R2 as [-> R2]. split; [reflexivity|]. intros m k' Hm Hk. apply in_app_iff in Hm as [Hm|Hm]; [apply (FL2 m Hm); exact Hk|eauto].
        -- destruct R2 as (-> & R3 & R4 & R5 & R6). replace (n + S (S j)) with (S n + S j) by lia. split; [reflexivity|]. split; [cbn; lia|].
           split; [apply in_app_iff; right; exact R4|]. split; [exact R5|]. intros m k' Hm Hlt Hk.
           apply in_app_iff in Hm as [Hm|Hm]; [apply (FL2 m Hm); exact Hk|eauto].
    + destruct HR as (-> & VR & HIn & HW). exists more, (Fail FExit), 0. split; [reflexivity|]. rewrite VR, VL. split; [constructor|].
      split.
      * assert (CO : exists l, consumed q (length u) (length v) (schedule freq n (b :: w)) = length u :: l).
        { cbn [schedule consumed]. eauto. }
        destruct CO as (l & ->). cbn [firstn]. constructor; [eauto|constructor].
      * replace (n + 1) with (S n) by lia. split; [reflexivity|]. split; [cbn; lia|]. split; [apply HIn|]. split; [exact HW|].
        intros m k' Hm Hlt. exfalso. cbn [schedule] in fl. unfold fl in Hm. cbn [flushes] in Hm. destruct (S (length v) <? q).
        -- apply flushes_ge in Hm. unfold n in Hlt. lia.
        -- destruct Hm as [<-|Hm]; [unfold n in Hlt; lia|]. apply flushes_ge in Hm. unfold n in Hlt. lia.
Qed.
End Flut.
