(** The tasks of every parallel region stay within their footprints and compute the bodies of
    RunnerModel.v; scheduled runners have exactly the outcome of the sequential model. *)
From Coq Require Import List Arith Bool NArith ZArith Lia.
Import ListNotations.
From Verif Require Import Base BaseFacts GraphModel TorusModel RunnerModel RunnerFacts RunnerSpec ParModel ParFacts.

Section Tasks.
Context (T : tfhe).
Notation N1 := (t_n1 T).
Notation cell := (cell T).
Implicit Types (m : mem cell) (rd wr : addr -> Prop).

Definition rep (v : trlwe) (c : cell) : Prop := c = C_rlwe T v.

Lemma solo_reads srcs (k : prog cell) m : solo (reads srcs k) m = solo k m.
Proof. induction srcs as [|a srcs IH]; cbn; auto. Qed.
Lemma solo_fill srcs dst junk v (k : prog cell) m :
  exists m1, solo (fill T srcs dst junk v k) m = solo k m1 /\ m1 dst = v /\ forall a, a <> dst -> m1 a = m a.
Proof.
  unfold fill. revert m. induction junk as [|j junk IH]; intros m; cbn.
  - eexists. split; [reflexivity|]. split; [apply store_same|]. intros a H. apply store_other. auto.
  - rewrite solo_reads. cbn. destruct (IH (store m dst j)) as (m1 & E & D & F).
    exists m1. split; [auto|]. split; [auto|]. intros a H. rewrite F by auto. apply store_other. auto.
Qed.
Lemma confined_reads rd wr srcs (k : prog cell) :
  (forall a, In a srcs -> rd a) -> confined rd wr k -> confined rd wr (reads srcs k).
Proof.
  intros R C. induction srcs as [|a srcs IH]; cbn; auto. split; [apply R; now left|].
  intros _. apply IH. intros b Hb. apply R. now right.
Qed.
Lemma confined_fill rd wr srcs dst junk v (k : prog cell) :
  (forall a, In a srcs -> rd a) -> wr dst -> confined rd wr k -> confined rd wr (fill T srcs dst junk v k).
Proof.
  intros R W C. unfold fill. induction junk as [|j junk IH]; cbn; auto.
  apply confined_reads; auto. cbn. auto.
Qed.
Lemma confined_lift {A} rd wr (r : res A) (k : A -> prog cell) :
  (forall x, r = Ok x -> confined rd wr (k x)) -> confined rd wr (lift r k).
Proof. intros H. destruct r; cbn; auto. Qed.
Lemma confined_ref rd wr b n i (k : addr -> prog cell) :
  confined rd wr (k (b, i)) -> confined rd wr (ref T b n i k).
Proof. intros H. unfold ref. destruct (i <? n); cbn; auto. Qed.
Lemma confined_rd rd wr a (k : trlwe -> prog cell) :
  rd a -> (forall c, confined rd wr (k c)) -> confined rd wr (rd_rlwe T a k).
Proof. intros R H. cbn. split; auto. intros v. destruct v; cbn; auto. Qed.
Lemma confined_rdl rd wr a (k : tlwe -> prog cell) :
  rd a -> (forall c, confined rd wr (k c)) -> confined rd wr (rd_lwe T a k).
Proof. intros R H. cbn. split; auto. intros v. destruct v; cbn; auto. Qed.

(** Tasks that do not write a buffer they read from *)
Ltac fp := cbn [fst snd]; intros [HH _]; discriminate HH.
Ltac fps := let a := fresh in let H := fresh in intros a H; cbn in H;
  repeat (destruct H as [<-|H]; [fp|]); destruct H.

Lemma cmux_confined g input nw no junk q t :
  confined (fun a => ~ (fst a = B_out /\ In (snd a) t /\ snd a <> q)) (fun a => a = (B_out, q))
    (cmux_task T g input nw no junk q).
Proof.
  apply confined_lift; intros q0 _. apply confined_lift; intros q1 _.
  repeat apply confined_ref. apply confined_rd; [fp|]. intros c0. apply confined_rd; [fp|]. intros c1.
  apply confined_fill; [fps|reflexivity|exact I].
Qed.

Lemma vec_at m b l i : vec T m b l ->
  (i < length l /\ exists v, at_ l i = Ok v /\ m (b, i) = C_rlwe T v) \/
  (length l <= i /\ at_ l i = Fail FOutOfRange).
Proof.
  intros H. destruct (Nat.lt_ge_cases i (length l)) as [L|L].
  - left. split; auto. destruct (at_lt l i L) as (v & E & E'). exists v. split; auto.
  - right. split; auto. now apply at_fail.
Qed.

Lemma cmux_computes g input weight (out : list trlwe) m junk q :
  vec T m B_weight weight ->
  computes rep m B_out (length out) q (cmux_task T g input (length weight) (length out) junk q)
    (cmux_body T g weight input q).
Proof.
  intros W. unfold cmux_task, cmux_body, computes.
  destruct (next_state g q false) as [q0|f]; cbn [bind lift]; [|cbn; eauto].
  destruct (next_state g q true) as [q1|f]; cbn [bind lift]; [|cbn; eauto].
  unfold ref.
  destruct (vec_at _ _ _ q0 W) as [[L0 (w0 & E0 & M0)]|[L0 E0]]; rewrite E0; cbn [bind].
  2: { destruct (Nat.ltb_spec q0 (length weight)); [lia|]. cbn; eauto. }
  destruct (Nat.ltb_spec q0 (length weight)); [|lia].
  destruct (vec_at _ _ _ q1 W) as [[L1 (w1 & E1 & M1)]|[L1 E1]]; rewrite E1; cbn [bind].
  2: { destruct (Nat.ltb_spec q1 (length weight)); [lia|]. cbn; eauto. }
  destruct (Nat.ltb_spec q1 (length weight)); [|lia].
  destruct (q <? length out); [|cbn; eauto].
  cbn [solo rd_rlwe]. rewrite M0. cbn [solo rd_rlwe]. rewrite M1. cbv beta iota.
  destruct (solo_fill [(B_weight, q1); (B_weight, q0)] (B_out, q) junk (C_rlwe T (cmux T input w1 w0)) Done m)
    as (m1 & EE & D & _).
  exists m1. split; [exact EE|exact D].
Qed.

Ltac at_vec W i := let L := fresh "L" in let w := fresh "w" in let E := fresh "E" in let M := fresh "M" in
  destruct (vec_at _ _ _ i W) as [[L (w & E & M)]|[L E]]; rewrite E; cbn [bind];
  [match goal with |- context[i <? ?n] => destruct (Nat.ltb_spec i n); [|lia] end
  |match goal with |- context[i <? ?n] => destruct (Nat.ltb_spec i n); [lia|] end; cbn; eauto].
Ltac filled := match goal with |- context[solo (fill _ ?s ?d ?j ?v ?k) ?m] =>
  let m1 := fresh "m1" in let D := fresh "D" in
  let EE := fresh "EE" in
  destruct (solo_fill s d j v k m) as (m1 & EE & D & _); exists m1; split; [exact EE|exact D] end.

(** Bootstrapping in place: the task reads its own cell *)
Lemma own_confined b q t rd (k : trlwe -> prog cell) :
  (forall c, confined (fun a => ~ (fst a = b /\ In (snd a) t /\ snd a <> q)) (fun a => a = (b, q)) (k c)) ->
  rd = (fun a : addr => ~ (fst a = b /\ In (snd a) t /\ snd a <> q)) ->
  confined rd (fun a => a = (b, q)) (rd_rlwe T (b, q) k).
Proof. intros H ->. apply confined_rd; auto. cbn. tauto. Qed.
Lemma bootstrap_confined nw junk q t :
  confined (fun a => ~ (fst a = B_weight /\ In (snd a) t /\ snd a <> q)) (fun a => a = (B_weight, q))
    (bootstrap_task T nw junk q).
Proof.
  apply confined_ref. apply confined_rd; [cbn; tauto|]. intros c.
  apply confined_fill; [fps|reflexivity|exact I].
Qed.
Lemma bootstrap_computes weight m junk q :
  vec T m B_weight weight ->
  computes rep m B_weight (length weight) q (bootstrap_task T (length weight) junk q)
    (do w <- at_ weight q; Ok (do_SEI_IKS_GBTLWE2TRLWE_2 T w)).
Proof.
  intros W. unfold bootstrap_task, computes, ref. at_vec W q.
  cbn [solo rd_rlwe]. rewrite M. cbv beta iota. filled.
Qed.
Lemma legacy_bootstrap_confined nw junk q t :
  confined (fun a => ~ (fst a = B_weight /\ In (snd a) t /\ snd a <> q)) (fun a => a = (B_weight, q))
    (legacy_bootstrap_task T nw junk q).
Proof.
  apply confined_ref. apply confined_rd; [cbn; tauto|]. intros c.
  apply confined_fill; [fps|reflexivity|exact I].
Qed.
Lemma legacy_bootstrap_computes weight m junk q :
  vec T m B_weight weight ->
  computes rep m B_weight (length weight) q (legacy_bootstrap_task T (length weight) junk q)
    (do w <- at_ weight q; Ok (do_SEI_IKS_GBTLWE2TRLWE T w)).
Proof.
  intros W. unfold legacy_bootstrap_task, computes, ref. at_vec W q.
  cbn [solo rd_rlwe]. rewrite M. cbv beta iota. filled.
Qed.

(** Look-up tables *)
Lemma lookup_confined it nt no junk j t :
  confined (fun a => ~ (fst a = B_tmp /\ In (snd a) t /\ snd a <> j)) (fun a => a = (B_tmp, j))
    (lookup_task T it nt no junk j).
Proof.
  repeat apply confined_ref. apply confined_rd; [fp|]. intros c1. apply confined_rd; [fp|]. intros c0.
  apply confined_fill; [fps|reflexivity|exact I].
Qed.
Lemma lookup_computes it table (tmp : list trlwe) m junk j :
  vec T m B_table table ->
  computes rep m B_tmp (length tmp) j (lookup_task T it (length table) (length tmp) junk j)
    (do a <- at_ table (j * 2 + 1); do b <- at_ table (j * 2); Ok (cmux T it a b)).
Proof.
  intros W. unfold lookup_task, computes, ref.
  destruct (Nat.ltb_spec j (length tmp)) as [L|L].
  2: { destruct (do a <- at_ table (j * 2 + 1); do b <- at_ table (j * 2); Ok (cmux T it a b)); cbn; eauto. }
  at_vec W (j * 2 + 1). at_vec W (j * 2).
  cbn [solo rd_rlwe]. rewrite M. cbn [solo rd_rlwe]. rewrite M0. cbv beta iota. filled.
Qed.

(** FLUT *)
Lemma foldM_pairs {A S X} (f : S -> A * X -> res S) (l : list X) (live : list A) s :
  foldM (fun s a => foldM (fun s x => f s (a, x)) l s) live s =
  foldM f (flat_map (fun a => map (fun x => (a, x)) l) live) s.
Proof.
  revert s. induction live as [|a live IH]; intros s; cbn [foldM flat_map]; auto.
  assert (E : forall (l : list X) s, foldM (fun s x => f s (a, x)) l s = foldM f (map (fun x => (a, x)) l) s).
  { clear. induction l as [|x l IH]; intros s; cbn; auto. destruct (f s (a, x)); cbn; auto. }
  rewrite E. clear E.
  assert (A2 : forall l1 l2 s, foldM f (l1 ++ l2) s = do s' <- foldM f l1 s; foldM f l2 s').
  { clear. induction l1 as [|x l1 IH]; intros l2 s; cbn; auto. destruct (f s x); cbn; auto. }
  rewrite A2. destruct (foldM f (map (fun x => (a, x)) l) s); cbn; auto.
Qed.
Definition entry_step (g : Graph) (memo : list State) (weight : list trlwe) (st2idx : list nat) (nnext first input1 : nat)
    (acc : trlwe) (w : State * nat) : res trlwe :=
  let '(st_from, input2) := w in
  do st_to <- at_ memo (Nat.lor (Nat.shiftl input2 first) input1 * size g + st_from);
  do w <- at_ weight st_from;
  do idx <- at_ st2idx st_to;
  do c <- TRLWELvl1_mult_X_k N1 w (input2 * nnext + idx);
  Ok (TRLWELvl1_add N1 acc c).
Lemma entry_confined g memo st2idx nnext first nw nt junk input1 work t :
  confined (fun a => ~ (fst a = B_table /\ In (snd a) t /\ snd a <> input1)) (fun a => a = (B_table, input1))
    (entry_task T g memo st2idx nnext first nw nt junk input1 work).
Proof.
  induction work as [|[st i2] work IH]; [exact I|]. cbn [entry_task].
  apply confined_lift; intros st_to _. apply confined_ref. apply confined_lift; intros idx _.
  apply confined_rd; [fp|]. intros c. apply confined_lift; intros c' _.
  apply confined_ref. apply confined_rd; [cbn; tauto|]. intros acc.
  apply confined_fill; [fps|reflexivity|exact IH].
Qed.
Definition lands (a : addr) (r : res trlwe) (x : res (mem cell)) : Prop :=
  match r with
  | Ok v => exists mq, x = Ok mq /\ rep v (mq a)
  | Fail _ => exists f, x = Fail f
  end.
Lemma lands_fail a f g : lands a (Fail f) (Fail g).
Proof. cbn; eauto. Qed.
Lemma entry_computes g memo st2idx nnext first weight nt junk input1 work : forall m acc,
  vec T m B_weight weight -> m (B_table, input1) = C_rlwe T acc -> input1 < nt ->
  lands (B_table, input1) (foldM (entry_step g memo weight st2idx nnext first input1) work acc)
    (solo (entry_task T g memo st2idx nnext first (length weight) nt junk input1 work) m).
Proof.
  induction work as [|[st i2] work IH]; intros m acc W A L.
  - cbn. exists m. auto.
  - cbn [foldM entry_task entry_step].
    destruct (at_ memo _) as [st_to|f]; cbn [bind lift]; [|apply lands_fail].
    unfold ref at 1. destruct (vec_at _ _ _ st W) as [[L1 (w & E & M)]|[L1 E]]; rewrite E; cbn [bind].
    2: { destruct (Nat.ltb_spec st (length weight)); [lia|]. apply lands_fail. }
    destruct (Nat.ltb_spec st (length weight)); [|lia].
    destruct (at_ st2idx st_to) as [idx|f]; cbn [bind lift]; [|apply lands_fail].
    cbn [solo rd_rlwe]. rewrite M. cbv beta iota.
    destruct (TRLWELvl1_mult_X_k N1 w (i2 * nnext + idx)) as [c|f]; cbn [bind lift]; [|apply lands_fail].
    unfold ref. destruct (Nat.ltb_spec input1 nt); [|lia].
    cbn [solo rd_rlwe]. rewrite A. cbv beta iota.
    match goal with |- lands _ _ (solo (fill _ ?s ?d ?j ?v ?k) ?m) =>
      destruct (solo_fill s d j v k m) as (m1 & EE & D & F) end.
    match goal with |- lands _ _ ?x => replace x with
      (solo (entry_task T g memo st2idx nnext first (length weight) nt junk input1 work) m1) by (symmetry; exact EE) end.
    apply IH; auto. intros i v Hi. rewrite F by discriminate. auto.
Qed.
Lemma rotate_confined nnext nt junk i t : ~ In 0 t ->
  confined (fun a => ~ (fst a = B_table /\ In (snd a) t /\ snd a <> i)) (fun a => a = (B_table, i))
    (rotate_task T nnext nt junk i).
Proof.
  intros N0. assert (R0 : ~ (B_table = B_table /\ In 0 t /\ 0 <> i)) by tauto.
  apply confined_ref. apply confined_ref. apply confined_rd; [exact R0|]. intros c.
  destruct (2 * N1 <? i * nnext); [exact I|]. apply confined_lift; intros c' _.
  apply confined_fill; [|reflexivity|exact I]. intros a [<-|[]]. exact R0.
Qed.
Lemma rotate_computes nnext (table : list trlwe) t0 m junk i :
  vec T m B_table table -> at_ table 0 = Ok t0 ->
  computes rep m B_table (length table) i (rotate_task T nnext (length table) junk i) (flut_rotate T t0 nnext i).
Proof.
  intros W E0. unfold rotate_task, computes, ref, flut_rotate.
  destruct (vec_at _ _ _ 0 W) as [[L (w & E & M)]|[L E]]; [|congruence].
  assert (w = t0) by congruence. subst w.
  destruct (Nat.ltb_spec 0 (length table)); [|lia].
  destruct (Nat.ltb_spec i (length table)) as [Li|Li].
  - cbn [solo rd_rlwe]. rewrite M. cbv beta iota.
    destruct (2 * N1 <? i * nnext); [cbn; eauto|].
    destruct (TRLWELvl1_mult_X_k N1 t0 (2 * N1 - i * nnext)) as [c|f]; cbn [bind lift]; [|cbn; eauto]. filled.
  - destruct (if 2 * N1 <? i * nnext then _ else _); cbn; eauto.
Qed.
Lemma refresh_confined bs st2idx nw junk st t :
  confined (fun a => ~ (fst a = B_weight /\ In (snd a) t /\ snd a <> st)) (fun a => a = (B_weight, st))
    (refresh_task T bs st2idx nw junk st).
Proof.
  apply confined_lift; intros idx _. apply confined_rd; [fp|]. intros c. apply confined_ref.
  apply confined_fill; [fps|reflexivity|exact I].
Qed.
Lemma refresh_computes bs st2idx (table weight : list trlwe) next_trlwe m junk st :
  vec T m B_table table -> at_ table 0 = Ok next_trlwe ->
  computes rep m B_weight (length weight) st (refresh_task T bs st2idx (length weight) junk st)
    (do idx <- at_ st2idx st; Ok (flut_refresh T bs next_trlwe idx)).
Proof.
  intros W E0. unfold refresh_task, computes, ref.
  destruct (vec_at _ _ _ 0 W) as [[L (w & E & M)]|[L E]]; [|congruence].
  assert (w = next_trlwe) by congruence. subst w.
  destruct (at_ st2idx st) as [idx|f]; cbn [bind lift]; [|cbn; eauto].
  cbn [solo rd_rlwe]. rewrite M. cbv beta iota.
  destruct (st <? length weight); [|cbn; eauto]. filled.
Qed.

(** BLOCK *)
Definition rep_lwe (v : option tlwe) (c : cell) : Prop := match v with Some v => c = C_lwe T v | None => True end.
Definition rep_gsw (v : option (trgsw T)) (c : cell) : Prop := match v with Some v => c = C_gsw T v | None => True end.
Lemma extract_confined no junk i t :
  confined (fun a => ~ (fst a = B_ws4 /\ In (snd a) t /\ snd a <> i)) (fun a => a = (B_ws4, i))
    (extract_task T no junk i).
Proof.
  apply confined_ref. apply confined_rd; [fp|]. intros c. apply confined_fill; [fps|reflexivity|exact I].
Qed.
Lemma cb_confined nws no junk i t :
  confined (fun a => ~ (fst a = B_cond /\ In (snd a) t /\ snd a <> i)) (fun a => a = (B_cond, i))
    (cb_task T nws no junk i).
Proof.
  apply confined_ref. apply confined_ref. apply confined_rdl; [fp|]. intros c.
  apply confined_fill; [fps|reflexivity|exact I].
Qed.

(** Legacy *)
Lemma legacy_sum_confined rd wr nw ps : forall acc k,
  (forall i, rd (B_weight, i)) -> (forall c, confined rd wr (k c)) -> confined rd wr (legacy_sum_task T nw ps acc k).
Proof.
  induction ps as [|p ps IH]; intros acc k R C; cbn [legacy_sum_task]; auto.
  apply confined_ref. apply confined_rd; auto.
Qed.
Lemma legacy_confined g input nw no junk q t :
  confined (fun a => ~ (fst a = B_out /\ In (snd a) t /\ snd a <> q)) (fun a => a = (B_out, q))
    (legacy_task T g input nw no junk q).
Proof.
  apply confined_lift; intros p0 _. apply confined_lift; intros p1 _.
  apply legacy_sum_confined; [intros i; fp|]. intros a0. apply legacy_sum_confined; [intros i; fp|]. intros a1.
  apply confined_ref. apply confined_fill; [fps|reflexivity|exact I].
Qed.
Lemma legacy_sum_solo (weight : list trlwe) ps k m : vec T m B_weight weight -> forall acc,
  solo (legacy_sum_task T (length weight) ps acc k) m =
  match foldM (fun acc p => do w <- at_ weight p;
                Ok (TRLWELvl1_add N1 (TRLWELvl1_add N1 acc w) (trivial_TRLWELvl1_1over8 N1))) ps acc with
  | Ok c => solo (k c) m
  | Fail f => Fail f
  end.
Proof.
  intros W. induction ps as [|p ps IH]; intros acc; cbn [legacy_sum_task foldM]; auto.
  unfold ref. destruct (vec_at _ _ _ p W) as [[L (w & E & M)]|[L E]]; rewrite E; cbn [bind].
  - destruct (Nat.ltb_spec p (length weight)); [|lia]. cbn [solo rd_rlwe]. rewrite M. cbv beta iota. apply IH.
  - destruct (Nat.ltb_spec p (length weight)); [lia|]. reflexivity.
Qed.
Lemma legacy_computes g input (weight out : list trlwe) m junk q :
  vec T m B_weight weight ->
  computes rep m B_out (length out) q (legacy_task T g input (length weight) (length out) junk q)
    (do p0 <- prev_states g q false;
     do p1 <- prev_states g q true;
     do acc0 <- legacy_sum T weight p0;
     do acc1 <- legacy_sum T weight p1;
     Ok (cmux T input acc1 acc0)).
Proof.
  intros W. unfold legacy_task, computes.
  destruct (prev_states g q false) as [p0|f]; cbn [bind lift]; [|cbn; eauto].
  destruct (prev_states g q true) as [p1|f]; cbn [bind lift]; [|cbn; eauto].
  rewrite (legacy_sum_solo weight p0 _ m W).
  fold (legacy_sum T weight p0).
  destruct (legacy_sum T weight p0) as [a0|f]; cbn [bind]; [|eauto].
  rewrite (legacy_sum_solo weight p1 _ m W).
  fold (legacy_sum T weight p1).
  destruct (legacy_sum T weight p1) as [a1|f]; cbn [bind]; [|eauto].
  unfold ref. destruct (q <? length out); [|cbn; eauto]. filled.
Qed.
End Tasks.

(** * Scheduled functions *)
(** When the sequential model succeeds, the scheduled function has exactly its outcome. *)
Definition exact {A} (M : outcomes A) (r : res A) : Prop := forall a, r = Ok a -> forall x, M x <-> x = Ok a.

Lemma exact_det {A} (r : res A) : exact (det r) r.
Proof. intros a -> x. reflexivity. Qed.
Lemma exact_bind {A B} (M : outcomes A) r (K : A -> outcomes B) k :
  exact M r -> (forall a, r = Ok a -> exact (K a) (k a)) -> exact (obind M K) (bind r k).
Proof.
  intros H1 H2 b E x. destruct r as [a|f]; [|discriminate]. cbn in E.
  specialize (H1 a eq_refl). specialize (H2 a eq_refl b E).
  unfold obind. split.
  - intros (y & Hy & Hx). apply H1 in Hy. subst y. now apply H2.
  - intros ->. exists (Ok a). split; [now apply H1|now apply H2].
Qed.
Lemma exact_bind_det {A B} (r : res A) (K : A -> outcomes B) k :
  (forall a, r = Ok a -> exact (K a) (k a)) -> exact (obind (det r) K) (bind r k).
Proof. intros H. apply exact_bind; auto. apply exact_det. Qed.
Lemma exact_fold {A S} (F : S -> A -> outcomes S) f l : forall s,
  (forall s x, exact (F s x) (f s x)) -> exact (foldS F l s) (foldM f l s).
Proof.
  induction l as [|x l IH]; intros s H; cbn [foldS foldM]; [apply exact_det|].
  apply exact_bind; auto.
Qed.

Lemma exact_play {St C R} (F : St -> C -> outcomes St) f (A : St -> outcomes (R * St)) a h : forall s,
  (forall s c, exact (F s c) (f s c)) -> (forall s, exact (A s) (a s)) ->
  exact (play_any F A h s) (play f a h s).
Proof.
  induction h as [|[c|] h IH]; intros s HF HA; cbn [play_any play].
  - apply exact_det.
  - apply exact_bind; auto.
  - apply exact_bind; auto. intros [r s'] _. apply exact_bind; auto. intros [rs s''] _. apply exact_det.
Qed.

Section Exact.
Context (T : tfhe).
Notation N1 := (t_n1 T).
Notation cell := (cell T).
Notation zero := (trivial_TRLWELvl1_zero (t_n1 T)).

Fixpoint mem_of (ctx : list (buf * list trlwe)) : mem cell :=
  match ctx with
  | [] => fun _ => C_rlwe T ([], [])
  | (b, l) :: ctx' => fun a => if buf_beq b (fst a) then C_rlwe T (nth (snd a) l ([], [])) else mem_of ctx' a
  end.
Lemma mem_of_vec ctx : NoDup (map fst ctx) -> Forall (fun bl => vec T (mem_of ctx) (fst bl) (snd bl)) ctx.
Proof.
  induction ctx as [|[b l] ctx IH]; intros ND; constructor.
  - intros i v Hi. cbn. rewrite (internal_buf_dec_lb b b eq_refl). now rewrite (nth_error_nth _ _ _ Hi).
  - inversion ND as [|? ? NI ND']; subst. rewrite Forall_forall. intros [b' l'] Hin i v Hi. cbn [fst snd] in *. cbn.
    destruct (buf_beq b b') eqn:E.
    + apply internal_buf_dec_bl in E. subst b'. destruct NI. apply (in_map fst) in Hin. exact Hin.
    + specialize (IH ND'). rewrite Forall_forall in IH. apply (IH _ Hin). exact Hi.
Qed.

Lemma vec_length_eq m b l1 l2 : vec T m b l1 -> vec T m b l2 -> length l1 = length l2 -> l1 = l2.
Proof.
  intros V1 V2 L. apply nth_error_ext. intros i.
  destruct (nth_error l1 i) as [v1|] eqn:E1, (nth_error l2 i) as [v2|] eqn:E2; auto.
  - assert (H1 := V1 _ _ E1). assert (H2 := V2 _ _ E2). congruence.
  - apply nth_error_None in E2. assert (i < length l1) by (apply nth_error_Some; congruence). lia.
  - apply nth_error_None in E1. assert (i < length l2) by (apply nth_error_Some; congruence). lia.
Qed.

Lemma par_any_exact {J} (j0 : J) o targets (task : J -> nat -> prog cell) ctx out body :
  NoDup (o :: map fst ctx) ->
  (forall j q, In q targets ->
     confined (fun a => ~ (fst a = o /\ In (snd a) targets /\ snd a <> q)) (fun a => a = (o, q)) (task j q)) ->
  (forall m j q, In q targets -> vec T m o out -> Forall (fun bl => vec T m (fst bl) (snd bl)) ctx ->
     computes (rep T) m o (length out) q (task j q) (body q)) ->
  exact (par_any T o targets task ctx out) (par_for targets body out).
Proof.
  intros NB C S out' E x.
  assert (ND : NoDup targets) by apply (par_for_inv _ _ _ _ E).
  assert (LE : length out' = length out) by apply (par_for_inv _ _ _ _ E).
  assert (Key : forall m junk ps' m', vec T m o out -> Forall (fun bl => vec T m (fst bl) (snd bl)) ctx ->
     region (map (fun q => task (junk q) q) targets) m ps' m' ->
     Forall (fun p => p = Done) ps' /\ vec T m' o out').
  { intros m junk ps' m' V1 V2 R.
    destruct (region_par_for (rep T) o targets (fun q => task (junk q) q) body out m ps' m' ND) as [H _]; auto.
    rewrite E in H. exact H. }
  split.
  - intros (m & junk & ps' & m' & V1 & V2 & R & X).
    destruct (Key _ _ _ _ V1 V2 R) as [K1 K2].
    destruct x as [o2|f].
    + destruct X as (_ & L & X). f_equal. apply (vec_length_eq m' o); auto. congruence.
    + rewrite Forall_forall in K1. apply K1 in X. discriminate.
  - intros ->. pose proof (mem_of_vec ((o, out) :: ctx) NB) as V. inversion V as [|? ? V1 V2]; subst.
    destruct (region_exists (map (fun q => task j0 q) targets) (mem_of ((o, out) :: ctx))) as (ps' & m' & R).
    exists (mem_of ((o, out) :: ctx)), (fun _ => j0), ps', m'.
    split; [exact V1|]. split; [exact V2|]. split; [exact R|].
    destruct (Key _ _ _ _ V1 V2 R) as [K1 K2]. auto.
Qed.

Ltac nd := repeat constructor; cbn; intuition discriminate.

Lemma cmux_any_exact g input states weight out :
  exact (par_any T B_out states (cmux_task T g input (length weight) (length out)) [(B_weight, weight)] out)
        (par_for states (cmux_body T g weight input) out).
Proof.
  apply (par_any_exact []); [nd|intros; apply cmux_confined|].
  intros m j q _ _ V. inversion V. now apply cmux_computes.
Qed.
Lemma bootstrap_any_exact targets weight :
  exact (bootstrap_weight_any T targets weight) (bootstrap_weight T targets weight).
Proof.
  apply (par_any_exact []); [nd|intros; apply bootstrap_confined|].
  intros m j q _ V _. now apply bootstrap_computes.
Qed.
Lemma backstream_any_exact s input : exact (backstream_eval_any T s input) (backstream_eval T s input).
Proof.
  unfold backstream_eval_any, backstream_eval. apply exact_bind_det. intros states _.
  apply exact_bind; [apply cmux_any_exact|]. intros weight' _.
  destruct (b_interval s =? 0); [apply exact_det|].
  destruct (S (b_nproc s) mod b_interval s =? 0); [|apply exact_det].
  apply exact_bind; [apply bootstrap_any_exact|]. intros w2 _. apply exact_det.
Qed.
Lemma lookup_levels_any_exact inputs : forall table tmp timer,
  exact (lookup_levels_any T inputs table tmp timer) (lookup_levels T inputs table tmp timer).
Proof.
  induction inputs as [|it rest IH]; intros table tmp timer; cbn [lookup_levels_any lookup_levels]; [apply exact_det|].
  apply exact_bind.
  - unfold lookup_level_any, lookup_level. apply exact_bind; [|intros; apply exact_det].
    apply (par_any_exact []); [nd|intros; apply lookup_confined|].
    intros m j q _ _ V. inversion V. now apply lookup_computes.
  - intros [t' tmp'] _. apply IH.
Qed.
Lemma lookup_timer_any_exact table inputs ws timer :
  exact (lookup_table_with_timer_any T table inputs ws timer) (lookup_table_with_timer T table inputs ws timer).
Proof.
  unfold lookup_table_with_timer_any, lookup_table_with_timer, assert_.
  destruct (31 <=? length inputs); [apply exact_det|].
  destruct (length table =? 2 ^ length inputs); [|apply exact_det].
  destruct (length inputs =? 0); [apply exact_det|]. apply lookup_levels_any_exact.
Qed.
Lemma lookup_any_exact table inputs ws :
  exact (lookup_table_any T table inputs ws) (lookup_table T table inputs ws).
Proof.
  apply exact_bind; [apply lookup_timer_any_exact|]. intros [[t w] ti] _. apply exact_det.
Qed.

Lemma flut_queued_any_exact s : exact (flut_eval_queued_any T s) (flut_eval_queued T s).
Proof.
  unfold flut_eval_queued_any, flut_eval_queued.
  destruct (length (f_queue T s) =? 0); [apply exact_det|].
  destruct (31 <=? length (f_queue T s)); [apply exact_det|].
  apply exact_bind_det; intros memo _. apply exact_bind_det; intros next _. apply exact_bind_det; intros st2idx _.
  destruct (32 <=? f_max T s); [apply exact_det|].
  destruct (if f_max T s =? 31 then false else 2 ^ f_max T s <=? length next); [apply exact_det|].
  cbv zeta. set (second := Nat.min _ _). set (first := _ - second). unfold assert_.
  destruct (first + second =? length (f_queue T s)); cbn [negb]; [|apply exact_det].
  apply exact_bind.
  { apply (par_any_exact (fun _ => [])); [nd|intros; apply entry_confined|].
    intros m j q Hq VO V. inversion V as [|? ? V1]; subst. cbn [fst snd] in V1.
    apply in_seq in Hq. unfold computes. rewrite repeat_length.
    destruct (Nat.ltb_spec q (2 ^ first)); [|lia].
    pose proof (entry_computes T (f_graph T s) memo st2idx (length next) first (f_weight T s) (2 ^ first) j q
                  (pairs (f_live T s) second) m zero V1) as X.
    assert (Z0 : m (B_table, q) = C_rlwe T zero).
    { apply VO. rewrite nth_error_repeat; auto. }
    specialize (X Z0 ltac:(lia)). unfold lands in X.
    unfold flut_entry.
    change (foldM _ (f_live T s) zero) with
      (foldM (fun acc st => foldM (fun acc i => entry_step T (f_graph T s) memo (f_weight T s) st2idx (length next) first q acc (st, i))
                (seq 0 (2 ^ second)) acc) (f_live T s) zero).
    rewrite foldM_pairs. exact X. }
  intros table _. apply exact_bind; [apply lookup_any_exact|]. intros [table2 ws] _.
  intros s' E. destruct (at_ (resize table2 (2 ^ second) zero) 0) as [t0|] eqn:E0; [|discriminate].
  cbn [bind] in E. revert s' E.
  apply exact_bind.
  { apply (par_any_exact []); [nd| |].
    - intros j q _. apply rotate_confined. rewrite in_seq. lia.
    - intros m j q _ V _. now apply rotate_computes. }
  intros table3 _. apply exact_bind; [apply lookup_any_exact|]. intros [table4 ws2] _.
  intros s' E. destruct (at_ table4 0) as [nt|] eqn:E4; [|discriminate].
  cbn [bind] in E. revert s' E.
  destruct (f_freq T s =? 0); [apply exact_det|].
  apply exact_bind; [|intros; apply exact_det].
  apply (par_any_exact []); [nd|intros; apply refresh_confined|].
  intros m j q _ _ V. inversion V as [|? ? V1]; subst. eapply refresh_computes; eauto.
Qed.
Lemma flut_one_any_exact s input : exact (flut_eval_one_any T s input) (flut_eval_one T s input).
Proof.
  unfold flut_eval_one_any, flut_eval_one. cbv zeta.
  destruct (_ <? _); [apply exact_det|apply flut_queued_any_exact].
Qed.
Lemma flut_result_any_exact s : exact (flut_result_any T s) (flut_result T s).
Proof. apply exact_bind; [apply flut_queued_any_exact|]. intros s' _. apply exact_det. Qed.

Lemma propagate_any_exact g levels queue st i :
  exact (block_propagate_any T g levels queue st i) (block_propagate T g levels queue st i).
Proof.
  destruct st as [[weight out] timer]. apply exact_bind_det; intros states _. apply exact_bind_det; intros input _.
  apply exact_bind; [apply cmux_any_exact|]. intros; apply exact_det.
Qed.

Lemma fill_all {A B} (f : nat -> B) (rp : option B -> A -> Prop) n (l : list (option B)) :
  par_for (seq 0 n) (fun i => Ok (Some (f i))) (repeat None n) = Ok l -> l = map (fun i => Some (f i)) (seq 0 n).
Proof.
  intros E. destruct (par_for_inv _ _ _ _ E) as (_ & L & P & _). rewrite repeat_length in *.
  apply nth_error_ext. intros i. rewrite nth_error_map.
  destruct (Nat.lt_ge_cases i n) as [H|H].
  - destruct (P i) as (_ & v & [= <-] & ->); [apply in_seq; lia|].
    rewrite (nth_error_nth' (seq 0 n) 0) by (rewrite seq_length; lia). now rewrite seq_nth by lia.
  - rewrite (proj2 (nth_error_None l i)) by lia.
    now rewrite (proj2 (nth_error_None (seq 0 n) i)) by (rewrite seq_length; lia).
Qed.
Lemma fill_all_ok {B} (f : nat -> B) n :
  par_for (seq 0 n) (fun i => Ok (Some (f i))) (repeat None n) = Ok (map (fun i => Some (f i)) (seq 0 n)).
Proof.
  destruct (par_for_ok (fun i => Ok (Some (f i))) (seq 0 n) (repeat None n) (seq_NoDup _ _)) as (o & E & _).
  - intros q H. apply in_seq in H. rewrite repeat_length. lia.
  - intros q _. eauto.
  - rewrite E. f_equal. now apply (fill_all f (fun _ (_ : unit) => True)).
Qed.
Lemma map_nth_seq {B} (f : nat -> B) n i b : nth_error (map f (seq 0 n)) i = Some b -> i < n /\ b = f i.
Proof.
  intros H. rewrite nth_error_map in H. destruct (nth_error (seq 0 n) i) as [k|] eqn:E; [|discriminate].
  assert (L : i < n) by (rewrite <- (seq_length n 0); apply nth_error_Some; congruence).
  rewrite (nth_error_nth' (seq 0 n) 0) in E by (rewrite seq_length; lia). rewrite seq_nth in E by lia.
  injection E as <-. injection H as <-. auto.
Qed.
Lemma map_seq_nth {B} (f : nat -> B) n i : i < n -> nth_error (map f (seq 0 n)) i = Some (f i).
Proof.
  intros L. rewrite nth_error_map. rewrite (nth_error_nth' (seq 0 n) 0) by (rewrite seq_length; lia).
  now rewrite seq_nth by lia.
Qed.

Lemma cond_any_iff sel width x :
  cond_any T sel width x <->
  x = Ok (map (fun i => CircuitBootstrappingFFTLvl11 T (sei T sel (i + 1))) (seq 0 width)).
Proof.
  pose (f1 := fun i => sei T sel (i + 1)).
  pose (f2 := fun i => CircuitBootstrappingFFTLvl11 T (sei T sel (i + 1))).
  assert (Key : forall m (junk1 junk2 : nat -> list cell) ps1 m1 ps2 m2,
    m (B_sel, 0) = C_rlwe T sel ->
    region (map (fun i => extract_task T width (junk1 i) i) (seq 0 width)) m ps1 m1 ->
    region (map (fun i => cb_task T width width (junk2 i) i) (seq 0 width)) m1 ps2 m2 ->
    Forall (fun p => p = Done) (ps1 ++ ps2) /\ forall i, i < width -> m2 (B_cond, i) = C_gsw T (f2 i)).
  { intros m junk1 junk2 ps1 m1 ps2 m2 M R1 R2.
    destruct (region_par_for (rep_lwe T) B_ws4 (seq 0 width) (fun i => extract_task T width (junk1 i) i)
                (fun i => Ok (Some (f1 i))) (repeat None width) m ps1 m1 (seq_NoDup _ _)) as [H1 F1]; auto.
    { intros; apply extract_confined. }
    { intros q Hq. apply in_seq in Hq. unfold computes. rewrite repeat_length. unfold extract_task, ref.
      destruct (Nat.ltb_spec q width); [|lia]. cbn [solo rd_rlwe]. rewrite M. cbv beta iota.
      match goal with |- context[solo (fill _ ?s ?d ?j ?v ?k) ?m] =>
        destruct (solo_fill T s d j v k m) as (m1' & EE & D & _) end.
      exists m1'. split; [exact EE|exact D]. }
    { intros i v Hi. apply nth_error_In, repeat_spec in Hi. subst v. exact I. }
    rewrite fill_all_ok in H1. destruct H1 as [D1 V1].
    assert (W1 : forall i, i < width -> m1 (B_ws4, i) = C_lwe T (f1 i)).
    { intros i Hi. apply (V1 i (Some (f1 i))). now apply (map_seq_nth (fun i => Some (f1 i))). }
    destruct (region_par_for (rep_gsw T) B_cond (seq 0 width) (fun i => cb_task T width width (junk2 i) i)
                (fun i => Ok (Some (f2 i))) (repeat None width) m1 ps2 m2 (seq_NoDup _ _)) as [H2 F2]; auto.
    { intros; apply cb_confined. }
    { intros q Hq. apply in_seq in Hq. unfold computes. rewrite repeat_length. unfold cb_task, ref.
      destruct (Nat.ltb_spec q width); [|lia]. cbn [solo rd_lwe]. rewrite W1 by lia. cbv beta iota.
      match goal with |- context[solo (fill _ ?s ?d ?j ?v ?k) ?m] =>
        destruct (solo_fill T s d j v k m) as (m1' & EE & D & _) end.
      exists m1'. split; [exact EE|exact D]. }
    { intros i v Hi. apply nth_error_In, repeat_spec in Hi. subst v. exact I. }
    rewrite fill_all_ok in H2. destruct H2 as [D2 V2].
    split; [now apply Forall_app|]. intros i Hi. apply (V2 i (Some (f2 i))).
    now apply (map_seq_nth (fun i => Some (f2 i))). }
  split.
  - intros (m & j1 & j2 & ps1 & m1 & ps2 & m2 & M & R1 & R2 & X).
    destruct (Key _ _ _ _ _ _ _ M R1 R2) as [D V].
    destruct x as [c|f].
    + destruct X as (_ & L & X). f_equal. apply nth_error_ext. intros i.
      destruct (Nat.lt_ge_cases i width) as [H|H].
      * rewrite (map_seq_nth f2) by auto. destruct (nth_error c i) as [v|] eqn:Ev.
        -- apply X in Ev. rewrite V in Ev by auto. congruence.
        -- apply nth_error_None in Ev. lia.
      * rewrite (proj2 (nth_error_None c i)) by lia. symmetry. apply nth_error_None. rewrite map_length, seq_length. lia.
    + rewrite Forall_forall in D. apply D in X. discriminate.
  - intros ->. pose (m := fun _ : addr => C_rlwe T sel).
    destruct (region_exists (map (fun i => extract_task T width [] i) (seq 0 width)) m) as (ps1 & m1 & R1).
    destruct (region_exists (map (fun i => cb_task T width width [] i) (seq 0 width)) m1) as (ps2 & m2 & R2).
    exists m, (fun _ => []), (fun _ => []), ps1, m1, ps2, m2.
    assert (M : m (B_sel, 0) = C_rlwe T sel) by reflexivity.
    destruct (Key m (fun _ => []) (fun _ => []) ps1 m1 ps2 m2 M R1 R2) as [D V].
    split; [exact M|]. split; [exact R1|]. split; [exact R2|]. split; [exact D|].
    split; [now rewrite map_length, seq_length|].
    intros i c Hi. apply map_nth_seq in Hi. destruct Hi as [Hi ->]. now apply V.
Qed.
Lemma mapM_some {A} (l : list A) :
  mapM (fun c => match c with Some c => Ok c | None => Fail FUndefined end) (map Some l) = Ok l.
Proof. induction l as [|x l IH]; cbn; auto. now rewrite IH. Qed.
Lemma cond_any_exact sel width :
  exact (cond_any T sel width)
    (do cond <- par_for (seq 0 width) (fun i => Ok (Some (CircuitBootstrappingFFTLvl11 T (sei T sel (i + 1)))))
                        (repeat None width);
     mapM (fun c => match c with Some c => Ok c | None => Fail FUndefined end) cond).
Proof.
  intros c E x. rewrite (fill_all_ok (fun i => CircuitBootstrappingFFTLvl11 T (sei T sel (i + 1)))) in E.
  cbn [bind] in E. rewrite <- map_map with (g := Some) in E. rewrite mapM_some in E. injection E as <-.
  apply cond_any_iff.
Qed.
Lemma bind_assoc {A B C} (m : res A) (f : A -> res B) (k : B -> res C) :
  bind (bind m f) k = bind m (fun x => bind (f x) k).
Proof. destruct m; reflexivity. Qed.

Lemma block_queued_any_exact s : exact (block_eval_queued_any T s) (block_eval_queued T s).
Proof.
  unfold block_eval_queued_any, block_eval_queued.
  destruct (length (k_queue T s) =? 0); [apply exact_det|].
  apply exact_bind_det; intros levels _. apply exact_bind_det; intros n2i _. apply exact_bind_det; intros weight _.
  apply exact_bind; [apply exact_fold; intros; apply propagate_any_exact|].
  intros [[weight' out] timer] _.
  destruct (length (k_live T s) =? 1); [apply exact_det|].
  destruct (k_selector T s) as [sel|]; [|apply exact_det].
  destruct (N1 <=? index_width (length (k_live T s))); [apply exact_det|].
  rewrite <- bind_assoc.
  apply exact_bind; [apply cond_any_exact|]. intros cond _.
  apply exact_bind_det; intros out' _.
  apply exact_bind; [apply lookup_timer_any_exact|]. intros [[table ws] timer'] _. apply exact_det.
Qed.
Lemma block_one_any_exact s input : exact (block_eval_one_any T s input) (block_eval_one T s input).
Proof.
  unfold block_eval_one_any, block_eval_one. cbv zeta.
  destruct (_ <? _); [apply exact_det|apply block_queued_any_exact].
Qed.
Lemma block_result_any_exact s : exact (block_result_any T s) (block_result T s).
Proof. apply exact_bind; [apply block_queued_any_exact|]. intros s' _. apply exact_det. Qed.

Lemma foldM_map (f : trlwe -> trlwe) (w : list trlwe) :
  par_for (seq 0 (length w)) (fun q => do x <- at_ w q; Ok (f x)) w = Ok (map f w).
Proof.
  destruct (par_for_ok (fun q => do x <- at_ w q; Ok (f x)) (seq 0 (length w)) w (seq_NoDup _ _)) as (o & E & L & P & _).
  - intros q H. apply in_seq in H. lia.
  - intros q H. apply in_seq in H. destruct (at_lt w q) as (v & Ev & _); [lia|]. rewrite Ev. cbn. eauto.
  - rewrite E. f_equal. apply nth_error_ext. intros i. rewrite nth_error_map.
    destruct (Nat.lt_ge_cases i (length w)) as [H|H].
    + destruct (P i) as (v & Ev & ->); [apply in_seq; lia|].
      destruct (at_lt w i H) as (u & Eu & Nu). rewrite Eu in Ev. injection Ev as <-. now rewrite Nu.
    + rewrite (proj2 (nth_error_None o i)) by lia. now rewrite (proj2 (nth_error_None w i)) by lia.
Qed.
Lemma legacy_any_exact s input : exact (legacy_eval_one_any T s input) (legacy_eval_one T s input).
Proof.
  unfold legacy_eval_one_any, legacy_eval_one.
  apply exact_bind.
  { rewrite <- (repeat_length zero (length (l_weight s))) at 2.
    apply (par_any_exact []); [nd|intros; apply legacy_confined|].
    intros m j q _ _ V. inversion V. now apply legacy_computes. }
  intros weight _. destruct (S (l_nproc s) mod l_interval s =? 0); [|apply exact_det].
  intros s' [= <-] x.
  assert (X : exact (par_any T B_weight (seq 0 (length weight)) (legacy_bootstrap_task T (length weight)) [] weight)
                    (Ok (map (do_SEI_IKS_GBTLWE2TRLWE T) weight))).
  { rewrite <- foldM_map. apply (par_any_exact []); [nd|intros; apply legacy_bootstrap_confined|].
    intros m j q _ V _. now apply legacy_bootstrap_computes. }
  revert x. apply (exact_bind _ _ _ (fun w => Ok (mkLegacy (l_graph s) w (l_interval s) (S (l_nproc s)))) X).
  - intros; apply exact_det.
  - reflexivity.
Qed.
End Exact.
