(** BTTRunner and the machine of MachineSpec.v: rounds, histories, dump. *)
From Coq Require Import List Arith Bool NArith NArith.Ndigits ZArith Lia Permutation.
From Coq Require Import ZifyBool ZifyNat ZifyN.
Import ListNotations.
From Verif Require Import Base BaseFacts GraphModel Spec GraphFacts GraphOps TorusModel TfheSpec TorusFacts TfheFacts RunnerModel RunnerFacts
  RunnerSpec LookupFacts ReachFacts FlutFacts BlockFacts CounterModel CounterSpec CounterFacts1 CounterFacts2 CounterFacts3 CounterFacts4
  MachineSpec MachineFacts1.
Local Open Scope nat_scope.

Lemma find_ext_in : forall {A} (f h : A -> bool) l, (forall x, In x l -> f x = h x) -> find f l = find h l.
Proof.
  induction l as [|x l IH]; intros H; [reflexivity|]. cbn [find]. rewrite H by (left; auto). rewrite IH by (intros; apply H; right; auto). reflexivity.
Qed.

(** ** The automaton of a tester and its levels *)
Section A.
Context (b : BTT).
Hypothesis TS : tester b.
Notation n := (btt_size b).
Notation k := (length (bt_spec b)).
Notation g := (agraph b).
Lemma tester_edges : edges_ok b.
Proof. destruct TS as (A1 & A2 & _). split; [exact A1|]. intros e He. apply (A2 e He). Qed.
Lemma tester_64 : forall w v, In (w, v) (bt_spec b) -> w <= 64.
Proof. destruct TS as (_ & _ & A). exact A. Qed.
Let EO := tester_edges.
Let Wg : wf_graph g := agraph_wf b EO.

Lemma edge_of_at : forall q x, q < n -> edge_at b q x (edge_of b q x).
Proof.
  intros q x Hq. destruct (size_edges b q x Hq) as [e He]. unfold edge_of. unfold edge_at in *.
  erewrite nth_error_nth by exact He. exact He.
Qed.
Lemma edge_of_lt : forall q x, q < n -> ed_to (edge_of b q x) < n.
Proof. intros q x Hq. eapply (edge_to_lt b EO), edge_of_at, Hq. Qed.
Lemma edge_of_bound : forall q x i, q < n -> In i (ed_reset (edge_of b q x)) \/ In i (ed_inc (edge_of b q x)) -> i < k.
Proof.
  intros q x i Hq. destruct TS as (_ & A & _). apply (A (edge_of b q x)). eapply nth_error_In, edge_of_at, Hq.
Qed.
Lemma nxt_edge : forall q x, q < n -> nxt g q x = ed_to (edge_of b q x).
Proof. intros q x Hq. apply (agraph_nxt b q x _ (edge_of_at q x Hq) Hq). Qed.
Lemma goes_run : forall w q, q < n -> goes b q w = run g q w.
Proof.
  induction w as [|x w IH]; intros q Hq; [reflexivity|]. cbn [goes run fold_left]. rewrite (nxt_edge q x Hq).
  apply IH, edge_of_lt, Hq.
Qed.
Lemma goes_app : forall u v q, goes b q (u ++ v) = goes b (goes b q u) v.
Proof. induction u as [|x u IH]; intros v q; [reflexivity|]. cbn [app goes]. apply IH. Qed.
Lemma n_pos : 0 < n. Proof. apply TS. Qed.

Lemma level_run : forall d q, In q (level b d) <-> exists w, length w = d /\ run g 0 w = q.
Proof.
  induction d as [|d IH]; intros q.
  - cbn [level]. split; [intros [<-|[]]; exists []; auto|]. intros ([|] & L & <-); [left; reflexivity|discriminate].
  - cbn [level]. rewrite nodup_In, in_flat_map. split.
    + intros (p & Hp & Hq). apply IH in Hp as (w & Lw & <-).
      assert (run g 0 w < n) as Hn by (rewrite <- (agraph_size b); apply run_lt; [exact Wg|rewrite agraph_size; apply n_pos]).
      destruct Hq as [<-|[<-|[]]]; [exists (w ++ [false])|exists (w ++ [true])]; rewrite app_length, run_app; cbn [length run fold_left];
        (split; [lia|apply nxt_edge, Hn]).
    + intros (w & Lw & <-). destruct (exists_last (l := w)) as (u & x & ->); [intros ->; discriminate|].
      rewrite app_length in Lw. cbn [length] in Lw. exists (run g 0 u). split; [apply IH; exists u; split; [lia|reflexivity]|].
      assert (run g 0 u < n) as Hn by (rewrite <- (agraph_size b); apply run_lt; [exact Wg|rewrite agraph_size; apply n_pos]).
      rewrite run_app. cbn [run fold_left]. rewrite nxt_edge by exact Hn. destruct x; cbn; auto.
Qed.
Lemma level_lt : forall d q, In q (level b d) -> q < n.
Proof.
  intros d q H. apply level_run in H as (w & _ & <-). rewrite <- (agraph_size b). apply run_lt; [exact Wg|]. rewrite agraph_size. apply n_pos.
Qed.
Lemma level_goes : forall w d q, In q (level b d) -> In (goes b q w) (level b (d + length w)).
Proof.
  intros w d q H. pose proof (level_lt d q H) as Hn. apply level_run in H as (u & Lu & HR). apply level_run.
  exists (u ++ w). rewrite app_length, run_app, HR, Lu. split; [reflexivity|]. symmetry. apply goes_run, Hn.
Qed.
Lemma level_next : forall d q x, In q (level b d) -> In (ed_to (edge_of b q x)) (level b (S d)).
Proof. intros d q x H. pose proof (level_goes [x] d q H) as HG. cbn [goes length] in HG. rewrite Nat.add_1_r in HG. exact HG. Qed.
Lemma level_NoDup : forall d, NoDup (level b d).
Proof. intros [|d]; cbn [level]; [repeat constructor; auto|apply NoDup_nodup]. Qed.
Lemma level_reach : forall d l, reach_set g d l -> forall q, In q l <-> In q (level b d).
Proof. intros d l [_ H] q. rewrite H, level_run. reflexivity. Qed.
Lemma level_length : forall d l, reach_set g d l -> length (level b d) = length l.
Proof.
  intros d l H. apply Permutation_length, NoDup_Permutation; [apply level_NoDup|apply is_set_NoDup, H|].
  intros q. symmetry. apply level_reach, H.
Qed.

(** The position of the word from which the weight left in slot p of the buffer of level i comes. *)
Definition possible (d p j : nat) : bool := existsb (Nat.eqb p) (level b (d + j)).
Lemma possible_iff : forall d p j, possible d p j = true <-> In p (level b (d + j)).
Proof.
  intros d p j. unfold possible. rewrite existsb_exists. split.
  - intros (x & Hx & Ex). apply Nat.eqb_eq in Ex as <-. exact Hx.
  - intros H. exists p. split; [exact H|apply Nat.eqb_refl].
Qed.
Definition src (d L i p : nat) : option nat := find (fun j => Nat.even (j - i) && possible d p j) (seq i (S L - i)).
Lemma src_step : forall d L i p, i <= L -> src d L i p = if possible d p i then Some i else src d L (S (S i)) p.
Proof.
  intros d L i p H. unfold src. replace (S L - i) with (S (L - i)) by lia. cbn [seq find]. rewrite Nat.sub_diag. cbn [Nat.even andb].
  destruct (possible d p i); [reflexivity|].
  destruct (L - i) as [|m] eqn:EM.
  - replace (S L - S (S i)) with 0 by lia. reflexivity.
  - cbn [seq find]. replace (S i - i) with 1 by lia. cbn [Nat.even andb]. replace (S L - S (S i)) with m by lia.
    apply find_ext_in. intros x Hx. apply in_seq in Hx. replace (x - i) with (S (S (x - S (S i)))) by lia. reflexivity.
Qed.
Lemma src_over : forall d L i p, L < i -> src d L i p = None.
Proof. intros d L i p H. unfold src. replace (S L - i) with 0 by lia. reflexivity. Qed.
Lemma src_some : forall d L i p j, src d L i p = Some j -> i <= j <= L /\ In p (level b (d + j)).
Proof.
  intros d L i p j H. apply find_some in H as [H1 H2]. apply in_seq in H1. apply andb_true_iff in H2 as [_ H2].
  split; [lia|apply possible_iff, H2].
Qed.

Lemma departure_ok : forall m word, In (m_state m) (level b (m_steps m)) ->
  match departure b m word with
  | Ok (q, w) => exists j, j <= length word /\ w = skipn j word /\ In q (level b (m_steps m + j)) /\
       (if length (level b (m_steps m)) =? 1 then q = 0 /\ src (m_steps m) (length word) 0 0 = Some j else q = m_state m /\ j = 0)
  | Fail f => f = FBadOptional /\ length (level b (m_steps m)) = 1 /\ src (m_steps m) (length word) 0 0 = None
  end.
Proof.
  intros m word Hm. unfold departure.
  assert (EF : find (fun i => Nat.even i && existsb (Nat.eqb 0) (level b (m_steps m + i))) (seq 0 (S (length word))) =
     src (m_steps m) (length word) 0 0).
  { unfold src. rewrite Nat.sub_0_r. apply find_ext_in. intros x _. rewrite Nat.sub_0_r. reflexivity. }
  rewrite EF. clear EF. destruct (level b (m_steps m)) as [|y [|z l]] eqn:EL; cbn [length Nat.eqb].
  - destruct Hm.
  - destruct (src (m_steps m) (length word) 0 0) as [j|] eqn:ES; [|auto].
    apply src_some in ES as ES'. exists j. split; [lia|]. split; [reflexivity|]. split; [apply ES'|auto].
  - exists 0. split; [lia|]. split; [reflexivity|]. rewrite Nat.add_0_r, EL. auto.
Qed.
End A.

Section R.
Context (T : tfhe) (G : gates T) (s0 s1 : list Z) (bit : trgsw T -> bool -> Prop) (E : noise) (GE : gate_noise) (ra : Z).
Hypothesis OK : tfhe_ok T s0 s1 bit E.
Hypothesis GOK : gates_ok T G s0 bit GE.
Hypothesis AS : andny_sign T G s0 GE ra.
Hypothesis NN : noise_nonneg E.
Notation phR := (trlwe_phase (t_n1 T) s1).
Notation N1 := (t_n1 T).
Context (b : BTT).
Hypothesis TS : tester b.
Notation spec := (bt_spec b).
Notation k := (length (bt_spec b)).
Notation n := (btt_size b).
Notation g := (agraph b).
Hypothesis HN : 64 < N1 / 2.
Hypothesis HK : N1 / 2 + k <= N1.
Hypothesis H31 : Nat.log2_up n < 31.
Context (qsize : nat).
Hypothesis HM : machine_margin b qsize E GE ra.
Context (order : nat -> nat -> red).
Hypothesis HO : forall ev j w v, nth_error spec j = Some (w, v) -> valid_order w (order ev j).

Local Notation mh := (m_holds T s1 E b).
Local Notation shp := (shaped b).
Local Notation cts_hold := (ctrs T s1 b).
Local Notation W64 := (tester_64 b TS).
Local Notation Wg := (agraph_wf b (tester_edges b TS)).
Local Notation noi := (machine_noise b qsize E).
Lemma gsz' : size g = n. Proof. apply agraph_size. Qed.
Lemma RA : (0 <= ra)%Z. Proof. apply HM. Qed.

(** ** One task *)
Lemma m_task : forall state weight c x p w0 w1 in0 in1 e t a I zs, shp state -> bit c x -> p < n ->
  nth_error weight (ed_to (edge_of b p false)) = Some (Some w0) -> nth_error weight (ed_to (edge_of b p true)) = Some (Some w1) ->
  alter_weight T w0 (ed_accept (edge_of b p false)) (ed_reset (edge_of b p false)) (ed_inc (edge_of b p false)) = Ok in0 ->
  alter_weight T w1 (ed_accept (edge_of b p true)) (ed_reset (edge_of b p true)) (ed_inc (edge_of b p true)) = Ok in1 ->
  shp in0 -> shp in1 -> mh e t a I zs (if x then in1 else in0) ->
  exists W, btt_task T b state weight c p = Ok (Some W) /\ mh (e + e_cmux E) t a I zs W.
Proof.
  intros state weight c x p w0 w1 in0 in1 e t a I zs HS Hc Hp E0 E1 A0 A1 S0 S1 HW.
  unfold btt_task. rewrite (get_edge_ok b p _ _ (edge_of_at b p false Hp) (edge_of_at b p true Hp)). cbn [bind]. unfold at_. rewrite E0. cbn [bind]. rewrite A0. cbn [bind].
  rewrite E1. cbn [bind]. rewrite A1. cbn [bind]. unfold weight_from. destruct HS as [LS HS]. rewrite LS.
  destruct (init_general_ok T s0 s1 bit E OK b HN HK W64 k 0%N (le_n _)) as (g0 & EG & _). rewrite EG. cbn [bind].
  destruct (m_cmux T s0 s1 bit E OK b HN HK W64 e t a I zs (mkWeight g0 (w_counter state)) c x in1 in0 Hc) as (W & EW & HW'); auto.
  { split; auto. }
  rewrite EW. cbn [bind]. eauto.
Qed.

(** ** Propagation *)
Definition effect (e : Z) (lab : nat -> N) (zs : nat -> Z) (p : nat) (w : list bool) (W : Weight) : Prop :=
  let es := route b p w in
  mh e (lab (goes b p w)) (accepting es) (marks es) (fun j => if resets es j then target_of b j else zs j) W.

Lemma effect_step : forall e lab zs p x w W0, (0 <= e)%Z -> p < n -> effect e lab zs (ed_to (edge_of b p x)) w W0 ->
  exists W, alter_weight T W0 (ed_accept (edge_of b p x)) (ed_reset (edge_of b p x)) (ed_inc (edge_of b p x)) = Ok W /\
    effect e lab zs p (x :: w) W.
Proof.
  intros e lab zs p x w W0 He Hp H. unfold effect in *. cbv zeta in *. cbn [goes route]. cbv zeta.
  set (ed := edge_of b p x) in *. set (es := route b (ed_to ed) w) in *.
  destruct (m_alter T s0 s1 bit E OK NN b HN HK W64 e _ _ _ _ W0 (ed_accept ed) (ed_reset ed) (ed_inc ed) He H) as (W & EW & HW).
  { intros i Hi. eapply (edge_of_bound b TS p x); eauto. }
  exists W. split; [exact EW|].
  replace (accepting (ed :: es)) with (Nat.b2n (ed_accept ed) + accepting es)
    by (unfold accepting; cbn [filter]; destruct (ed_accept ed); reflexivity).
  eapply m_holds_ext; [| |exact HW].
  - intros j Hj. cbv beta. unfold marks. cbn [flat_map]. symmetry. apply count_occ_app.
  - intros j Hj. cbv beta. unfold resets at 2. cbn [existsb]. fold (resets es j).
    destruct (existsb (Nat.eqb j) (ed_reset ed)), (resets es j); reflexivity.
Qed.

Definition buffer (d : nat) (word : list bool) (lab : nat -> N) (zs : nat -> Z) (i : nat) (buf : list (option Weight)) : Prop :=
  length buf = n /\
  forall p, p < n -> match src b d (length word) i p with
    | Some j => exists W, nth_error buf p = Some (Some W) /\ effect (Z.of_nat (length word - j) * e_cmux E) lab zs p (skipn j word) W
    | None => nth_error buf p = Some None
    end.

Lemma m_propagate : forall state ins word levels d lab zs weight, shp state -> Forall2 bit ins word ->
  length levels = S (length word) ->
  (forall i l, nth_error levels i = Some l -> NoDup l /\ forall p, In p l <-> In p (level b (d + i))) ->
  buffer d word lab zs (length word) weight ->
  exists weight', eval_block_cmuxs T b state weight ins levels = Ok weight' /\ buffer d word lab zs 0 weight'.
Proof.
  intros state ins word levels d lab zs weight HS HQ LL HL HW. pose proof NN as (A1 & _).
  unfold eval_block_cmuxs. pose proof (Forall2_len _ _ _ HQ) as LQ. rewrite LQ.
  match goal with |- context [foldM ?f (rev _) _] => set (step := f) end.
  set (L := length word) in *.
  assert (F : forall m, m <= L -> exists wt ot, foldM step (rev (seq (L - m) m)) (weight, repeat None (length weight)) = Ok (wt, ot) /\
     buffer d word lab zs (L - m) wt /\ buffer d word lab zs (S (L - m)) ot).
  { induction m as [|m IH]; intros Hm.
    - rewrite Nat.sub_0_r. cbn [seq rev foldM]. do 2 eexists. split; [reflexivity|]. split; [exact HW|].
      destruct HW as [LW _]. split; [rewrite repeat_length; exact LW|]. intros p Hp. rewrite src_over by (fold L; lia).
      rewrite LW. apply nth_error_repeat, Hp.
    - destruct IH as (wt & ot & EF & B1 & B2); [lia|].
      set (i := L - S m). replace (L - m) with (S i) in * by (subst i; lia).
      change (seq i (S m)) with (i :: seq (S i) m). cbn [rev]. rewrite foldM_app, EF. cbn [bind foldM].
      unfold step at 1.
      destruct (nth_error_some_lt levels i) as [l El]; [lia|].
      destruct (nth_error_some_lt ins i) as [c Ec]; [subst i; lia|].
      destruct (nth_error_some_lt word i) as [y Ey]; [subst i; fold L; lia|].
      assert (Hc : bit c y) by (eapply (BlockFacts.Forall2_nth _ _ _ HQ i); eauto).
      unfold at_. rewrite Ec, El. cbn [bind]. destruct (HL i l El) as [ND HB].
      assert (SK : skipn i word = y :: skipn (S i) word) by (apply skipn_nth, Ey).
      destruct B1 as [L1 B1]. destruct B2 as [L2 B2].
      assert (AT : forall p x, In p l -> exists W, nth_error wt (ed_to (edge_of b p x)) = Some (Some W) /\
         effect (Z.of_nat (L - S i) * e_cmux E) lab zs (ed_to (edge_of b p x)) (skipn (S i) word) W).
      { intros p x Hp. apply HB in Hp. pose proof (level_next b TS _ p x Hp) as Hn. rewrite <- Nat.add_succ_r in Hn.
        specialize (B1 _ (level_lt b TS _ _ Hn)). rewrite src_step in B1 by (subst i; fold L; lia).
        apply possible_iff in Hn. rewrite Hn in B1. exact B1. }
      assert (BODY : forall p, In p l -> exists W, btt_task T b state wt c p = Ok (Some W) /\
           effect (Z.of_nat (L - i) * e_cmux E) lab zs p (skipn i word) W).
      { intros p Hp. assert (Pn : p < n) by (apply (level_lt b TS (d + i)), HB, Hp).
        assert (EP : (0 <= Z.of_nat (L - S i) * e_cmux E)%Z) by (apply Z.mul_nonneg_nonneg; lia).
        destruct (AT p false Hp) as (w0 & E0 & V0). destruct (AT p true Hp) as (w1 & E1 & V1).
        destruct (effect_step _ _ _ _ _ _ _ EP Pn V0) as (i0 & I0 & X0). destruct (effect_step _ _ _ _ _ _ _ EP Pn V1) as (i1 & I1 & X1).
        pose proof (m_holds_shaped _ _ _ _ _ _ _ _ _ _ X0) as SH0. pose proof (m_holds_shaped _ _ _ _ _ _ _ _ _ _ X1) as SH1.
        rewrite SK. unfold effect. cbv zeta.
        assert (EL1 : (Z.of_nat (L - i) * e_cmux E = Z.of_nat (L - S i) * e_cmux E + e_cmux E)%Z).
        { assert (L - i = S (L - S i)) as -> by (subst i; lia). lia. }
        rewrite EL1. eapply (m_task state wt c y p w0 w1 i0 i1); eauto. destruct y; assumption. }
      destruct (par_for_ok (btt_task T b state wt c) l ot ND) as (o & EO & LO & PO & QO).
      { intros p Hp. rewrite L2. apply (level_lt b TS (d + i)), HB, Hp. }
      { intros p Hp. destruct (BODY p Hp) as (W & -> & _). eauto. }
      rewrite EO. cbn [bind]. do 2 eexists. split; [reflexivity|]. split; [|split; [exact L1|exact B1]].
      split; [congruence|]. intros p Hp. rewrite src_step by (subst i; fold L; lia). destruct (possible b d p i) eqn:EPs.
      + apply possible_iff in EPs. assert (In p l) as Hpl by (apply HB, EPs).
        destruct (BODY p Hpl) as (W & EB & HB'). destruct (PO p Hpl) as (W' & EW' & HW'). rewrite EB in EW'. injection EW' as <-. eauto.
      + assert (~ In p l) as Hpl. { intros C. apply HB, possible_iff in C. congruence. }
        rewrite QO by exact Hpl. apply B2, Hp. }
  destruct (F L (le_n _)) as (wt & ot & EF & B1 & _). rewrite Nat.sub_diag in EF, B1.
  rewrite EF. cbn [bind]. exists wt. split; [reflexivity|]. exact B1.
Qed.

(** ** The weights a round starts from *)
Lemma m_start_weights : forall state next n2i zs d word lab, cts_hold (e_br E) zs state -> NoDup next ->
  (forall p, In p next <-> In p (level b (d + length word))) ->
  (forall i p, nth_error next i = Some p -> nth_error n2i p = Some (Some i) /\ lab p = N.of_nat i) ->
  exists weight, foldM (fun weight q =>
                   do t <- at_ n2i q;
                   do w <- weight_from T (match t with Some i => N.of_nat i | None => 18446744073709551615%N end) state;
                   set_at weight q (Some w)) next (repeat None n) = Ok weight /\ buffer d word lab zs (length word) weight.
Proof.
  intros state next n2i zs d word lab HC ND HL HI.
  assert (F : forall l, NoDup l -> incl l next -> forall weight, length weight = n ->
    exists weight', foldM (fun weight q =>
                   do t <- at_ n2i q;
                   do w <- weight_from T (match t with Some i => N.of_nat i | None => 18446744073709551615%N end) state;
                   set_at weight q (Some w)) l weight = Ok weight' /\ length weight' = n /\
      (forall p, ~ In p l -> nth_error weight' p = nth_error weight p) /\
      forall p, In p l -> exists W, nth_error weight' p = Some (Some W) /\ mh 0 (lab p) 0 (fun _ => 0) zs W).
  { induction l as [|x l IH]; intros NDl IN weight LWt.
    - exists weight. cbn. split; [auto|]. split; [auto|]. split; [auto|]. intros p [].
    - inversion NDl as [|? ? NI NDl']; subst. cbn [foldM].
      assert (In x next) as Hx by (apply IN; left; auto). pose proof (level_lt b TS _ x (proj1 (HL x) Hx)) as Lx.
      destruct (In_nth_error _ _ Hx) as [ix Eix]. destruct (HI _ _ Eix) as [EN2 ELab]. unfold at_ at 1. rewrite EN2. cbn [bind].
      destruct (m_weight_from T s0 s1 bit E OK b HN HK W64 zs (N.of_nat ix) state HC) as (w & Ew & Hw). rewrite Ew. cbn [bind].
      rewrite set_at_lt by lia. cbn [bind].
      destruct (IH NDl' (fun y Hy => IN y (or_intror Hy)) (upd x (Some w) weight)) as (wt & EF & LF & PF & QF).
      { rewrite upd_length; auto. }
      exists wt. split; [exact EF|]. split; [exact LF|]. split.
      + intros p Hp. rewrite PF by (intros C; apply Hp; right; auto). apply upd_neq. intros ->. apply Hp. left; auto.
      + intros p [<-|Hp]; [|apply QF; auto].
        exists w. rewrite ELab. split; [rewrite PF by auto; apply upd_eq; lia|exact Hw]. }
  destruct (F next ND (incl_refl _) (repeat None n)) as (wt & EF & LF & PF & QF).
  - apply repeat_length.
  - exists wt. split; [exact EF|]. split; [exact LF|]. intros p Hp. rewrite src_step by lia. rewrite src_over by lia.
    destruct (possible b d p (length word)) eqn:EPs.
    + apply possible_iff, HL in EPs. destruct (QF p EPs) as (W & EW & HW). exists W. split; [exact EW|].
      rewrite skipn_all, Nat.sub_diag. unfold effect. cbn [route goes]. exact HW.
    + rewrite PF; [apply nth_error_repeat, Hp|]. intros C. apply HL, possible_iff in C. congruence.
Qed.

(** ** Invariant *)
Record m_inv (m : machine) (s : runner T) : Prop := mkMI {
  mi_btt : r_btt T s = b;
  mi_graph : r_graph T s = g;
  mi_q : r_qsize T s = qsize;
  mi_queue : Forall2 bit (r_queue T s) (m_queue m);
  mi_live : reach_set g (m_steps m) (r_live T s);
  mi_len : length (m_left m) = k;
  mi_red : forall j, j < k -> modulo_width b j (nth j (m_left m) 0%Z) = nth j (m_left m) 0%Z;
  mi_acc : exists a, near noi (phR (w_general (r_state T s)) 0) (mk a) /\ marked a = m_accept m;
  mi_idx : exists t, nth_error (r_live T s) t = Some (m_state m) /\
     forall i, i < 64 -> near noi (phR (w_general (r_state T s)) (S i)) (msg_1o8 (N.testbit_nat (N.of_nat t) i));
  mi_ctr : cts_hold (e_br E) (fun j => nth j (m_left m) 0%Z) (r_state T s) }.

Lemma target_start : forall j, j < k -> target_of b j = start_of b j.
Proof. intros j Hj. unfold target_of, start_of. destruct (spec_nth b j Hj) as (w & v & Es). rewrite Es. erewrite nth_error_nth by exact Es. reflexivity. Qed.
Lemma width_eq : forall j w v, nth_error spec j = Some (w, v) -> width_of b j = w.
Proof. intros j w v Es. unfold width_of. erewrite nth_error_nth by exact Es. reflexivity. Qed.
Lemma nth_map_seq : forall (f : nat -> Z) j, j < k -> nth j (map f (seq 0 k)) 0%Z = f j.
Proof.
  intros f j Hj. apply nth_error_nth. rewrite nth_error_map, nth_error_seq by auto. reflexivity.
Qed.
Lemma modulo_twice : forall j z, modulo_width b j (modulo_width b j z) = modulo_width b j z.
Proof. intros j z. unfold modulo_width. apply Z.mod_mod. pose proof (Z.pow_pos_nonneg 2 (Z.of_nat (width_of b j))). lia. Qed.
Lemma m_noise_parts : forall L j width, L <= k + Nat.max 1 qsize -> width <= Nat.log2_up n ->
  (Z.of_nat (L - j) * e_cmux E + Z.of_nat width * e_cmux E <= noi)%Z.
Proof. intros L j width HL Hw. destruct NN as (A1 & _). unfold machine_noise. nia. Qed.

Lemma m_round_ok : forall m s, m_inv m s -> length (m_queue m) <= Nat.max 1 qsize ->
  match machine_round b m with
  | Ok m' => exists s', runner_eval_queued T G order s = Ok s' /\ m_inv m' s' /\ m_queue m' = []
  | Fail f => runner_eval_queued T G order s = Fail f
  end.
Proof.
  intros m s HI0 LQ0. pose proof HI0 as [Eb Eg Eq HQ HLv ELen HRed HA (t & Et & HI) HC].
  pose proof NN as (A1 & A2 & A3 & A4 & A5 & A6). pose proof HM as ((M1 & M2 & M3 & M4 & M5 & M6) & M7 & M8). cbv zeta in M8.
  unfold machine_round, runner_eval_queued. pose proof (Forall2_len _ _ _ HQ) as LQ. rewrite LQ.
  destruct (m_queue m) as [|x0 qu] eqn:EQu.
  { cbn [length Nat.eqb]. exists s. auto. }
  rewrite <- EQu in *. replace (length (m_queue m) =? 0) with false by (rewrite EQu; reflexivity). clear x0 qu EQu.
  cbv zeta. rewrite Eb, Eg, Eq.
  set (live := r_live T s) in *. set (state := r_state T s) in *.
  destruct (conditions_ok T G s0 s1 bit E GE OK GOK NN b HN HK W64 (order (r_evals T s)) _ state noi (proj1 HM) HC) as (cond & ECo & FCo).
  { intros j w v Hj. eapply HO; eauto. }
  rewrite ECo. cbn [bind].
  set (zv := map (fun z => (z =? 0)%Z) (m_left m)) in *.
  assert (EZ : map (fun j => match nth_error spec j with Some (w, _) => ((nth j (m_left m) 0) mod 2 ^ Z.of_nat w =? 0)%Z | None => false end) (seq 0 k) = zv).
  { apply nth_error_ext. intros i. unfold zv. rewrite !nth_error_map. destruct (Nat.lt_ge_cases i k) as [Hi|Hi].
    - rewrite nth_error_seq by auto. cbn [option_map Nat.add]. destruct (spec_nth b i Hi) as (w & v & Es). rewrite Es.
      pose proof (HRed i Hi) as HR. unfold modulo_width in HR. rewrite (width_eq _ _ _ Es) in HR. rewrite HR.
      rewrite (nth_error_nth' (m_left m) 0%Z) by lia. reflexivity.
    - rewrite !(proj2 (nth_error_None _ _)) by (rewrite ?seq_length; lia). reflexivity. }
  rewrite EZ in FCo. clear EZ.
  set (word := zv ++ m_queue m). set (L := length word).
  assert (FIn : Forall2 bit (cond ++ r_queue T s) word) by (apply Forall2_app; auto).
  pose proof (Forall2_len _ _ _ FIn) as LIn. fold L in LIn. rewrite LIn.
  assert (LL0 : L <= k + Nat.max 1 qsize). { unfold L, word, zv. rewrite app_length, map_length, ELen. lia. }
  destruct (track_live_states_correct g live L Wg (fun q => reach_lt g Wg _ _ q HLv)) as (LS & EL & LL & H0 & HLs).
  rewrite EL. cbn [bind]. set (next := last LS []).
  assert (EN : nth_error LS L = Some next) by (apply nth_last; auto).
  assert (HLR : forall i l, nth_error LS i = Some l -> reach_set g (m_steps m + i) l).
  { intros i l Ek. destruct (HLs i l Ek) as [S1 P1]. eapply reach_step; [exact HLv| |].
    - destruct i; [|apply S1; lia]. rewrite H0 in Ek. injection Ek as <-. apply HLv.
    - intros q. rewrite P1. split; intros (r & w & Hr & Lw & R); exists r, w; (split; [auto|]); (split; [auto|]);
        rewrite (run_from_run g w r Wg (reach_lt g Wg _ _ _ HLv Hr)) in *; congruence. }
  pose proof (HLR _ _ EN) as HR.
  assert (ND : NoDup next) by (apply is_set_NoDup, HR).
  assert (NB : forall q, In q next -> q < size g) by (intros q; apply (reach_lt g Wg _ _ q HR)).
  destruct (block_index_ok g next ND NB) as (n2i & EI & LI & HIx). unfold block_index in EI. rewrite EI. cbn [bind].
  set (zs := fun j => nth j (m_left m) 0%Z) in *.
  set (lab := fun q => match nth_error n2i q with Some (Some i) => N.of_nat i | _ => 0%N end).
  destruct (m_start_weights state next n2i zs (m_steps m) word lab HC ND) as (weight & EW & BW).
  { apply (level_reach b TS), HR. }
  { intros i p Hi. unfold lab. rewrite (HIx _ _ Hi). auto. }
  rewrite EW. cbn [bind].
  destruct (m_propagate state (cond ++ r_queue T s) word LS (m_steps m) lab zs weight) as (wt & EP & BP); auto.
  { eapply ctrs_shaped, HC. }
  { intros i l Ei. split; [apply is_set_NoDup, (HLR i l Ei)|]. apply (level_reach b TS), HLR, Ei. }
  rewrite EP. cbn [bind]. destruct BP as [LWt BP].
  pose proof (reach_len g Wg _ _ HLv) as RL. rewrite gsz' in RL. fold live in RL.
  assert (Hcur : In (m_state m) (level b (m_steps m))) by (apply (level_reach b TS _ live HLv); eapply nth_error_In; eauto).
  assert (Lt : t < length live) by (eapply nth_error_lt; eauto).
  pose proof (departure_ok b m word Hcur) as HD. rewrite (level_length b TS _ live HLv) in HD. fold L in HD.
  set (width := Nat.log2_up (length live)).
  assert (WW : width <= Nat.log2_up n) by (apply Nat.log2_up_le_mono; auto).
  (* the slots of live states *)
  assert (PL : forall p, In p live -> exists W, nth_error wt p = Some (Some W) /\ effect (Z.of_nat L * e_cmux E) lab zs p word W).
  { intros p Hp. apply (level_reach b TS _ live HLv) in Hp. specialize (BP p (level_lt b TS _ _ Hp)).
    rewrite src_step in BP by lia. assert (possible b (m_steps m) p 0 = true) as HP0 by (apply possible_iff; rewrite Nat.add_0_r; exact Hp).
    rewrite HP0 in BP. rewrite Nat.sub_0_r in BP. exact BP. }
  match goal with |- context [bind ?s _] => match s with (if length live =? 1 then _ else _) => set (sel := s) end end.
  assert (SEL : match departure b m word with
      | Ok (q, w) => exists W, sel = Ok W /\ effect noi lab zs q w W
      | Fail f => sel = Fail f end).
  { unfold sel. destruct (Nat.eqb_spec (length live) 1) as [L1|L1].
    - specialize (BP 0 (n_pos b TS)). fold L in BP. destruct (departure b m word) as [[q w]|f].
      + destruct HD as (j & Lj & -> & Hq & -> & ESr). rewrite ESr in BP. destruct BP as (W & EW' & HW'). unfold at_. rewrite EW'. cbn [bind].
        exists W. split; [reflexivity|]. eapply (m_holds_le T s1 E b HN HK W64); [exact HW'|].
        pose proof (m_noise_parts L j 0 LL0 ltac:(lia)). lia.
      + destruct HD as (-> & _ & ESr). rewrite ESr in BP. unfold at_. rewrite BP. reflexivity.
    - destruct (departure b m word) as [[q w]|f]; [|destruct HD as (_ & HD & _); lia].
      destruct HD as (j & Lj & -> & Hq & -> & ->). cbn [skipn].
      assert (W64' : width <= 64) by lia.
      destruct (selectors_ok T G s0 s1 bit E GE OK GOK b HN HK W64 noi (N.of_nat t) state width HI W64' M3) as (sl & ESl & FSl); [lia|].
      rewrite ESl. cbn [bind].
      assert (GA : exists ws, mapM (fun i => do q <- at_ live i; do o <- at_ wt q;
                                 match o with Some w => Ok w | None => Fail FBadOptional end) (seq 0 (length live)) = Ok ws /\
          length ws = length live /\ forall i q, nth_error live i = Some q -> exists W, nth_error ws i = Some W /\ nth_error wt q = Some (Some W)).
      { set (f := fun i : nat => _).
        assert (AL : forall i q, nth_error live i = Some q -> exists W, f i = Ok W /\ nth_error wt q = Some (Some W)).
        { intros i q Ei. destruct (PL q (nth_error_In _ _ Ei)) as (W & EW' & _). exists W. split; [|exact EW'].
          unfold f, at_. rewrite Ei. cbn [bind]. rewrite EW'. reflexivity. }
        destruct (mapM_total f (seq 0 (length live))) as [ws Ews].
        { intros i Hi. apply in_seq in Hi. destruct (nth_error_some_lt live i) as [q Eqi]; [lia|]. destruct (AL i q Eqi) as (W & -> & _). eauto. }
        exists ws. split; [exact Ews|]. pose proof (mapM_length _ _ _ Ews) as LWs. rewrite seq_length in LWs. split; [auto|].
        intros i q Ei. destruct (AL i q Ei) as (W & EfW & EwW). pose proof (nth_error_lt _ _ _ Ei) as Hi.
        destruct (nth_error_some_lt ws i) as [W' EW']; [lia|].
        pose proof (mapM_nth f (seq 0 (length live)) ws i) as MN. rewrite nth_error_seq in MN by auto. cbn [Nat.add] in MN.
        exists W. split; [|exact EwW]. destruct (MN i Ews eq_refl) as (W2 & EW2 & Ef2). rewrite EfW in Ef2. injection Ef2 as <-. exact EW2. }
      destruct GA as (ws & EWs & LWs & PWs). fold width. rewrite EWs. cbn [bind].
      destruct (m_weight_from T s0 s1 bit E OK b HN HK W64 zs 0 state HC) as (dm & EDm & HDm). rewrite EDm. cbn [bind].
      assert (TW : t < 2 ^ width). { eapply Nat.lt_le_trans; [exact Lt|]. apply (log2_up_bound T b HN HK H31 order HO qsize). lia. }
      rewrite bits_N in FSl. pose proof (Forall2_len _ _ _ FSl) as LSl. unfold val_bits in LSl. rewrite map_length, seq_length in LSl.
      destruct (PWs t (m_state m) Et) as (W & EWt & EwW). destruct (PL (m_state m) (nth_error_In _ _ Et)) as (W' & EW' & D2).
      rewrite EwW in EW'. injection EW' as <-.
      assert (LR : length (resize ws (2 ^ width) dm) = 2 ^ width) by apply resize_length.
      assert (FS : Forall shp (resize ws (2 ^ width) dm)).
      { apply Forall_forall. intros y Hy. apply In_nth_error in Hy as [i Hi]. pose proof (nth_error_lt _ _ _ Hi) as Li. rewrite LR in Li.
        destruct (Nat.lt_ge_cases i (length live)) as [Hl|Hl].
        - destruct (nth_error_some_lt live i Hl) as [q Eqi]. destruct (PWs i q Eqi) as (Y & EY & EYw).
          rewrite resize_nth in Hi by auto. destruct (Nat.ltb_spec i (length ws)); [|lia]. rewrite EY in Hi. injection Hi as <-.
          destruct (PL q (nth_error_In _ _ Eqi)) as (Y' & EY' & D2'). rewrite EYw in EY'. injection EY' as <-.
          eapply m_holds_shaped, D2'.
        - rewrite resize_nth in Hi by auto. destruct (Nat.ltb_spec i (length ws)); [lia|]. injection Hi as <-. eapply m_holds_shaped, HDm. }
      unfold effect in D2. cbv zeta in D2.
      assert (LSx : length (resize ws (2 ^ width) dm) = 2 ^ length sl) by congruence.
      assert (L31x : length sl < 31) by lia.
      assert (EWx : nth_error (resize ws (2 ^ width) dm) (bits_val (val_bits width t)) = Some W).
      { rewrite bits_val_of by auto. rewrite resize_nth by auto. destruct (Nat.ltb_spec t (length ws)); [exact EWt|lia]. }
      destruct (m_lookup T s0 s1 bit E OK b HN HK W64 _ _ _ _ _ _ _ _ _ FSl L31x LSx FS EWx D2) as (tb & W' & ETb & ETw & HW').
      rewrite ETb. cbn [bind]. unfold at_. rewrite ETw. exists W'. split; [reflexivity|].
      unfold effect. cbv zeta. eapply (m_holds_le T s1 E b HN HK W64); [exact HW'|]. rewrite LSl.
      pose proof (m_noise_parts L 0 width LL0 WW) as NP. rewrite Nat.sub_0_r in NP. exact NP. }
  destruct (departure b m word) as [[q w]|f]; [|cbn [bind]; rewrite SEL; reflexivity].
  cbn [bind]. destruct SEL as (W & ESel & D2). rewrite ESel. cbn [bind].
  destruct HD as (j0 & Lj0 & -> & Hq & _). unfold effect in D2. cbv zeta in D2.
  set (es := route b q (skipn j0 word)) in *.
  destruct (m_update_counters T G s0 s1 bit E GE ra OK GOK AS M7 NN b HN HK W64 noi _ _ _ _ W (e_br E + e_iks E + g_out GE + noi) D2) as (W' & EU & EGn & HCt); try lia.
  rewrite EU. cbn [bind]. eexists. split; [reflexivity|]. split; [|reflexivity].
  destruct D2 as [Q1 Q2 Q3 Q4].
  constructor; cbn [r_btt r_graph r_qsize r_queue r_state r_live m_queue m_steps m_state m_accept m_left]; auto.
  - rewrite map_length, seq_length. reflexivity.
  - intros j Hj. rewrite !nth_map_seq by exact Hj. apply modulo_twice.
  - exists (accepting es). rewrite EGn. auto.
  - assert (Hin : In (goes b q (skipn j0 word)) next).
    { apply (level_reach b TS _ next HR). pose proof (level_goes b TS (skipn j0 word) _ q Hq) as HG.
      rewrite skipn_length in HG. fold L in HG. replace (m_steps m + j0 + (L - j0)) with (m_steps m + L) in HG by lia. exact HG. }
    destruct (In_nth_error _ _ Hin) as [i Ei]. exists i. split; [exact Ei|]. intros z Hz. rewrite EGn.
    assert (lab (goes b q (skipn j0 word)) = N.of_nat i) as EL2. { unfold lab. rewrite (HIx _ _ Ei). reflexivity. }
    rewrite <- EL2. apply Q2, Hz.
  - destruct HCt as [LCt HCt]. split; [exact LCt|]. intros j w v Es. destruct (HCt j w v Es) as (ct & Ect & Hct). exists ct. split; [exact Ect|].
    pose proof (nth_error_lt _ _ _ Es) as Hj. eapply ctr_holds_mod; [exact Hct|]. rewrite nth_map_seq by exact Hj. cbv beta.
    rewrite target_start by exact Hj. unfold modulo_width. rewrite (width_eq _ _ _ Es). symmetry. apply Z.mod_mod.
    pose proof (Z.pow_pos_nonneg 2 (Z.of_nat w)). lia.
Qed.

Lemma m_new_ok : exists s, runner_new T b qsize = Ok s /\ m_inv (machine_new b) s.
Proof.
  pose proof HM as ((M1 & M2 & M3 & M4 & M5 & M6) & _).
  unfold runner_new. rewrite (to_graph_ok b (tester_edges b TS)). cbn [bind].
  destruct (weight_new_ok T s0 s1 bit E OK NN b HN HK W64) as (W & EW & P1 & P2 & P3 & P4). rewrite EW. cbn [bind].
  eexists. split; [reflexivity|]. unfold machine_new.
  constructor; cbn [r_btt r_graph r_qsize r_queue r_state r_live m_queue m_steps m_state m_accept m_left]; auto.
  - split; [cbn; auto|]. intros q. split.
    + intros [<-|[]]. exists []. auto.
    + intros ([|] & Lw & <-); [left; reflexivity|discriminate].
  - rewrite map_length, seq_length. reflexivity.
  - intros j Hj. rewrite nth_map_seq by exact Hj. apply modulo_twice.
  - exists 0. split; [|reflexivity]. rewrite mk_0. eapply near_le; [exact P1|lia].
  - exists 0. split; [reflexivity|]. intros i Hi. eapply near_le; [apply P2, Hi|lia].
  - destruct P4 as [LCt HCt]. split; [exact LCt|]. intros j w v Es. destruct (HCt j w v Es) as (ct & Ect & Hct). exists ct. split; [exact Ect|].
    pose proof (nth_error_lt _ _ _ Es) as Hj. eapply ctr_holds_mod; [exact Hct|]. rewrite nth_map_seq by exact Hj.
    rewrite target_start by exact Hj. unfold modulo_width. rewrite (width_eq _ _ _ Es). symmetry. apply Z.mod_mod.
    pose proof (Z.pow_pos_nonneg 2 (Z.of_nat w)). lia.
Qed.

Lemma m_play_ok : forall h hb, encrypts bit h hb -> forall m s, m_inv m s -> length (m_queue m) < Nat.max 1 qsize ->
  match play (machine_feed b qsize) (machine_ask b) hb m with
  | Ok (answers, m') => exists outs s', play (runner_eval_one T G order) (runner_result T G order) h s = Ok (outs, s') /\
      map (fun c => TLWELvl1_decrypt N1 c s1) outs = answers /\ m_inv m' s'
  | Fail f => play (runner_eval_one T G order) (runner_result T G order) h s = Fail f
  end.
Proof.
  pose proof HM as ((M1 & M2 & M3 & M4 & M5 & M6) & _). pose proof NN as (A1 & A2 & A3 & A4 & A5 & A6).
  intros h hb HE. induction HE as [|ev eb h hb Hev HE IH]; intros m s HI LQ.
  - cbn [play]. exists [], s. auto.
  - destruct Hev as [c x Hc|]; cbn [play].
    + set (m1 := mkMachine (m_queue m ++ [x]) (m_steps m) (m_state m) (m_accept m) (m_left m)).
      set (s1' := mkRunner T (r_btt T s) (r_graph T s) (r_qsize T s) (r_queue T s ++ [c]) (r_state T s) (r_live T s) (r_evals T s)).
      assert (HI1 : m_inv m1 s1').
      { destruct HI as [B1 B2 B3 B4 B5 B6 B7 B8 B9 B10]. constructor; auto. cbn [m1 s1' m_queue r_queue]. apply Forall2_app; auto. }
      assert (LQ1 : length (m_queue m1) <= Nat.max 1 qsize) by (cbn [m1 m_queue]; rewrite app_length; cbn [length]; lia).
      assert (ER : runner_eval_one T G order s c = if length (r_queue T s1') <? r_qsize T s1' then Ok s1' else runner_eval_queued T G order s1') by reflexivity.
      assert (EF : machine_feed b qsize m x = if length (m_queue m1) <? qsize then Ok m1 else machine_round b m1) by reflexivity.
      rewrite ER, EF. clear ER EF.
      pose proof (Forall2_len _ _ _ (mi_queue _ _ HI1)) as LF. rewrite LF, (mi_q _ _ HI1).
      destruct (Nat.ltb_spec (length (m_queue m1)) qsize) as [Hq|Hq].
      * cbn [bind]. apply IH; [exact HI1|lia].
      * pose proof (m_round_ok m1 s1' HI1 LQ1) as HRd. destruct (machine_round b m1) as [m2|f].
        -- destruct HRd as (s2 & E2 & HI2 & Q2). rewrite E2. cbn [bind]. apply IH; [exact HI2|]. rewrite Q2. cbn [length]. lia.
        -- rewrite HRd. reflexivity.
    + assert (ER : runner_result T G order s = do s <- runner_eval_queued T G order s; do ret <- get_accept T (r_state T s); Ok (ret, s)) by reflexivity.
      assert (EF : machine_ask b m = do m <- machine_round b m; Ok (m_accept m, m)) by reflexivity.
      rewrite ER, EF. clear ER EF.
      pose proof (m_round_ok m s HI ltac:(lia)) as HRd. destruct (machine_round b m) as [m2|f].
      * destruct HRd as (s2 & E2 & HI2 & Q2). rewrite E2. cbn [bind].
        unfold get_accept, get_general_bit. destruct (Nat.leb_spec N1 0); [lia|]. cbn [bind].
        assert (LQ2 : length (m_queue m2) < Nat.max 1 qsize) by (rewrite Q2; cbn [length]; lia).
        specialize (IH m2 s2 HI2 LQ2). destruct (play (machine_feed b qsize) (machine_ask b) hb m2) as [[answers m']|f].
        -- destruct IH as (outs & s' & EP & ED & HI'). rewrite EP. cbn [bind].
           exists (sei T (w_general (r_state T s2)) 0 :: outs), s'. split; [reflexivity|]. split; [|exact HI'].
           cbn [map]. rewrite ED. f_equal. destruct (mi_acc _ _ HI2) as (a & Ha & <-). unfold TLWELvl1_decrypt.
           erewrite sym_bit_eqm; [eapply (sym_bit_mk noi); [exact Ha|lia]|].
           rewrite phase_of_TLWE_ok by (apply (ok_n1 _ _ _ _ _ OK)). apply (ok_sei _ _ _ _ _ OK). lia.
        -- rewrite IH. reflexivity.
      * rewrite HRd. reflexivity.
Qed.

(** ** dump *)
Lemma m_dump_ok : forall m s, m_inv m s -> (forall w v, In (w, v) spec -> w <= 32) -> k <= 31 ->
  exists info, runner_dump T s s1 = Ok (m_accept m, m_state m, info, map Z.to_N (m_left m)).
Proof.
  intros m s HI H32 K31. pose proof HM as ((M1 & M2 & M3 & M4 & M5 & M6) & _). pose proof NN as (A1 & A2 & A3 & A4 & A5 & A6).
  pose proof (ok_n1 _ _ _ _ _ OK) as Hn. pose proof (half_le T b HN HK) as Hh.
  destruct HI as [Eb Eg Eq HQ HL ELen HRed (a & HA & EA) (t & Et & HIx) HC].
  unfold runner_dump, weight_decrypt. cbv zeta.
  set (gen := w_general (r_state T s)) in *.
  assert (ACC : sym_bit (cf (phase_of_TRLWELvl1 N1 gen s1) 0) = m_accept m).
  { rewrite <- EA. erewrite sym_bit_eqm; [eapply (sym_bit_mk noi); [exact HA|lia]|]. rewrite cf_m. apply phase_of_TRLWE_ok; auto; lia. }
  rewrite ACC.
  assert (Ht : t < n).
  { pose proof (reach_len g Wg _ _ HL) as RL. rewrite gsz' in RL. apply nth_error_lt in Et. lia. }
  assert (ST : foldM (fun r i => if sym_bit (cf (phase_of_TRLWELvl1 N1 gen s1) (i + 1))
                          then if 31 <=? i then Fail FUndefined else Ok (N.lor r (N.shiftl 1 (N.of_nat i)))
                          else Ok r) (seq 0 64) 0%N = Ok (N.of_nat t)).
  { assert (F : forall z, z <= 64 -> foldM (fun r i => if sym_bit (cf (phase_of_TRLWELvl1 N1 gen s1) (i + 1))
                          then if 31 <=? i then Fail FUndefined else Ok (N.lor r (N.shiftl 1 (N.of_nat i)))
                          else Ok r) (seq 0 z) 0%N = Ok (Z.to_N (Z.of_nat t mod 2 ^ Z.of_nat z))).
    { induction z as [|z IH]; intros Hm.
      - cbn [seq foldM]. change (2 ^ Z.of_nat 0)%Z with 1%Z. rewrite Z.mod_1_r. reflexivity.
      - rewrite seq_S, foldM_app, IH by lia. cbn [bind foldM Nat.add].
        replace (z + 1) with (S z) by lia.
        rewrite (phase_bit T s0 s1 bit E OK noi gen (N.testbit_nat (N.of_nat t) z) (S z) (HIx z ltac:(lia))) by lia.
        rewrite <- (lor_bit _ (Z.of_nat t) z ltac:(lia) eq_refl).
        assert (TB : Z.testbit (Z.of_nat t) (Z.of_nat z) = N.testbit_nat (N.of_nat t) z).
        { rewrite <- Ntestbit_Nbit, <- Z.testbit_of_N, !nat_N_Z. reflexivity. }
        rewrite TB. destruct (Nat.leb_spec 31 z) as [H|H].
        + rewrite (small_bits T b HN HK H31 order HO qsize) by auto. reflexivity.
        + destruct (N.testbit_nat (N.of_nat t) z); reflexivity. }
    rewrite F by lia. f_equal. rewrite Z.mod_small; [lia|]. split; [lia|].
    assert (t < 2 ^ 31). { pose proof (log2_up_bound T b HN HK H31 order HO qsize n ltac:(lia)) as LB. assert (2 ^ Nat.log2_up n <= 2 ^ 31) by (apply Nat.pow_le_mono_r; lia). lia. }
    assert (Z.of_nat t < Z.of_nat (2 ^ 31))%Z as HZ by (apply Nat2Z.inj_lt; auto). rewrite Nat2Z.inj_pow in HZ.
    eapply Z.lt_trans; [exact HZ|]. reflexivity. }
  rewrite ST. cbn [bind]. destruct HC as [LC HC]. rewrite LC.
  assert (IN : forall l r, (forall j, In j l -> j < k) -> exists info, foldM (fun r i => if sym_bit (cf (phase_of_TRLWELvl1 N1 gen s1) (N1 / 2 + i))
                      then if 31 <=? i then Fail FUndefined else Ok (N.lor r (N.shiftl 1 (N.of_nat i)))
                      else Ok r) l r = Ok info).
  { induction l as [|j l IH]; intros r Hl; [cbn; eauto|]. cbn [foldM].
    assert (j < k) by (apply Hl; left; auto).
    destruct (sym_bit (cf (phase_of_TRLWELvl1 N1 gen s1) (N1 / 2 + j))); [destruct (Nat.leb_spec 31 j); [lia|]|]; cbn [bind]; apply IH; intros; apply Hl; right; auto. }
  destruct (IN (seq 0 k) 0%N) as (info & EI). { intros j Hj. apply in_seq in Hj. lia. }
  rewrite EI. cbn [bind].
  assert (EM : mapM (fun c => counter_decrypt T c s1) (w_counter (r_state T s)) = Ok (map Z.to_N (m_left m))).
  { assert (F : forall cs zs, Forall2 (fun c z => counter_decrypt T c s1 = Ok (Z.to_N z)) cs zs ->
       mapM (fun c => counter_decrypt T c s1) cs = Ok (map Z.to_N zs)).
    { induction 1 as [|c z cs zs Hc _ IHF]; [reflexivity|]. cbn [mapM map]. rewrite Hc. cbn [bind]. rewrite IHF. reflexivity. }
    apply F. apply BaseFacts.Forall2_nth. split; [congruence|].
    intros i c z Hc Hz. pose proof (nth_error_lt _ _ _ Hz) as Li. rewrite ELen in Li.
    destruct (spec_nth b i Li) as (w & v & Es). destruct (HC i w v Es) as (c' & Ec' & Hc'). rewrite Hc in Ec'. injection Ec' as <-.
    rewrite (decrypt_ok T s0 s1 bit E OK _ _ _ _ _ Hc') by (try lia; eapply H32, nth_error_In; eauto).
    pose proof (HRed i Li) as HR. unfold modulo_width in HR. rewrite (width_eq _ _ _ Es) in HR. rewrite HR. erewrite nth_error_nth by exact Hz. reflexivity. }
  rewrite EM. cbn [bind]. rewrite Nnat.Nat2N.id. unfold at_. rewrite Et. cbn [bind]. exists info. reflexivity.
Qed.
End R.
