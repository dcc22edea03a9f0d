(** Facts about the messages of LtlLogModel. *)
From Coq Require Import String.
From Coq Require Import List Arith Bool NArith Ascii Lia.
Import ListNotations.
From Verif Require Import Base BaseFacts GraphModel TextModel DotModel LtlModel LtlSpec LtlFacts1 LtlFacts4 LtlFacts5 LtlLogModel LtlLogSpec.
Local Open Scope list_scope.

Lemma next_snd {A B} (m : traced A) (k : A -> traced B) : snd (next m k) = bind (snd m) (fun a => snd (k a)).
Proof. destruct m as [l [a|e]]; cbn; auto. destruct (k a); reflexivity. Qed.
Lemma each_snd {A S} (f : S -> A -> traced S) (g : S -> A -> res S) : (forall s a, snd (f s a) = g s a) ->
  forall l s, snd (each f l s) = foldM g l s.
Proof.
  intros H. induction l as [|a l IH]; intros s; cbn [each foldM]; auto. rewrite next_snd, H. destruct (g s a); cbn [bind]; auto.
Qed.
Lemma next_cases {A B} (m : traced A) (k : A -> traced B) :
  (exists l a, m = (l, Ok a) /\ next m k = (l ++ fst (k a), snd (k a))) \/ (exists l e, m = (l, Fail e) /\ next m k = (l, Fail e)).
Proof. destruct m as [l [a|e]]; [left|right]; eexists _, _; (split; [reflexivity|]); cbn; auto. destruct (k a); reflexivity. Qed.

Lemma free_same n : forall cidx D cq, snd (free_bits_traced n cidx D cq) = Ok (free_bits n D cq).
Proof.
  induction n as [|n IH]; intros cidx D cq; auto. cbn [free_bits free_bits_traced]. cbv zeta. rewrite next_snd. cbn [debug snd bind]. apply IH.
Qed.
Lemma parent_same v2i R bit i q s p : snd (add_parent_traced v2i R bit i q s p) = add_parent v2i R bit i q s p.
Proof.
  destruct s as [[D m] que]. unfold add_parent_traced, add_parent. rewrite next_snd. cbn [silent snd].
  destruct (at_ R p) as [[[q0s q1s] b]|]; cbn [bind]; auto. destruct (match b with BN v _ _ => Ok v | _ => Fail FUndefined end) as [v|]; cbn [bind]; auto.
  destruct (at_key Nat.eq_dec v v2i) as [idx|]; cbn [bind]; auto. cbv zeta. rewrite next_snd.
  match goal with |- bind (snd ?x) _ = _ => assert (H : snd x = Ok (free_bits (i - (idx + 1)) D q)) end.
  { destruct bit; [reflexivity|]. rewrite next_snd. cbn [debug snd bind]. apply free_same. }
  rewrite H. cbn [bind]. destruct (free_bits (i - (idx + 1)) D q) as [D1 cq]. destruct (state_get p D1 m) as [[nx D2] m2]. reflexivity.
Qed.
Lemma edge_loop_same v2i R : forall fuel que vis D m alt, snd (edge_loop_traced v2i R fuel que vis D m alt) = edge_loop v2i R fuel que vis D m alt.
Proof.
  induction fuel as [|fuel IH]; intros [|[[rq i] q] que] vis D m alt; try reflexivity. cbn [edge_loop edge_loop_traced].
  destruct (in_dec Nat.eq_dec rq vis); [apply IH|]. cbv zeta. rewrite next_snd. cbn [silent snd].
  destruct (at_ R rq) as [[[q0s q1s] b]|]; cbn [bind]; auto. destruct (i =? 0).
  - unfold assert_. destruct q0s, q1s, alt; cbn [silent snd]; auto.
  - destruct q0s as [|x q0s]; [destruct q1s as [|y q1s]|].
    + unfold assert_. destruct alt; [reflexivity|]. destruct (free_bits i D q) as [D1 q1]. apply IH.
    + rewrite next_snd. rewrite (each_snd _ _ (parent_same v2i R false i q)).
      destruct (foldM (add_parent v2i R false i q) [] (D, m, que)) as [s|]; cbn [bind]; auto.
      rewrite next_snd. rewrite (each_snd _ _ (parent_same v2i R true i q)).
      destruct (foldM _ (y :: q1s) s) as [[[D2 m2] que2]|]; cbn [bind]; auto.
    + rewrite next_snd. rewrite (each_snd _ _ (parent_same v2i R false i q)).
      destruct (foldM (add_parent v2i R false i q) (x :: q0s) (D, m, que)) as [s|]; cbn [bind]; auto.
      rewrite next_snd. rewrite (each_snd _ _ (parent_same v2i R true i q)).
      destruct (foldM _ q1s s) as [[[D2 m2] que2]|]; cbn [bind]; auto.
Qed.
Lemma edge_same v2i n src D e : snd (add_edge_traced v2i n src D e) = add_edge v2i n src D e.
Proof.
  destruct e as [dst c]. unfold add_edge_traced, add_edge. rewrite !next_snd. cbn [debug silent snd bind].
  destruct (reversed_bdd c) as [[R M]|]; cbn [bind]; auto. destruct (at_key bdd_eq_dec BT M) as [rt|]; cbn [bind]; auto.
  rewrite next_snd, edge_loop_same. destruct (edge_loop _ _ _ _ _ _ _ _) as [[D1 [a|]]|]; cbn [bind]; auto.
  rewrite !next_snd. cbn [debug silent snd bind]. destruct (at_ D1 a) as [[[l q0s] q1s]|]; cbn [bind]; auto.
  unfold assert_. destruct (_ && _)%bool; cbn [bind]; auto.
  destruct (match q0s with [] => Ok D1 | [s] => add_succ false D1 src s | s :: _ :: _ => Ok D1 end) as [D2|]; cbn [bind]; auto.
  destruct (match q1s with [] => Ok D2 | [s] => add_succ true D2 src s | s :: _ :: _ => Ok D2 end) as [D3|]; cbn [bind]; auto.
Qed.
Lemma states_same M n src D :
  snd (next (debug (show_nat src ++ lit "/" ++ show_nat (m_ns M))) (fun _ => each (add_edge_traced (var2idx M n) n src) (m_out M src) D)) =
  foldM (add_edge (var2idx M n) n src) (m_out M src) D.
Proof. rewrite next_snd. cbn [debug snd bind]. apply each_snd. intros. apply edge_same. Qed.
Lemma tuple_same M n all : snd (ltl_to_nfa_tuple_traced M n all) = ltl_to_nfa_tuple M n all.
Proof.
  unfold ltl_to_nfa_tuple_traced, ltl_to_nfa_tuple. rewrite next_snd. rewrite (each_snd _ _ (fun D src => states_same M n src D)). reflexivity.
Qed.
Lemma ltl2spec_same M n all : snd (do_ltl2spec_traced M n all) = do_ltl2spec M n all.
Proof.
  unfold do_ltl2spec_traced, do_ltl2spec, from_ltl_formula. rewrite next_snd, tuple_same.
  destruct (ltl_to_nfa_tuple M n all) as [[[i fs] D]|]; reflexivity.
Qed.

(** The outcomes of a loop. *)
Lemma each_cases {A S} (P : A -> list text -> Prop) (f : S -> A -> traced S) : (forall s a l s', f s a = (l, Ok s') -> P a l) ->
  forall l s,
  (exists s' parts, each f l s = (concat parts, Ok s') /\ Forall2 P l parts) \/
  (exists before a later parts s1 open e, l = before ++ a :: later /\ foldM (fun s a => snd (f s a)) before s = Ok s1 /\
     Forall2 P before parts /\ f s1 a = (open, Fail e) /\ each f l s = (concat parts ++ open, Fail e)).
Proof.
  intros H. induction l as [|a l IH]; intros s; cbn [each].
  - left. exists s, []. split; [reflexivity|constructor].
  - destruct (f s a) as [p [s1|e]] eqn:EF.
    + destruct (IH s1) as [(s' & parts & EE & F)|(before & b & later & parts & s2 & open & e & -> & E1 & F & E2 & EE)].
      * left. exists s', (p :: parts). cbn [next]. rewrite EE. split; [reflexivity|]. constructor; eauto.
      * right. exists (a :: before), b, later, (p :: parts), s2, open, e. split; [reflexivity|]. cbn [foldM]. rewrite EF. cbn [snd bind].
        split; [exact E1|]. split; [constructor; eauto|]. split; [exact E2|]. cbn [next]. rewrite EE. cbn [concat]. rewrite app_assoc. reflexivity.
    + right. exists [], a, l, [], s, p, e. repeat split; auto.
Qed.

Section Counts.
Context (n : nat).
Definition counts (l : list text) : Prop := Forall (count_line n) l.
Lemma counts_nil : counts []. Proof. constructor. Qed.
Lemma counts_app l l' : counts l -> counts l' -> counts (l ++ l').
Proof. intros. apply Forall_app. auto. Qed.
Lemma counts_next {A B} (m : traced A) (k : A -> traced B) :
  counts (fst m) -> (forall a, snd m = Ok a -> counts (fst (k a))) -> counts (fst (next m k)).
Proof.
  intros H1 H2. destruct (next_cases m k) as [(l & a & -> & ->)|(l & e & -> & ->)]; cbn [fst] in *; auto. apply counts_app; auto.
Qed.
Lemma free_counts : forall k cidx D cq, k < cidx <= n -> counts (fst (free_bits_traced k cidx D cq)).
Proof.
  induction k as [|k IH]; intros cidx D cq H; [constructor|]. cbn [free_bits_traced]. cbv zeta. apply counts_next.
  - cbn. constructor; [|constructor]. exists (cidx - 1). split; [lia|reflexivity].
  - intros _ _. apply IH. lia.
Qed.
Context (v2i : list (nat * nat)) (R : list entry).
Hypothesis V : forall v i, find_key Nat.eq_dec v v2i = Some i -> i < n.
(** (proof) the positions in the queue *)
Definition low_que (que : list (State * nat * State)) : Prop := forall rq i q, In (rq, i, q) que -> i <= n.
Definition low_state (s : NFADelta * list (State * State) * list (State * nat * State)) : Prop := low_que (snd s).
Lemma parent_counts bit i q s p : 0 < i <= n -> low_state s ->
  counts (fst (add_parent_traced v2i R bit i q s p)) /\ forall s', snd (add_parent_traced v2i R bit i q s p) = Ok s' -> low_state s'.
Proof.
  intros Hi HL. destruct s as [[D m] que]. split.
  - unfold add_parent_traced. apply counts_next; [constructor|]. intros idx _. cbv zeta. apply counts_next.
    + destruct bit; [constructor|]. apply counts_next; [constructor; [|constructor]; exists i; split; [lia|reflexivity]|].
      intros _ _. apply free_counts. lia.
    + intros [D1 cq] _. destruct (state_get p D1 m) as [[nx D2] m2]. constructor.
  - intros s'. rewrite parent_same. unfold add_parent. destruct (at_ R p) as [[[q0s q1s] b]|]; cbn [bind]; [|discriminate].
    destruct (match b with BN v _ _ => Ok v | _ => Fail FUndefined end) as [v|]; cbn [bind]; [|discriminate].
    destruct (at_key Nat.eq_dec v v2i) as [idx|] eqn:EK; cbn [bind]; [|discriminate].
    destruct (free_bits (i - (idx + 1)) D q) as [D1 cq]. destruct (state_get p D1 m) as [[nx D2] m2].
    destruct (add_succ bit D2 nx cq) as [D3|]; cbn [bind]; [|discriminate]. intros [= <-]. unfold low_state, low_que in *. cbn [snd] in *.
    intros rq j r HI. apply in_app_iff in HI as [HI|[[= <- <- <-]|[]]]; [eauto|].
    unfold at_key in EK. destruct (find_key Nat.eq_dec v v2i) eqn:EF; [|discriminate]. injection EK as ->. apply V in EF. lia.
Qed.
Lemma parents_counts bit i q : 0 < i <= n -> forall ps s, low_state s ->
  counts (fst (each (add_parent_traced v2i R bit i q) ps s)) /\
  forall s', snd (each (add_parent_traced v2i R bit i q) ps s) = Ok s' -> low_state s'.
Proof.
  intros Hi. induction ps as [|p ps IH]; intros s HL; cbn [each].
  - split; [constructor|]. intros s' [= <-]. auto.
  - destruct (parent_counts bit i q s p Hi HL) as [C1 C2]. split.
    + apply counts_next; auto. intros s1 E1. apply IH. auto.
    + intros s'. rewrite next_snd. destruct (snd (add_parent_traced v2i R bit i q s p)) as [s1|]; cbn [bind]; [|discriminate].
      intros E'. eapply IH; [|exact E']. auto.
Qed.
Lemma edge_loop_counts : forall fuel que vis D m alt, low_que que -> counts (fst (edge_loop_traced v2i R fuel que vis D m alt)).
Proof.
  induction fuel as [|fuel IH]; intros [|[[rq i] q] que] vis D m alt HQ; try constructor. cbn [edge_loop_traced].
  assert (HQ' : low_que que) by (intros ? ? ? HI; eapply HQ; right; eauto).
  assert (Hi : i <= n) by (eapply HQ; left; reflexivity).
  destruct (in_dec Nat.eq_dec rq vis); [apply IH; auto|]. cbv zeta. apply counts_next; [constructor|]. intros [[q0s q1s] b] _.
  destruct (Nat.eqb_spec i 0) as [|NZ].
  - destruct q0s, q1s, alt; cbn [silent fst]; try constructor. apply IH; auto.
  - assert (G : forall x y, counts (fst (next (each (add_parent_traced v2i R false i q) x (D, m, que)) (fun s =>
                  next (each (add_parent_traced v2i R true i q) y s) (fun '(delta, m, que) =>
                  edge_loop_traced v2i R fuel que (rq :: vis) delta m alt))))).
    { intros x y. destruct (parents_counts false i q ltac:(lia) x (D, m, que) HQ') as [C1 C2]. apply counts_next; auto.
      intros s E1. destruct (parents_counts true i q ltac:(lia) y s (C2 s E1)) as [C3 C4]. apply counts_next; auto.
      intros [[D2 m2] que2] E2. apply IH. exact (C4 _ E2). }
    destruct q0s as [|x q0s]; [destruct q1s as [|y q1s]|]; [|apply G|apply G].
    destruct alt; [constructor|]. destruct (free_bits i D q) as [D1 q1]. apply IH. auto.
Qed.
End Counts.

(** One transition. *)
Lemma edge_cases M n src D e :
  (exists D' l, add_edge_traced (var2idx M n) n src D e = (l, Ok D') /\ edge_done M n src e l) \/
  (exists f l, add_edge_traced (var2idx M n) n src D e = (l, Fail f) /\ edge_open n src e l).
Proof.
  assert (V : forall v i, find_key Nat.eq_dec v (var2idx M n) = Some i -> i < n) by (intros v i H; apply (var2idx_lt M n v i H)).
  pose proof (edge_same (var2idx M n) n src D e) as ES. destruct e as [dst c].
  destruct (add_edge_traced (var2idx M n) n src D (dst, c)) as [l r] eqn:ET. cbn [snd] in ES. subst r.
  assert (K : match add_edge (var2idx M n) n src D (dst, c) with
              | Ok _ => exists cs a, Forall (count_line n) cs /\ l = edge_line src dst :: cs ++ show_nat a :: closing src dst
              | Fail _ => edge_open n src (dst, c) l end).
  { revert ET. generalize (add_edge (var2idx M n) n src D (dst, c)) as r. intros r. unfold add_edge_traced. cbn [debug next].
    destruct (do '(R, M) <- reversed_bdd c; do rt <- at_key bdd_eq_dec BT M; Ok (R, rt)) as [[R rt]|e1]; cbn [silent next app].
    2:{ intros [= <- <-]. exists []. split; [constructor|]. left. reflexivity. }
    assert (HQ : low_que n [(rt, n, dst)]) by (intros ? ? ? [[= <- <- <-]|[]]; lia).
    pose proof (edge_loop_counts n (var2idx M n) R V (edge_fuel R) [(rt, n, dst)] [] D [] None HQ) as C.
    destruct (edge_loop_traced (var2idx M n) R (edge_fuel R) [(rt, n, dst)] [] D [] None) as [cs [[D1 [a|]]|e2]]; cbn [fst] in C; cbn [next].
    - cbn [debug next]. destruct (do '(_, q0s, q1s) <- at_ D1 a; _) as [D2|e3]; cbn [silent next debug fst snd app].
      + intros [= <- <-]. exists cs, a. split; [exact C|]. reflexivity.
      + intros [= <- <-]. exists cs. split; [exact C|]. right. exists a. reflexivity.
    - cbn [silent fst snd]. intros [= <- <-]. exists cs. split; [exact C|]. left. rewrite app_nil_r. reflexivity.
    - cbn [fst snd]. intros [= <- <-]. exists cs. split; [exact C|]. left. reflexivity. }
  destruct (add_edge (var2idx M n) n src D (dst, c)) as [D'|f] eqn:EA; [left|right; eauto].
  exists D', l. split; [reflexivity|]. split; [|exact K]. cbn [snd]. apply add_edge_known in EA as [A B]. split; [exact A|].
  intros v T. destruct (B v T) as (i & Hi). exists i. apply var2idx_lt. exact Hi.
Qed.

(** The table before any transition; the table after the states below [s] and the transitions [before] of [s]. *)
Definition table0 (M : monitor) : NFADelta := map (fun i => (i, [], [])) (seq 0 (m_ns M)).
Lemma foldM_ext {A S} (f g : S -> A -> res S) : (forall s a, f s a = g s a) -> forall l s, foldM f l s = foldM g l s.
Proof. intros H. induction l as [|a l IH]; intros s; cbn [foldM]; auto. rewrite H. destruct (g s a); cbn [bind]; auto. Qed.
Lemma tuple_cases M n all :
  (exists t l, ltl_to_nfa_tuple_traced M n all = (l, Ok t) /\ complete M n l) \/
  (exists f l s before e later D1 D2, ltl_to_nfa_tuple_traced M n all = (l, Fail f) /\ stops_at M n s e l /\
     s < m_ns M /\ m_out M s = before ++ e :: later /\ Forall (fun x => fit M n (snd x)) before /\
     (forall q x, q < s -> In x (m_out M q) -> fit M n (snd x)) /\
     foldM (fun D src => foldM (add_edge (var2idx M n) n src) (m_out M src) D) (seq 0 s) (table0 M) = Ok D1 /\
     foldM (add_edge (var2idx M n) n s) before D1 = Ok D2 /\ add_edge (var2idx M n) n s D2 e = Fail f).
Proof.
  set (v2i := var2idx M n).
  set (fs := fun D src => next (debug (show_nat src ++ lit "/" ++ show_nat (m_ns M))) (fun _ => each (add_edge_traced v2i n src) (m_out M src) D)).
  assert (DONE : forall src D e l D', add_edge_traced v2i n src D e = (l, Ok D') -> edge_done M n src e l).
  { intros src D e l D' HE. destruct (edge_cases M n src D e) as [(D1 & l1 & E1 & H1)|(f1 & l1 & E1 & _)]; unfold v2i in HE; rewrite E1 in HE; [|discriminate].
    injection HE as <- _. exact H1. }
  assert (ST : forall D src l D', fs D src = (l, Ok D') -> state_done M n src l).
  { intros D src l D' HE. unfold fs in HE. cbn [debug next] in HE.
    destruct (each_cases (edge_done M n src) (add_edge_traced v2i n src) (fun D0 e l0 D0' => DONE src D0 e l0 D0') (m_out M src) D)
      as [(D2 & parts & E2 & F)|(b & a & la & parts & s1 & open & e & _ & _ & _ & _ & E2)]; rewrite E2 in HE; [|discriminate].
    injection HE as <- _. exists parts. split; [exact F|]. reflexivity. }
  assert (FIT : forall src es parts, Forall2 (edge_done M n src) es parts -> Forall (fun x => fit M n (snd x)) es).
  { intros src es parts F. induction F as [|x p es ps H F IH]; constructor; auto. apply H. }
  unfold ltl_to_nfa_tuple_traced. cbv zeta. fold v2i. fold fs. fold (table0 M).
  destruct (each_cases (state_done M n) fs ST (seq 0 (m_ns M)) (table0 M))
    as [(D & parts & EE & F)|(ss & s & rest & parts & D1 & part & f & ES & E1 & F & E2 & EE)]; rewrite EE; cbn [next].
  - left. eexists _, _. split; [reflexivity|]. rewrite app_nil_r. exists parts. split; [exact F|reflexivity].
  - right. assert (SS : s < m_ns M /\ ss = seq 0 s).
    { assert (L : length ss < m_ns M).
      { rewrite <- (seq_length (m_ns M) 0), ES, app_length. cbn [length]. lia. }
      assert (N1 : nth_error (seq 0 (m_ns M)) (length ss) = Some s) by (rewrite ES, nth_error_app2, Nat.sub_diag by lia; reflexivity).
      rewrite nth_error_seq in N1 by lia. injection N1 as N1. cbn [Nat.add] in N1. subst s. split; [exact L|].
      rewrite <- (firstn_all ss) at 1. replace (firstn (length ss) ss) with (firstn (length ss) (seq 0 (m_ns M))).
      - replace (m_ns M) with (length ss + (m_ns M - length ss)) by lia. rewrite seq_app, firstn_app, seq_length, Nat.sub_diag. cbn [firstn].
        rewrite app_nil_r. rewrite <- (seq_length (length ss) 0) at 1. apply firstn_all.
      - rewrite ES, firstn_app, Nat.sub_diag. cbn [firstn]. apply app_nil_r. }
    destruct SS as [LS ->].
    unfold fs in E2. cbn [debug next] in E2.
    destruct (each_cases (edge_done M n s) (add_edge_traced v2i n s) (fun D0 e l0 D0' => DONE s D0 e l0 D0') (m_out M s) D1)
      as [(D2 & eparts & E3 & _)|(before & e & later & eparts & D2 & open & f' & EO & E3 & F3 & E4 & E5)]; [rewrite E3 in E2; discriminate|].
    rewrite E5 in E2. injection E2 as <- <-.
    assert (OP : edge_open n s e open).
    { destruct (edge_cases M n s D2 e) as [(D3 & l3 & E6 & _)|(f3 & l3 & E6 & H6)]; fold v2i in E6; rewrite E6 in E4; [discriminate|].
      injection E4 as <- _. exact H6. }
    eexists _, _, s, before, e, later, D1, D2. split; [reflexivity|]. split.
    { split; [exact LS|]. exists before, later, parts, eparts, open. repeat (split; [assumption|]). reflexivity. }
    split; [exact LS|]. split; [exact EO|]. split; [eapply FIT; eauto|]. split.
    { intros q x Hq HI. assert (HS : exists p, state_done M n q p).
      { clear - F Hq. revert F. generalize (seq_length s 0). intros _.
        assert (I : In q (seq 0 s)) by (apply in_seq; lia). revert I. generalize (seq 0 s). intros l I F.
        induction F as [|a p l ps H F IH]; [destruct I|]. destruct I as [<-|I]; eauto. }
      destruct HS as (p & ps & F4 & _). apply FIT in F4. rewrite Forall_forall in F4. auto. }
    split.
    { rewrite <- E1. apply foldM_ext. intros D src. unfold fs. symmetry. apply states_same. }
    split; [rewrite <- E3; apply foldM_ext; intros D x; symmetry; apply edge_same|].
    pose proof (edge_same v2i n s D2 e) as ES'. rewrite E4 in ES'. cbn [snd] in ES'. symmetry. exact ES'.
Qed.

(** A transition whose propositions are all known does not stop the translation. *)
Lemma reduced_holds c : reduced c -> c <> BF -> can_hold c.
Proof.
  induction c as [| |v l IHl h IHh]; [tauto|constructor|]. intros (N & Rl & Rh) _.
  destruct (bdd_eq_dec l BF) as [El|El]; [|apply hold_low; auto].
  apply hold_high. apply IHh; auto. intros Eh. apply N. congruence.
Qed.
Lemma ordered_fit M M' m n c : (forall i, m_var M' i = m_var M i) ->
  (forall i j v, i < m -> j < m -> m_var M i = Some v -> m_var M j = Some v -> i = j) -> n <= m ->
  forall i, ordered M m i c -> reduced c -> (forall v, tests c v -> exists i, i < n /\ m_var M i = Some v) -> ordered M' n i c.
Proof.
  intros SM INJ L i H. induction H as [i|i|i j v low high Hj Hv Hl IHl Hh IHh]; intros Rc T; [constructor|constructor|].
  destruct Rc as (N & Rl & Rh). destruct (T v) as (k & Hk & Ek).
  { constructor. apply reduced_holds; [cbn; auto|discriminate]. }
  assert (k = j) by (eapply INJ; eauto; lia). subst k. apply ordered_node with (j := j); [lia|rewrite SM; exact Hv| |].
  - apply IHl; auto. intros u Hu. apply T. apply tests_low. exact Hu.
  - apply IHh; auto. intros u Hu. apply T. apply tests_high. exact Hu.
Qed.
Lemma sat_fit M M' m n c val : (forall i, m_var M' i = m_var M i) ->
  (forall i j v, i < m -> j < m -> m_var M i = Some v -> m_var M j = Some v -> i = j) -> n <= m -> length val = m ->
  sat M val c -> forall i, ordered M' n i c -> sat M' (firstn n val) c.
Proof.
  intros SM INJ L LV H. induction H as [|v low high j Ej Nj H IH|v low high j Ej Nj H IH]; intros i O; [constructor| |];
    inversion O as [| |? k ? ? ? Hk Ek O1 O2]; subst; rewrite SM in Ek;
    (assert (j = k) by (eapply INJ; eauto; first [lia|apply nth_error_Some; congruence])); subst k.
  - eapply sat_low; [rewrite SM; exact Ej| |eapply IH; eauto]. rewrite <- Nj. symmetry.
    rewrite <- (firstn_skipn n val) at 1. apply nth_error_app1. rewrite firstn_length. lia.
  - eapply sat_high; [rewrite SM; exact Ej| |eapply IH; eauto]. rewrite <- Nj. symmetry.
    rewrite <- (firstn_skipn n val) at 1. apply nth_error_app1. rewrite firstn_length. lia.
Qed.
Lemma foldM_ext_in {A S} (f g : S -> A -> res S) l : (forall s a, In a l -> f s a = g s a) -> forall s, foldM f l s = foldM g l s.
Proof.
  induction l as [|a l IH]; intros H s; cbn [foldM]; auto. rewrite (H s a) by (left; auto).
  destruct (g s a); cbn [bind]; auto. apply IH. intros. apply H. right. auto.
Qed.

Section Blame.
Context (M : monitor) (m n : nat).
Hypothesis HM : monitor_ok M m.
Hypothesis L : n <= m.
Hypothesis RED : forall q e, q < m_ns M -> In e (m_out M q) -> reduced (snd e).

Lemma stop_unfit s before e later D1 D2 f : s < m_ns M -> m_out M s = before ++ e :: later ->
  Forall (fun x => fit M n (snd x)) before -> (forall q x, q < s -> In x (m_out M q) -> fit M n (snd x)) ->
  foldM (fun D src => foldM (add_edge (var2idx M n) n src) (m_out M src) D) (seq 0 s) (table0 M) = Ok D1 ->
  foldM (add_edge (var2idx M n) n s) before D1 = Ok D2 -> add_edge (var2idx M n) n s D2 e = Fail f -> ~ fit M n (snd e).
Proof.
  intros LS EO FB FQ E1 E2 E3 FE.
  set (M' := mkMonitor (m_ns M) (m_init M) (fun q => if q <? s then m_out M q else if q =? s then before ++ [e] else []) (m_var M)).
  assert (OUT : forall q x, q < m_ns M' -> In x (m_out M' q) -> q < m_ns M /\ In x (m_out M q) /\ fit M n (snd x)).
  { intros q x Hq HI. cbn in Hq. split; [exact Hq|]. cbn [M' m_out] in HI. destruct (Nat.ltb_spec q s) as [Lq|Lq]; [split; eauto|].
    destruct (Nat.eqb_spec q s) as [->|]; [|destruct HI]. rewrite EO. apply in_app_iff in HI as [HI|[<-|[]]].
    - split; [apply in_app_iff; auto|]. rewrite Forall_forall in FB. auto.
    - split; [apply in_app_iff; right; left; auto|exact FE]. }
  assert (ORD : forall q q' c, q < m_ns M' -> In (q', c) (m_out M' q) -> ordered M' n 0 c).
  { intros q q' c Hq HI. destruct (OUT q (q', c) Hq HI) as (Hq' & HI' & _ & T). cbn [snd] in T.
    eapply (ordered_fit M M' m n c); auto; [apply (mo_vars _ _ HM)|eapply (mo_ordered _ _ HM); eauto|apply (RED q (q', c)); auto]. }
  assert (OK : monitor_ok M' n).
  { constructor.
    - apply (mo_init _ _ HM).
    - intros q q' c Hq HI. destruct (OUT q (q', c) Hq HI) as (Hq' & HI' & _). cbn. eapply (mo_dst _ _ HM); eauto.
    - intros i j v Hi Hj. cbn [M' m_var]. apply (mo_vars _ _ HM); lia.
    - exact ORD.
    - intros q q' c Hq HI. destruct (OUT q (q', c) Hq HI) as (Hq' & HI' & _).
      destruct (mo_sat _ _ HM q q' c Hq' HI') as (val & LV & SV). exists (firstn n val). split; [rewrite firstn_length; lia|].
      eapply (sat_fit M M' m n c val); eauto. apply (mo_vars _ _ HM). }
  destruct (table_built M' n OK false) as (D & TB & _). unfold ltl_to_nfa_tuple in TB. cbv zeta in TB.
  change (var2idx M' n) with (var2idx M n) in TB. change (m_ns M') with (m_ns M) in TB. fold (table0 M) in TB.
  replace (seq 0 (m_ns M)) with (seq 0 s ++ s :: seq (S s) (m_ns M - S s)) in TB.
  2:{ replace (m_ns M) with (s + S (m_ns M - S s)) at 2 by lia. rewrite seq_app. reflexivity. }
  rewrite foldM_app in TB.
  rewrite (foldM_ext_in _ (fun D src => foldM (add_edge (var2idx M n) n src) (m_out M src) D)) in TB.
  2:{ intros D0 q HI. apply in_seq in HI. cbn [M' m_out]. destruct (Nat.ltb_spec q s); [reflexivity|lia]. }
  assert (T0 : map (fun i : nat => (i, @nil State, @nil State)) (seq 0 s ++ s :: seq (S s) (m_ns M - S s)) = table0 M).
  { unfold table0. f_equal. replace (m_ns M) with (s + S (m_ns M - S s)) at 2 by lia. rewrite seq_app. reflexivity. }
  rewrite ?T0, E1 in TB. cbn [bind foldM] in TB.
  assert (MS : m_out M' s = before ++ [e]) by (cbn [M' m_out]; rewrite Nat.ltb_irrefl, Nat.eqb_refl; reflexivity).
  rewrite MS, foldM_app, E2 in TB. cbn [bind foldM] in TB. rewrite E3 in TB. discriminate.
Qed.
End Blame.
