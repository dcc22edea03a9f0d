(** C42, C43: automata from LTL formulas. *)
From Coq Require Import List Arith Bool NArith Lia.
Import ListNotations.
From Verif Require Import Base BaseFacts GraphModel Spec FromNfa TextModel PropsText LtlModel LtlSpec LtlFacts3 LtlFacts4 LtlFacts5.

Definition ltl_language (M : monitor) (n : nat) (all : bool) : list bool -> Prop :=
  if all then whole_or_begun M n else whole M n.

Lemma decides_iff g (L L' : list bool -> Prop) : (forall w, L w <-> L' w) -> dfa_decides g L -> dfa_decides g L'.
Proof. intros H D w. destruct (D w) as (A & B & C). rewrite <- H. auto. Qed.
Lemma accepts_language M n (all : bool) D : monitor_ok M n -> table_ok M n D -> forall w,
  nfa_accepts [m_init M] (seq 0 (if all then length D else m_ns M)) D w <-> ltl_language M n all w.
Proof. intros HM HD w. destruct all; [apply accepts_begun|apply accepts_whole]; auto. Qed.

(** ** C42: the automaton accepts the words of the monitor. *)
Theorem C42_ltl M n all : monitor_ok M n ->
  exists g, from_ltl_formula M n all = Ok g /\ wf_graph g /\ dfa_decides g (ltl_language M n all).
Proof.
  intros HM. unfold from_ltl_formula. destruct (table_built M n HM all) as (D & -> & HD). cbn [bind].
  assert (S : is_set [m_init M]) by (repeat constructor).
  destruct (from_nfa_ok_iff [m_init M] (seq 0 (if all then length D else m_ns M)) D S) as (I & _).
  destruct (proj2 I (no_dangling M n HM D HD)) as (g & E). exists g. split; auto. split; [eapply from_nfa_wf; eauto|].
  eapply decides_iff; [|eapply from_nfa_language; eauto]. apply accepts_language; auto.
Qed.
(** ... and the specification that ltl2spec prints denotes it. *)
Theorem C42_ltl2spec M n all : monitor_ok M n ->
  (forall g, from_ltl_formula M n all = Ok g -> (N.of_nat (size g) <= 2 ^ 31)%N) ->
  exists out g, do_ltl2spec M n all = Ok out /\ from_istream out = Ok g /\ dfa_decides g (ltl_language M n all).
Proof.
  intros HM HB. destruct (C42_ltl M n all HM) as (g & E & W & DG). unfold do_ltl2spec. rewrite E. cbn [bind].
  destruct (C14_dump_round_trip g W (HB g E)) as (t & g' & E1 & E2 & _ & _ & _ & _ & _ & A). exists t, g'. split; auto. split; auto.
  intros w. unfold dfa_accepts, dfa_rejects in *. rewrite A. apply DG.
Qed.
(** An automaton is returned only if the propositions that matter are among p0 .. p<n-1>. *)
Theorem C42_unknown_propositions M n all g : from_ltl_formula M n all = Ok g ->
  forall q q' c, q < m_ns M -> In (q', c) (m_out M q) ->
    can_hold c /\ forall v, tests c v -> exists i, i < n /\ m_var M i = Some v.
Proof.
  unfold from_ltl_formula. destruct (ltl_to_nfa_tuple M n all) as [t|] eqn:E; cbn [bind]; [|discriminate].
  intros _. eapply tuple_known; eauto.
Qed.

(** ** C43: the reversed automaton accepts the mirrored words. *)
Theorem C43_reversed M n all : monitor_ok M n ->
  exists g gr, from_ltl_formula M n all = Ok g /\ from_ltl_formula_reversed M n all = Ok gr /\ wf_graph gr /\
    forall w, accepts gr (rev w) = accepts g w.
Proof.
  intros HM. destruct (C42_ltl M n all HM) as (g & E & W & DG). exists g. revert E.
  unfold from_ltl_formula, from_ltl_formula_reversed. destruct (table_built M n HM all) as (D & -> & HD). cbn [bind]. intros E.
  destruct (reversed_ok D (g_closed _ _ _ _ HD)) as (Dr & -> & LR & ER). cbn [bind].
  set (F := seq 0 (if all then length D else m_ns M)) in *. assert (SF : is_set F) by apply is_set_map_seq.
  assert (HF : forall q, In q F -> q < length D).
  { intros q H. unfold F in H. apply in_seq in H. pose proof (g_len _ _ _ _ HD). destruct all; lia. }
  assert (ND : nfa_no_dangling F Dr).
  { intros q w t H P. apply HF in H. rewrite LR. revert H. induction P as [|q b q1 w q2 ED P IH]; auto. intros _. apply IH.
    apply ER in ED. destruct ED as (lbl & d0 & d1 & N & _). apply nth_error_lt in N. auto. }
  destruct (proj2 (proj1 (from_nfa_ok_iff F [m_init M] Dr SF)) ND) as (gr & EG). exists gr. split; auto. split; auto.
  split; [eapply from_nfa_wf; eauto|]. intros w.
  pose proof (from_nfa_language _ _ _ _ SF EG (rev w)) as (A1 & A2 & A3).
  pose proof (from_nfa_language [m_init M] F D g ltac:(repeat constructor) E w) as (B1 & B2 & B3).
  assert (I : nfa_accepts F [m_init M] Dr (rev w) <-> nfa_accepts [m_init M] F D w).
  { split; intros (q & q' & H1 & P & H2); exists q', q; (split; [auto|]); (split; [|auto]).
    - rewrite <- (rev_involutive w). eapply reversed_path; [|exact P]. intros. symmetry. apply ER.
    - eapply reversed_path; eauto. }
  unfold dfa_accepts, dfa_rejects in *. destruct B3 as [B3|B3]; rewrite B3.
  - destruct A3 as [A3|A3]; auto. exfalso. assert (K : ~ nfa_accepts [m_init M] F D w).
    { intros K. apply I in K. rewrite (proj2 A1 K) in A3. discriminate. }
    rewrite (proj2 B2 K) in B3. discriminate.
  - apply A2. intros K. apply I in K. rewrite (proj2 B1 K) in B3. discriminate.
Qed.

(** * A monitor with skipped variables and shared nodes *)
(** Three propositions with the variables 10, 11, 12.  From state 0: with p0 or p2 to state 1, with
    neither stay; from state 1: stay if exactly one of p1, p2 holds (any p0). *)
Definition ex_monitor : monitor :=
  let p2 := BN 12 BF BT in let np2 := BN 12 BT BF in
  {| m_ns := 2; m_init := 0;
     m_out := fun q => match q with
                       | 0 => [(1, BN 10 p2 BT); (0, BN 10 np2 BF)]
                       | 1 => [(1, BN 11 p2 np2)]
                       | _ => []
                       end;
     m_var := fun i => Some (10 + i) |}.
Example ex_monitor_ok : monitor_ok ex_monitor 3.
Proof.
  constructor.
  - cbn. lia.
  - intros [|[|q]] q' c _; cbn; intuition (try discriminate); repeat match goal with H : (_, _) = (_, _) |- _ => injection H as <- <- end; lia.
  - cbn. intros i j v _ _ [= <-] [= H]. lia.
  - intros [|[|q]] q' c _; cbn; intuition (try discriminate); repeat match goal with H : (_, _) = (_, _) |- _ => injection H as <- <- end;
      repeat first [apply ordered_true | apply ordered_false
                   | match goal with |- ordered _ _ _ (BN ?v _ _) => apply (ordered_node _ _ _ (v - 10)); [cbn; lia|reflexivity| |] end].
  - intros [|[|q]] q' c _; cbn [m_out ex_monitor In]; intuition (try discriminate);
      repeat match goal with H : (_, _) = (_, _) |- _ => injection H as <- <- end.
    + exists [true; false; false]. split; auto. apply (sat_high _ _ _ _ _ 0); auto. constructor.
    + exists [false; false; false]. split; auto. apply (sat_low _ _ _ _ _ 0); auto. apply (sat_low _ _ _ _ _ 2); auto. constructor.
    + exists [false; true; false]. split; auto. apply (sat_high _ _ _ _ _ 1); auto. apply (sat_low _ _ _ _ _ 2); auto. constructor.
Qed.
Definition verdicts (all rev_ : bool) (ws : list (list bool)) : res (list bool) :=
  do g <- (if rev_ then from_ltl_formula_reversed ex_monitor 3 all else from_ltl_formula ex_monitor 3 all); mapM (accepts g) ws.
(** 100 011 is refused (both p1 and p2 in state 1), 000 001 010 is accepted, 001 00 is only begun. *)
Example C42_witness :
  verdicts false false [[true;false;false; false;true;true]; [false;false;false; false;false;true; false;true;false]; [false;false;true; false;false]]
    = Ok [false; true; false] /\
  verdicts true false [[true;false;false; false;true;true]; [false;false;false; false;false;true; false;true;false]; [false;false;true; false;false]]
    = Ok [false; true; true].
Proof. vm_compute. auto. Qed.
Example C42_bound : forall all g, from_ltl_formula ex_monitor 3 all = Ok g -> (N.of_nat (size g) <= 2 ^ 31)%N.
Proof.
  intros [|] g E.
  - assert (K : match from_ltl_formula ex_monitor 3 true with Ok g => N.leb (N.of_nat (size g)) (2 ^ 31) = true | Fail _ => True end) by (vm_compute; reflexivity).
    rewrite E in K. apply N.leb_le in K. exact K.
  - assert (K : match from_ltl_formula ex_monitor 3 false with Ok g => N.leb (N.of_nat (size g)) (2 ^ 31) = true | Fail _ => True end) by (vm_compute; reflexivity).
    rewrite E in K. apply N.leb_le in K. exact K.
Qed.
(** With two propositions only, variable 12 is unknown and no automaton is returned. *)
Example C42_unknown_witness : tests (BN 10 (BN 12 BF BT) BT) 12 /\ from_ltl_formula ex_monitor 2 false = Fail FOutOfRange.
Proof. split; [|vm_compute; reflexivity]. apply tests_low, tests_here. apply hold_high, hold_true. Qed.
Example C43_witness :
  verdicts false true [[true;true;false; false;false;true]; [false;true;false; true;false;false; false;false;false]]
    = Ok [false; true].
Proof. vm_compute. reflexivity. Qed.

Print Assumptions C42_ltl.
Print Assumptions C42_ltl2spec.
Print Assumptions C42_unknown_propositions.
Print Assumptions C43_reversed.
