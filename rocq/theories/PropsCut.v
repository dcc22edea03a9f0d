(** Property theorems C71: what a truncated specification file means to the program that reads it. *)
From Coq Require Import String.
From Coq Require Import List Arith Bool NArith ZArith Ascii Lia.
Import ListNotations.
From Verif Require Import Base BaseFacts GraphModel Spec GraphFacts FromNfa GraphOps Minimize Quotient
  TextModel TextSpec TextFacts TextClaims CliModel CliFacts BitsModel
  DotModel TorusModel LtlModel StreamModel RunnerModel ClientModel CmdModel MainModel Canonical PropsCanon
  PropsGraph PropsText NumberSpec PropsNumber CutSpec CutFacts.
Local Open Scope list_scope.

(** * C71 (all outcomes): reading any initial part [p] of a printed specification whose states are all
    reachable.  It is refused, or nothing is left of it, or it is the same automaton and at most the final newline
    is missing, or the cut went through the last number, or it was made before the row of the initial state. *)
Theorem C71_outcomes g t p s :
  wf_graph g -> (forall q, q < size g -> dfa_reaches g q) -> (N.of_nat (size g) <= 2 ^ 31)%N ->
  dump g = Ok t -> t = p ++ s ->
  from_istream p = Fail FOutOfRange \/
  exists g', from_istream p = Ok g' /\
    (useless g' \/
     (g' = with_sad g [] /\ (s = [] \/ s = ["010"%char])) \/
     last_number_cut g g' \/
     initial_row_cut g g').
Proof.
  intros W HR HB E Ht.
  destruct (cut_rows g t p s W ltac:(unfold int_max; lia) E Ht) as (ls & n & nx & HL & HRow & Hn & HC).
  rewrite (from_istream_fail p ls _ HL HRow).
  destruct (rows_by_build g nx n W Hn) as [HG HBad].
  destruct (closed_dec nx n) as [CL|CL]; [|left; auto].
  right. destruct (HG CL) as (g' & Eg & Sg & Ig & Ng & Fg & Wg). exists g'. split; auto.
  destruct (Nat.eq_dec n 0) as [Z|Z].
  { left. split; [lia|]. rewrite Z in Eg. cbn in Eg. injection Eg as <-.
    split; intros q; [|intros b]; destruct q; reflexivity. }
  specialize (Wg ltac:(lia)). destruct HC as [[-> HS]|(k & v & -> & -> & Hv & H10)].
  - destruct (Nat.ltb_spec (initial_state g) n) as [L|L].
    + right. left.
      assert (n = size g) as -> by (pose proof (closed_init g n W HR L CL); lia).
      split; [|auto]. pose proof (dump_round_trip g t W ltac:(unfold int_max; lia) E) as RT.
      pose proof (rows_of_dump g W ltac:(unfold int_max; lia)) as RD.
      assert (LD : lines_of t (map (row_line g) (seq 0 (size g)))).
      { rewrite dump_lines in E by auto. injection E as <-. apply lines_of_concat. intros l Hl.
        apply in_map_iff in Hl as (q & <- & _). apply row_line_no_nl. }
      rewrite (from_istream_fail t _ _ LD RD) in RT.
      change (map (row_by g (nxt g)) (seq 0 (size g))) with (map (graph_row g) (seq 0 (size g))) in Eg. congruence.
    + right. right. right. split; [lia|]. split; [lia|]. split; auto. intros q Hq. rewrite Sg in Hq.
      split; [rewrite !is_final_fin by (auto; lia); rewrite Fg; auto|].
      intros b. rewrite !next_state_nxt by (auto; lia). rewrite Ng; auto.
  - right. right. left. exists k. split; auto. split; [lia|].
    split; [intros q Hq; rewrite !is_final_fin by (auto; lia); rewrite Fg by lia; auto|].
    split; [intros q Hq; rewrite !next_state_nxt by (auto; lia); rewrite Ng by lia; auto|].
    split.
    { intros q Hq; rewrite !next_state_nxt by (auto; lia); rewrite Ng by lia. unfold cut_at.
      destruct (Nat.eqb_spec q k); [lia|auto]. }
    exists (nxt g k true), v. rewrite !next_state_nxt by (auto; lia). rewrite Ng by lia. unfold cut_at. rewrite Nat.eqb_refl.
    auto.
Qed.

(** The text read back is the same automaton if and only if nothing but the final newline is missing. *)
Theorem C71_same g t p s :
  wf_graph g -> (forall q, q < size g -> dfa_reaches g q) -> (N.of_nat (size g) <= 2 ^ 31)%N ->
  dump g = Ok t -> t = p ++ s ->
  (from_istream p = Ok (with_sad g []) <-> s = [] \/ s = ["010"%char]).
Proof.
  intros W HR HB E Ht. pose proof (init_lt g W) as L.
  destruct (cut_rows g t p s W ltac:(unfold int_max; lia) E Ht) as (ls & n & nx & HL & HRow & Hn & HC). split.
  - intros Ep. destruct (C71_outcomes g t p s W HR HB E Ht) as [F|(g' & Eg & [[Z _]|[[_ H]|[H|H]]])]; auto; [congruence|..]; exfalso;
      rewrite Ep in Eg; injection Eg as <-.
    + change (size (with_sad g [])) with (size g) in Z. lia.
    + destruct H as (k & _ & _ & _ & _ & _ & a & b & A & B & C & _).
      change (next_state (with_sad g []) k true) with (next_state g k true) in B. rewrite A in B. injection B as ->. lia.
    + destruct H as (_ & H & _). change (size (with_sad g [])) with (size g) in H. lia.
  - intros [->| ->].
    + rewrite app_nil_r in Ht. subst p. apply dump_round_trip; auto; unfold int_max; lia.
    + pose proof (dump_round_trip g t W ltac:(unfold int_max; lia) E) as RT.
      rewrite dump_lines in E by auto. injection E as E.
      assert (NL : forall l, In l (map (row_line g) (seq 0 (size g))) -> ~ In "010"%char l).
      { intros l Hl. apply in_map_iff in Hl as (q & <- & _). apply row_line_no_nl. }
      pose proof (lines_of_concat _ NL) as L1. rewrite E in L1.
      assert (L2 : lines_of p (map (row_line g) (seq 0 (size g)))).
      { destruct (size g) as [|m] eqn:Es; [lia|]. rewrite seq_S, map_app in *. cbn [map] in *.
        rewrite map_app, concat_app in E. cbn [map concat] in E. rewrite app_nil_r, app_assoc, Ht in E.
        apply app_inj_tail in E as [<- _].
        pose proof (lines_of_part (map (row_line g) (seq 0 m)) (row_line g (0 + m))) as LP.
        destruct (row_line g (0 + m)) as [|c l] eqn:Er.
        { exfalso. assert (R : is_row (row_line g (0 + m))) by (do 5 eexists; apply row_line_format).
          rewrite Er in R. apply row_blanks in R. cbn in R. lia. }
        apply LP; [intros x Hx; apply NL, in_or_app; auto|apply NL, in_or_app; cbn; auto]. }
      pose proof (rows_of_dump g W ltac:(unfold int_max; lia)) as RD.
      rewrite (from_istream_fail p _ _ L2 RD), <- (from_istream_fail t _ _ L1 RD). auto.
Qed.
Print Assumptions C71_outcomes.
Print Assumptions C71_same.

(** * C71: what `spec2spec` prints for a nondeterministic specification or with --reversed, at most ten states:
    a run over any initial part of the file fails or says what a run over the whole file says. *)
Lemma agrees_trim g t p s :
  wf_graph g -> (forall q, q < size g -> dfa_reaches g q) -> initial_state g = 0 -> size g <= 10 ->
  dump g = Ok t -> t = p ++ s -> run_fails_or_agrees p t.
Proof.
  intros W HR I0 H10 E Ht. assert (HB : (N.of_nat (size g) <= 2 ^ 31)%N) by (destruct (size g); lia).
  pose proof (dump_round_trip g t W ltac:(unfold int_max; lia) E) as RT.
  destruct (C71_outcomes g t p s W HR HB E Ht) as [F|(g' & Eg & [[Z A]|[[-> _]|[H|H]]])].
  - left. intros input ap b. unfold do_run_dfa_plain. rewrite F. discriminate.
  - left. intros input ap b. unfold do_run_dfa_plain. rewrite Eg. cbn [bind]. intros C. apply bind_ok in C as (q & _ & C).
    destruct A as [A _]. rewrite A in C. discriminate.
  - right. intros input ap. unfold do_run_dfa_plain. rewrite Eg, RT. reflexivity.
  - exfalso. destruct H as (k & _ & Hk & _ & _ & _ & a & b & A & _ & _ & L10).
    rewrite next_state_nxt in A by auto. injection A as <-. pose proof (nxt_lt g k true W Hk). lia.
  - exfalso. destruct H as (Z & H & _). lia.
Qed.

Ltac row_step :=
  match goal with |- rows_of _ (?l :: _) _ =>
    let r := eval vm_compute in (match_row l) in
    match r with Some ?mm => eapply rows_of_step with (m := mm); [vm_compute; reflexivity..|] end end.

Section Program.
Context (T : tfhe) (Y : crypto T) (spot : spot_lib) (f : fs) (coin : nat).

Theorem C71_spec2spec minimize reverse negate spec rows out ls p s :
  describes spec rows -> rows <> [] -> ~ deterministic rows \/ reverse = true ->
  spec2spec_with T Y spot f coin minimize reverse negate spec = Ok (Prints out) ->
  lines_of out ls -> length ls <= 10 ->
  out = p ++ s -> run_fails_or_agrees p out.
Proof.
  intros HD NE HT P HL H10 Hp. rewrite spec2spec_with_eq in P. apply bind_ok in P as (t & P & [= ->]). unfold do_spec2spec in P.
  rewrite (describes_build _ _ HD) in P. apply bind_ok in P as (g & Eg & P).
  destruct (build_language rows g NE Eg) as (W & _ & _).
  pose (good := fun h : Graph => initial_state h = 0 /\ forall q, q < size h -> dfa_reaches h q).
  assert (G0 : ~ deterministic rows -> good g).
  { intros ND. rewrite build_nondet in Eg by auto. split.
    - apply (from_nfa_numbered _ _ _ _ (inits_of_set rows)) in Eg. apply Eg.
    - apply (from_nfa_reachable _ _ _ _ (inits_of_set rows) Eg). }
  apply bind_ok in P as (g1 & E1 & P).
  assert (A1 : wf_graph g1 /\ (~ deterministic rows -> good g1)).
  { destruct negate; [|injection E1 as <-; auto].
    destruct (negated_correct g W) as (x & Ex & Wx & _). rewrite E1 in Ex. injection Ex as <-. split; auto.
    intros ND. destruct (G0 ND) as [I R]. destruct (negated_trim g g1 W E1) as (A & B & C). split; [congruence|].
    intros q Hq. apply C, R. congruence. }
  destruct A1 as [W1 G1]. apply bind_ok in P as (g2 & E2 & P).
  assert (A2 : wf_graph g2 /\ good g2).
  { destruct reverse.
    - destruct (reversed_correct g1 W1) as (x & Ex & Wx & _ & R). rewrite E2 in Ex. injection Ex as <-. split; auto.
      split; auto. apply (reversed_numbered g1 g2 W1 E2).
    - injection E2 as <-. destruct HT as [ND|C]; [auto|discriminate]. }
  destruct A2 as [W2 [I2 R2]]. apply bind_ok in P as (g3 & E3 & P).
  assert (A3 : wf_graph g3 /\ good g3).
  { destruct minimize; [|injection E3 as <-; split; auto; split; auto].
    destruct (minimized_correct g2 W2) as (x & Ex & Wx & _ & R & _). rewrite E3 in Ex. injection Ex as <-. split; auto.
    split; [apply (minimized_zero g2 g3 W2 I2 E3)|exact R]. }
  destruct A3 as [W3 [I3 R3]].
  apply (agrees_trim g3 out p s); auto.
  pose proof P as P0. rewrite dump_lines in P0 by auto. injection P0 as P0.
  assert (L' : lines_of out (map (row_line g3) (seq 0 (size g3)))).
  { rewrite <- P0. apply lines_of_concat. intros l Hl. apply in_map_iff in Hl as (q & <- & _). apply row_line_no_nl. }
  apply lines_of_unique in HL. apply lines_of_unique in L'. rewrite HL in L'. rewrite L', map_length, seq_length in H10. auto.
Qed.

(** The hypotheses are met: a nondeterministic specification ("the last letter but one is 1"); the printed
    automaton, cut in its fourth row, is refused; cut in the last newline it is the same. *)
Definition nd_spec : text := lit (">0 0 0,1" ++ nl ++ "1 2 2" ++ nl ++ "2* _ _" ++ nl).
Example C71_example_printed :
  spec2spec_with T Y spot f coin false false false nd_spec =
  Ok (Prints (lit (">0" ++ tab ++ "0" ++ tab ++ "1" ++ nl ++ "1" ++ tab ++ "2" ++ tab ++ "3" ++ nl ++
                   "2*" ++ tab ++ "0" ++ tab ++ "1" ++ nl ++ "3*" ++ tab ++ "2" ++ tab ++ "3" ++ nl))).
Proof. rewrite spec2spec_with_eq. vm_compute. reflexivity. Qed.
End Program.
Print Assumptions C71_spec2spec.

Example C71_example_rows : describes nd_spec
  [(true, false, [0], [0; 1]); (false, false, [2], [2]); (false, true, [], [])] /\
  ~ deterministic [(true, false, [0], [0; 1]); (false, false, [2], [2]); (false, true, [], [])].
Proof.
  split.
  - exists (getlines c_nl [] nd_spec). split; [apply lines_of_getlines|].
    let l := eval vm_compute in (getlines c_nl [] nd_spec) in change (getlines c_nl [] nd_spec) with l.
    do 3 row_step. constructor.
  - intros [_ H]. apply Forall_inv in H. cbn in H. lia.
Qed.
Definition nd_rows4 (last : string) : text := lit (">0" ++ tab ++ "0" ++ tab ++ "1" ++ nl ++ "1" ++ tab ++ "2" ++ tab ++ "3" ++ nl ++
                   "2*" ++ tab ++ "0" ++ tab ++ "1" ++ nl ++ last).
Example C71_example_cut :
  from_istream (nd_rows4 ("3*" ++ tab ++ "2" ++ tab)) = Fail FOutOfRange /\
  from_istream (nd_rows4 ("3*" ++ tab ++ "2" ++ tab ++ "3")) = from_istream (nd_rows4 ("3*" ++ tab ++ "2" ++ tab ++ "3" ++ nl)) /\
  (exists g, from_istream (nd_rows4 ("3*" ++ tab ++ "2" ++ tab ++ "3")) = Ok g /\ size g = 4).
Proof. vm_compute. split; [|split]; eauto. Qed.

(** * Where it is not noticed *)
(** The limit of ten states is needed.  Eleven states, "at least ten ones": the last line "10* 10 10" cut to
    "10* 10 1" is accepted, and sixteen ones are rejected. *)
Definition tens_spec : text := lit (">0 0,0 1" ++ nl ++ "1 1 2" ++ nl ++ "2 2 3" ++ nl ++ "3 3 4" ++ nl ++ "4 4 5" ++ nl ++
  "5 5 6" ++ nl ++ "6 6 7" ++ nl ++ "7 7 8" ++ nl ++ "8 8 9" ++ nl ++ "9 9 10" ++ nl ++ "10* 10 10" ++ nl).
Definition tens_out : text := match do_spec2spec tens_spec false false false with Ok t => t | Fail _ => [] end.
Definition tens_rows : list (bool * bool * list nat * list nat) :=
  [(true, false, [0; 0], [1]); (false, false, [1], [2]); (false, false, [2], [3]); (false, false, [3], [4]);
   (false, false, [4], [5]); (false, false, [5], [6]); (false, false, [6], [7]); (false, false, [7], [8]);
   (false, false, [8], [9]); (false, false, [9], [10]); (false, true, [10], [10])].
Lemma tens_describes : describes tens_spec tens_rows.
Proof.
  exists (getlines c_nl [] tens_spec). split; [apply lines_of_getlines|].
  let l := eval vm_compute in (getlines c_nl [] tens_spec) in change (getlines c_nl [] tens_spec) with l. unfold tens_rows.
  do 11 row_step. constructor.
Qed.
Theorem C71_long_refuted T Y spot f coin :
  ~ (forall minimize reverse negate spec rows out p s,
       describes spec rows -> rows <> [] -> ~ deterministic rows \/ reverse = true ->
       spec2spec_with T Y spot f coin minimize reverse negate spec = Ok (Prints out) ->
       out = p ++ s -> run_fails_or_agrees p out).
Proof.
  intros H. specialize (H false false false tens_spec tens_rows tens_out
    (firstn (length tens_out - 2) tens_out) (skipn (length tens_out - 2) tens_out) tens_describes).
  destruct H as [H|H].
  - discriminate.
  - left. intros [_ D]. apply Forall_inv in D. cbn in D. lia.
  - rewrite spec2spec_with_eq. vm_compute. reflexivity.
  - symmetry. apply firstn_skipn.
  - apply (H [255; 255]%N 8 false). vm_compute. reflexivity.
  - specialize (H [255; 255]%N 8). vm_compute in H. discriminate.
Qed.
Print Assumptions C71_long_refuted.

(** A deterministic specification is printed with its own numbering.  If its initial state is not the first row, a
    cut before that row can leave an automaton with another meaning. *)
Definition second_spec : text := lit ("0" ++ tab ++ "0" ++ tab ++ "0" ++ nl ++ ">1*" ++ tab ++ "1" ++ tab ++ "0" ++ nl).
Definition second_rows : list (bool * bool * list nat * list nat) :=
  [(false, false, [0], [0]); (true, true, [1], [0])].
Theorem C71_initial_refuted T Y spot f coin :
  ~ (forall minimize reverse negate spec rows out ls p s,
       describes spec rows -> rows <> [] ->
       spec2spec_with T Y spot f coin minimize reverse negate spec = Ok (Prints out) ->
       lines_of out ls -> length ls <= 10 ->
       out = p ++ s -> run_fails_or_agrees p out).
Proof.
  intros H. specialize (H false false false second_spec second_rows second_spec (getlines c_nl [] second_spec)
    (firstn 6 second_spec) (skipn 6 second_spec)).
  destruct H as [H|H].
  - exists (getlines c_nl [] second_spec). split; [apply lines_of_getlines|].
    let l := eval vm_compute in (getlines c_nl [] second_spec) in change (getlines c_nl [] second_spec) with l. unfold second_rows.
    do 2 row_step. constructor.
  - discriminate.
  - rewrite spec2spec_with_eq. vm_compute. reflexivity.
  - apply lines_of_getlines.
  - vm_compute. lia.
  - symmetry. apply firstn_skipn.
  - apply (H [] 1 false). vm_compute. reflexivity.
  - specialize (H [] 1). vm_compute in H. discriminate.
Qed.
Print Assumptions C71_initial_refuted.

(** The AT&T format has no such protection: the final states are marked by lines of their own, and a text without them
    is a valid automaton that accepts nothing. *)
Theorem C71_att_refuted :
  ~ (forall spec out p s, do_spec2att spec = Ok out -> out = p ++ s ->
       forall whole part w, from_att_istream out = Ok whole -> from_att_istream p = Ok part ->
         accepts part w = accepts whole w \/ forall b, accepts part w <> Ok b).
Proof.
  intros H.
  specialize (H (lit (">0*" ++ tab ++ "0" ++ tab ++ "0" ++ nl))
    (lit ("0" ++ tab ++ "0" ++ tab ++ "0" ++ nl ++ "0" ++ tab ++ "0" ++ tab ++ "1" ++ nl ++ "0" ++ nl))
    (lit ("0" ++ tab ++ "0" ++ tab ++ "0" ++ nl ++ "0" ++ tab ++ "0" ++ tab ++ "1" ++ nl)) (lit ("0" ++ nl))).
  specialize (H ltac:(vm_compute; reflexivity) ltac:(vm_compute; reflexivity)).
  specialize (H (graph_of 0 [0] [(0, 0, 0)]) (graph_of 0 [] [(0, 0, 0)]) []).
  specialize (H ltac:(vm_compute; reflexivity) ltac:(vm_compute; reflexivity)).
  destruct H as [H|H]; [vm_compute in H; discriminate|]. apply (H false). vm_compute. reflexivity.
Qed.
Print Assumptions C71_att_refuted.
