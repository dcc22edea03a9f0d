(** Property theorems C70: what `spec2spec` prints for a nondeterministic specification does not depend
    on how its states are numbered; exactly when two specifications give the same text. *)
From Coq Require Import String.
From Coq Require Import List Arith Bool NArith ZArith Ascii Lia.
Import ListNotations.
From Verif Require Import Base BaseFacts GraphModel Spec GraphFacts FromNfa GraphOps Minimize Quotient
  TextModel TextSpec TextFacts TextClaims AttFacts CliModel CliFacts
  DotModel TorusModel LtlModel StreamModel RunnerModel ClientModel CmdModel MainModel Canonical PropsCanon
  PropsGraph PropsText Numbering NumberSpec.
Local Open Scope list_scope.

Lemma describes_build t rows : describes t rows -> from_istream t = build rows.
Proof. intros (ls & HL & HR). apply (from_istream_fail t ls rows HL HR). Qed.

Lemma rows_accept_iff rows w : rows_accept rows w <-> nfa_accepts (inits_of rows) (finals_of rows) (table_of rows) w.
Proof.
  unfold rows_accept, can_be_in, nfa_accepts. split.
  - intros (q & (i & H1 & H2) & H3). eauto.
  - intros (i & q & H1 & H2 & H3). eauto.
Qed.

(** * The rows of a renumbered specification *)
Section Rows.
Context (r : nat -> nat) (rows rows' : list arow) (RN : renumbered r rows rows') (CT : closed_table rows) (NE : rows <> []).
Let n := length rows.

Lemma rn_onto p : p < n -> exists q, q < n /\ r q = p.
Proof. destruct RN as (_ & H1 & H2 & _). apply injection_onto; auto. Qed.
Lemma rn_ne : rows' <> [].
Proof. destruct RN as (E & _). intros ->. destruct rows; [apply NE; reflexivity|discriminate]. Qed.
Lemma rn_final q : q < n -> (In q (finals_of rows) <-> In (r q) (finals_of rows')).
Proof.
  intros Hq. destruct RN as (_ & _ & _ & _ & H). unfold finals_of.
  pose proof (proj2 (sel_is_set (fun '(_, (_, f, _, _)) => f) rows)) as A.
  pose proof (proj2 (sel_is_set (fun '(_, (_, f, _, _)) => f) rows')) as B.
  rewrite A, B. destruct (nth_error rows q) as [[[[i f] q0s] q1s]|] eqn:E; [|apply nth_error_None in E; unfold n in Hq; lia].
  destruct (H _ _ _ _ _ E) as (i' & p0s & p1s & E' & _). rewrite E'. split.
  - intros (x & [= <-] & Hx). eauto.
  - intros (x & [= <-] & Hx). eauto.
Qed.
Lemma rn_edge_fwd q b p : q < n -> nfa_edge (table_of rows) q b p -> p < n /\ nfa_edge (table_of rows') (r q) b (r p).
Proof.
  intros Hq (l & d0 & d1 & E & H). rewrite table_of_nth in E.
  destruct (nth_error rows q) as [[[[i f] q0s] q1s]|] eqn:Eq; [|discriminate]. cbn in E. injection E as <- <- <-.
  split.
  - unfold closed_table in CT. rewrite Forall_forall in CT. specialize (CT _ (nth_error_In _ _ Eq)). cbn in CT.
    rewrite Forall_forall in CT. apply CT, in_app_iff. destruct b; auto.
  - destruct RN as (_ & _ & _ & _ & HR). destruct (HR _ _ _ _ _ Eq) as (i' & p0s & p1s & E' & H0 & H1).
    exists (r q), p0s, p1s. rewrite table_of_nth, E'. split; [reflexivity|]. destruct b; [apply H1|apply H0]; eauto.
Qed.
Lemma rn_edge_bwd q b p' : q < n -> nfa_edge (table_of rows') (r q) b p' -> exists p, nfa_edge (table_of rows) q b p /\ p' = r p.
Proof.
  intros Hq (l & d0 & d1 & E & H). rewrite table_of_nth in E.
  destruct (nth_error rows q) as [[[[i f] q0s] q1s]|] eqn:Eq; [|apply nth_error_None in Eq; unfold n in Hq; lia].
  destruct RN as (_ & _ & _ & _ & HR). destruct (HR _ _ _ _ _ Eq) as (i' & p0s & p1s & E' & H0 & H1).
  rewrite E' in E. cbn in E. injection E as <- <- <-.
  destruct b; [apply H1 in H as (p & H & ->)|apply H0 in H as (p & H & ->)]; exists p; split; auto;
    exists q, q0s, q1s; rewrite table_of_nth, Eq; auto.
Qed.

(** Both nondeterministic: the subset construction gives the very same automaton. *)
Lemma rn_build : ~ deterministic rows -> ~ deterministic rows' ->
  exists g, build rows = Ok g /\ build rows' = Ok g.
Proof.
  intros D D'. rewrite !build_nondet by auto. pose proof rn_onto as O.
  destruct RN as (HL & H1 & H2 & HI & _).
  apply (ren_from_nfa r n); auto using inits_of_set, rn_edge_bwd, rn_final.
  - apply table_of_length.
  - rewrite table_of_length. exact HL.
  - intros i Hi. apply inits_of_bound; auto.
  - intros i Hi. apply HI; auto. apply inits_of_bound; auto.
  - intros j Hj. pose proof (inits_of_bound _ _ rn_ne Hj) as Lj. rewrite HL in Lj.
    destruct (O j Lj) as (i & Hi & <-). exists i. split; auto. apply HI; auto.
  - apply rn_edge_fwd.
Qed.

(** Both deterministic: [r] carries one automaton to the other. *)
Lemma rn_det : deterministic rows -> deterministic rows' -> exists g g', build rows = Ok g /\ build rows' = Ok g' /\
  wf_graph g /\ wf_graph g' /\ size g = n /\ size g' = n /\ r (initial_state g) = initial_state g' /\
  (forall q b, q < n -> nxt g' (r q) b = r (nxt g q b)) /\ (forall q, q < n -> fin g' (r q) = fin g q).
Proof.
  intros D D'. pose proof D as D0. pose proof D' as D0'. apply deterministic_iff in D0, D0'.
  apply andb_prop in D0 as [DL DF]. apply andb_prop in D0' as [DL' DF'].
  destruct RN as (HL & H1 & H2 & HI & HR).
  assert (CT' : closed_table rows').
  { unfold closed_table in *. rewrite Forall_forall in *. intros x Hx. apply In_nth_error in Hx as (p & Ep).
    assert (Hp : p < n) by (unfold n; rewrite <- HL; eapply nth_error_lt; eauto). destruct (rn_onto p Hp) as (q & Hq & <-).
    destruct (nth_error rows q) as [[[[i f] q0s] q1s]|] eqn:Eq; [|apply nth_error_None in Eq; unfold n in Hq; lia].
    destruct (HR _ _ _ _ _ Eq) as (i' & p0s & p1s & E' & A0 & A1). rewrite E' in Ep. injection Ep as <-.
    specialize (CT _ (nth_error_In _ _ Eq)). cbn in CT. rewrite Forall_forall in CT. apply Forall_forall. intros y Hy.
    rewrite HL. apply in_app_iff in Hy as [Hy|Hy]; [apply A0 in Hy|apply A1 in Hy]; destruct Hy as (z & Hz & ->);
      apply H1, CT, in_app_iff; auto. }
  assert (B : exists g, build rows = Ok g).
  { rewrite build_det by auto. eexists. apply graph_new_good; [apply det_targets; auto|].
    intros q Hq. rewrite det_rows_length. eapply sel_bound; eauto. }
  assert (B' : exists g, build rows' = Ok g).
  { rewrite build_det by auto. eexists. apply graph_new_good; [apply det_targets; auto|].
    intros q Hq. rewrite det_rows_length. eapply sel_bound; eauto. }
  destruct B as (g & B), B' as (g' & B').
  destruct (build_language rows g NE B) as (W & _ & K). destruct (K D) as (Sg & Ig).
  destruct (build_language rows' g' rn_ne B') as (W' & _ & K'). destruct (K' D') as (Sg' & Ig').
  exists g, g'. split; auto. split; auto. split; auto. split; auto. split; auto. split; [unfold n; congruence|].
  split.
  { assert (A : In (r (initial_state g)) (inits_of rows')).
    { apply HI; [unfold n; rewrite <- Sg; apply init_lt; auto|]. rewrite Ig. simpl; auto. }
    rewrite Ig' in A. destruct A as [A|[]]; auto. }
  rewrite build_det in B, B' by auto. apply graph_new_ok in B as (_ & _ & ->). apply graph_new_ok in B' as (_ & _ & ->).
  split.
  - intros q b Hq.
    assert (E : nfa_edge (table_of rows) q b (nxt (graph_of (hd 0 (inits_of rows)) (finals_of rows) (det_rows rows)) q b))
      by (eapply det_edge; eauto).
    apply rn_edge_fwd in E as [_ E]; auto. eapply det_edge in E as [_ E]; eauto.
  - intros q Hq. unfold fin. cbn [graph_of g_final]. apply eq_true_iff_eq. rewrite !smem_In. symmetry. apply rn_final; auto.
Qed.
End Rows.

Section Program.
Context (T : tfhe) (Y : crypto T) (spot : spot_lib).
Context (f : fs) (coin : nat).

(** `homfa spec2spec [--minimized] [--reversed] [--negated] < spec` *)
Definition spec2spec_with (minimized reversed negated : bool) (spec : text) : res action :=
  main T Y spot f spec coin
    ([lit "spec2spec"] ++ (if minimized then [lit "--minimized"] else []) ++
     (if reversed then [lit "--reversed"] else []) ++ (if negated then [lit "--negated"] else [])).

Lemma spec2spec_with_eq m r n spec : spec2spec_with m r n spec = do t <- do_spec2spec spec m r n; Ok (Prints t).
Proof. destruct m, r, n; reflexivity. Qed.

(** * C70 (exact): two nondeterministic specifications give the same text if and only if they accept the
    same words and the same pairs of words lead to the same set of states. *)
Theorem C70_exact spec rows out spec' rows' out' :
  describes spec rows -> describes spec' rows' -> ~ deterministic rows -> ~ deterministic rows' ->
  spec2spec_with false false false spec = Ok (Prints out) -> spec2spec_with false false false spec' = Ok (Prints out') ->
  (* state numbers are ints *)
  (N.of_nat (List.length out) <= 2 ^ 31)%N -> (N.of_nat (List.length out') <= 2 ^ 31)%N ->
  (out = out' <->
   (forall w, rows_accept rows w <-> rows_accept rows' w) /\
   (forall u v, brought_together rows u v <-> brought_together rows' u v)).
Proof.
  intros HD HD' ND ND' P P' L L'. rewrite spec2spec_with_eq in P, P'. apply bind_ok in P as (t & P & [= ->]).
  apply bind_ok in P' as (t' & P' & [= ->]). unfold do_spec2spec in P, P'.
  rewrite (describes_build _ _ HD), build_nondet in P by auto. rewrite (describes_build _ _ HD'), build_nondet in P' by auto.
  apply bind_ok in P as (g & Eg & P). apply bind_ok in P' as (g' & Eg' & P'). cbn [bind] in P, P'.
  rewrite (nfa_dump_iff _ _ _ _ _ _ g g' out out' (inits_of_set rows) (inits_of_set rows') Eg Eg'); auto.
  - split.
    + intros (A & B). split; [intros w; rewrite !rows_accept_iff; apply A|exact B].
    + intros (A & B). split; [intros w; rewrite <- !rows_accept_iff; apply A|exact B].
  - pose proof (dump_length g out P). unfold int_max. lia.
  - pose proof (dump_length g' out' P'). unfold int_max. lia.
Qed.

(** * C70: renumbering the states of a nondeterministic specification changes nothing, whatever the options. *)
Theorem C70_renumbered r spec rows spec' rows' :
  describes spec rows -> describes spec' rows' -> rows <> [] -> closed_table rows -> renumbered r rows rows' ->
  ~ deterministic rows -> ~ deterministic rows' ->
  forall minimized reversed negated, exists out,
    spec2spec_with minimized reversed negated spec = Ok (Prints out) /\
    spec2spec_with minimized reversed negated spec' = Ok (Prints out).
Proof.
  intros HD HD' NE CT RN ND ND' m rv ng.
  destruct (rn_build r rows rows' RN CT NE ND ND') as (g & E & E').
  rewrite <- (describes_build _ _ HD) in E. rewrite <- (describes_build _ _ HD') in E'.
  assert (W : wf_graph g).
  { rewrite (describes_build _ _ HD) in E. apply build_language in E; auto. tauto. }
  destruct (spec2spec_language spec g m rv ng E W) as (t & _ & S & _).
  exists t. rewrite !spec2spec_with_eq, S. split; [reflexivity|].
  assert (Q : do_spec2spec spec' m rv ng = do_spec2spec spec m rv ng) by (unfold do_spec2spec; rewrite E, E'; reflexivity).
  rewrite Q, S. reflexivity.
Qed.

(** Negation commutes with renumbering. *)
Lemma rn_negated r g g' : wf_graph g -> wf_graph g' -> size g = size g' ->
  (forall q, q < size g -> r q < size g) -> r (initial_state g) = initial_state g' ->
  (forall q b, q < size g -> nxt g' (r q) b = r (nxt g q b)) -> (forall q, q < size g -> fin g' (r q) = fin g q) ->
  exists h h', negated g = Ok h /\ negated g' = Ok h' /\ wf_graph h /\ wf_graph h' /\ size h = size g /\ size h' = size g /\
    r (initial_state h) = initial_state h' /\
    (forall q b, q < size g -> nxt h' (r q) b = r (nxt h q b)) /\ (forall q, q < size g -> fin h' (r q) = fin h q).
Proof.
  intros W W' ES L HI HN HF.
  assert (A : forall g, wf_graph g -> exists h, negated g = Ok h /\ wf_graph h /\ size h = size g /\
     initial_state h = initial_state g /\ (forall q b, nxt h q b = nxt g q b) /\ (forall q, q < size g -> fin h q = negb (fin g q))).
  { clear. intros g W. destruct (negated_correct g W) as (h & E & Wh & Sh & _). exists h. split; auto. split; auto. split; auto.
    unfold negated in E. rewrite negated_finals in E by auto. cbn [bind] in E. apply graph_new_ok in E as (_ & _ & ->).
    split; [reflexivity|]. split; [reflexivity|]. intros q Hq. unfold fin at 1. cbn [graph_of g_final].
    apply eq_true_iff_eq. rewrite smem_In, filter_In, in_seq. intuition lia. }
  destruct (A g W) as (h & E & Wh & Sh & Ih & Nh & Fh). destruct (A g' W') as (h' & E' & Wh' & Sh' & Ih' & Nh' & Fh').
  exists h, h'. split; auto. split; auto. split; auto. split; auto. split; auto. split; [congruence|].
  split; [congruence|]. split.
  - intros q b Hq. rewrite Nh, Nh'. auto.
  - intros q Hq. rewrite Fh, Fh', HF by (auto; rewrite <- ES; auto). reflexivity.
Qed.

(** Reversal renumbers: with --reversed the same holds for deterministic specifications. *)
Theorem C70_reversed r spec rows spec' rows' :
  describes spec rows -> describes spec' rows' -> rows <> [] -> closed_table rows -> renumbered r rows rows' ->
  deterministic rows -> deterministic rows' ->
  forall minimized negated, exists out,
    spec2spec_with minimized true negated spec = Ok (Prints out) /\
    spec2spec_with minimized true negated spec' = Ok (Prints out).
Proof.
  intros HD HD' NE CT RN ND ND' m ng.
  destruct (rn_det r rows rows' RN CT NE ND ND') as (g & g' & E & E' & W & W' & Sg & Sg' & HI & HN & HF).
  rewrite <- (describes_build _ _ HD) in E. rewrite <- (describes_build _ _ HD') in E'.
  destruct (spec2spec_language spec g m true ng E W) as (t & _ & S & _).
  exists t. rewrite !spec2spec_with_eq, S. split; [reflexivity|].
  destruct RN as (_ & H1 & H2 & _). fold (size g) in *.
  assert (Q : do_spec2spec spec' m true ng = do_spec2spec spec m true ng).
  { unfold do_spec2spec. rewrite E, E'. cbn [bind]. destruct ng.
    - destruct (rn_negated r g g' W W') as (h & h' & Eh & Eh' & Wh & Wh' & Sh & Sh' & HI' & HN' & HF'); auto; try congruence.
      + rewrite Sg. exact H1.
      + rewrite Sg. exact HN.
      + rewrite Sg. exact HF.
      + rewrite Eh, Eh'. cbn [bind]. rewrite (ren_reversed r h h'); auto; try congruence; rewrite Sh; rewrite ?Sg; auto.
        all: rewrite Sg in *; auto.
    - cbn [bind]. rewrite (ren_reversed r g g'); auto; try congruence; rewrite Sg; auto. }
  rewrite Q, S. reflexivity.
Qed.
End Program.

(** * Concrete cases.  test/06.spec of the repository, its states numbered 0, 1, 2 and (by 0 -> 2, 1 -> 0, 2 -> 1)
    in another way, targets listed in another order. *)
Definition ex_rows : list arow := [(false, true, [2], [0]); (true, false, [0], [1; 2]); (true, false, [1], [])].
Definition ex_spec' : text := txt ">0   2   1,0,1
>1   0   _
2*   1   2
".
Definition ex_rows' : list arow := [(true, false, [2], [1; 0; 1]); (true, false, [0], []); (false, true, [1], [2])].
Definition ex_ren (q : nat) : nat := match q with 0 => 2 | 1 => 0 | _ => 1 end.
Lemma ex_describes : describes ex_spec ex_rows.
Proof.
  eexists. split; [apply lines_of_getlines|].
  let ls := eval vm_compute in (getlines c_nl [] ex_spec) in replace (getlines c_nl [] ex_spec) with ls by (vm_compute; reflexivity).
  eapply rows_of_step with (m := mkRow false (txt "0") true (txt "2") (txt "0")); try reflexivity.
  eapply rows_of_step with (m := mkRow true (txt "1") false (txt "0") (txt "1,2")); try reflexivity.
  eapply rows_of_step with (m := mkRow true (txt "2") false (txt "1") (txt "_")); try reflexivity.
  constructor.
Qed.
Lemma ex_describes' : describes ex_spec' ex_rows'.
Proof.
  eexists. split; [apply lines_of_getlines|].
  let ls := eval vm_compute in (getlines c_nl [] ex_spec') in replace (getlines c_nl [] ex_spec') with ls by (vm_compute; reflexivity).
  eapply rows_of_step with (m := mkRow true (txt "0") false (txt "2") (txt "1,0,1")); try reflexivity.
  eapply rows_of_step with (m := mkRow true (txt "1") false (txt "0") (txt "_")); try reflexivity.
  eapply rows_of_step with (m := mkRow false (txt "2") true (txt "1") (txt "2")); try reflexivity.
  constructor.
Qed.
Lemma ex_renumbered : renumbered ex_ren ex_rows ex_rows'.
Proof.
  split; [reflexivity|]. split; [intros [|[|[|q]]] H; cbn in *; lia|].
  split; [intros [|[|[|p]]] [|[|[|q]]] Hp Hq H; cbn in *; lia|].
  split.
  - intros [|[|[|i]]] H; vm_compute; cbn in H; try lia; intuition congruence.
  - intros q i f q0s q1s E. destruct q as [|[|[|q]]]; cbn in E; [injection E as <- <- <- <-..|destruct q; discriminate];
      cbn [ex_ren ex_rows' nth_error]; do 3 eexists; (split; [reflexivity|]); split; intros x; cbn;
      (split; [intros H; repeat destruct H as [<-|H]; try contradiction; eauto 10
              |intros (y & H & ->); repeat destruct H as [<-|H]; try contradiction; cbn; auto]).
Qed.
Example C70_nonvacuous :
  describes ex_spec ex_rows /\ describes ex_spec' ex_rows' /\ ex_rows <> [] /\ closed_table ex_rows /\
  renumbered ex_ren ex_rows ex_rows' /\ ~ deterministic ex_rows /\ ~ deterministic ex_rows' /\
  exists out, forall T (Y : crypto T) spot f coin,
    spec2spec_with T Y spot f coin false false false ex_spec = Ok (Prints out) /\ List.length out = 53.
Proof.
  split; [apply ex_describes|]. split; [apply ex_describes'|]. split; [discriminate|].
  split; [repeat constructor|]. split; [apply ex_renumbered|].
  split; [intros [H _]; vm_compute in H; discriminate|]. split; [intros [H _]; vm_compute in H; discriminate|].
  eexists. intros T Y spot f coin. rewrite spec2spec_with_eq.
  let t := eval vm_compute in (do_spec2spec ex_spec false false false) in
  replace (do_spec2spec ex_spec false false false) with t by (vm_compute; reflexivity).
  cbn [bind]. split; reflexivity.
Qed.

(** Words that end in 1, with and without a superfluous state: the same words are accepted, but "0" and the
    empty word lead to the same set of states only in the first one, so the texts differ. *)
Definition end1 : text := txt (">0 0 0,1" ++ nl ++ "1* _ _" ++ nl).
Definition end1' : text := txt (">0 0,2 0,1" ++ nl ++ "1* _ _" ++ nl ++ "2 _ _" ++ nl).
Definition end1_rows : list arow := [(true, false, [0], [0; 1]); (false, true, [], [])].
Definition end1_rows' : list arow := [(true, false, [0; 2], [0; 1]); (false, true, [], []); (false, false, [], [])].
Lemma end1_describes : describes end1 end1_rows.
Proof.
  eexists. split; [apply lines_of_getlines|].
  let ls := eval vm_compute in (getlines c_nl [] end1) in replace (getlines c_nl [] end1) with ls by (vm_compute; reflexivity).
  eapply rows_of_step with (m := mkRow true (txt "0") false (txt "0") (txt "0,1")); try reflexivity.
  eapply rows_of_step with (m := mkRow false (txt "1") true (txt "_") (txt "_")); try reflexivity.
  constructor.
Qed.
Lemma end1_describes' : describes end1' end1_rows'.
Proof.
  eexists. split; [apply lines_of_getlines|].
  let ls := eval vm_compute in (getlines c_nl [] end1') in replace (getlines c_nl [] end1') with ls by (vm_compute; reflexivity).
  eapply rows_of_step with (m := mkRow true (txt "0") false (txt "0,2") (txt "0,1")); try reflexivity.
  eapply rows_of_step with (m := mkRow false (txt "1") true (txt "_") (txt "_")); try reflexivity.
  eapply rows_of_step with (m := mkRow false (txt "2") false (txt "_") (txt "_")); try reflexivity.
  constructor.
Qed.
Example C70_exact_nonvacuous T (Y : crypto T) spot f coin :
  describes end1 end1_rows /\ describes end1' end1_rows' /\ ~ deterministic end1_rows /\ ~ deterministic end1_rows' /\
  brought_together end1_rows [] [false] /\ ~ brought_together end1_rows' [] [false] /\
  exists out out', spec2spec_with T Y spot f coin false false false end1 = Ok (Prints out) /\
    spec2spec_with T Y spot f coin false false false end1' = Ok (Prints out') /\ out <> out' /\
    (N.of_nat (List.length out) <= 2 ^ 31)%N /\ (N.of_nat (List.length out') <= 2 ^ 31)%N.
Proof.
  split; [apply end1_describes|]. split; [apply end1_describes'|].
  split; [intros [_ H]; inversion H as [|x l A _]; destruct A; discriminate|].
  split; [intros [_ H]; inversion H as [|x l A _]; destruct A; discriminate|].
  assert (SET : forall rows w q, can_be_in rows w q <-> In q (sdelta (table_of rows) (inits_of rows) w)).
  { intros rows w q. symmetry. apply sdelta_In. }
  split; [intros q; rewrite !SET; vm_compute; tauto|].
  split; [intros H; specialize (H 2); rewrite !SET in H; vm_compute in H; intuition congruence|].
  rewrite !spec2spec_with_eq.
  let t := eval vm_compute in (do_spec2spec end1 false false false) in
  replace (do_spec2spec end1 false false false) with t by (vm_compute; reflexivity).
  let t := eval vm_compute in (do_spec2spec end1' false false false) in
  replace (do_spec2spec end1' false false false) with t by (vm_compute; reflexivity).
  cbn [bind]. do 2 eexists. split; [reflexivity|]. split; [reflexivity|]. split; [discriminate|]. cbn. lia.
Qed.

(** * Without --reversed the numbering of a deterministic specification shows in the output, even with
    --minimized: an odd number of 1s, with its two states numbered in both ways. *)
Definition odd : text := txt (">0 0 1" ++ nl ++ "1* 1 0" ++ nl).
Definition odd' : text := txt ("0* 0 1" ++ nl ++ ">1 1 0" ++ nl).
Definition odd_rows : list arow := [(true, false, [0], [1]); (false, true, [1], [0])].
Definition odd_rows' : list arow := [(false, true, [0], [1]); (true, false, [1], [0])].
Lemma odd_hyps : describes odd odd_rows /\ describes odd' odd_rows' /\ odd_rows <> [] /\ closed_table odd_rows /\
  renumbered (fun q => 1 - q) odd_rows odd_rows' /\ deterministic odd_rows /\ deterministic odd_rows'.
Proof.
  split.
  { eexists. split; [apply lines_of_getlines|].
    let ls := eval vm_compute in (getlines c_nl [] odd) in replace (getlines c_nl [] odd) with ls by (vm_compute; reflexivity).
    eapply rows_of_step with (m := mkRow true (txt "0") false (txt "0") (txt "1")); try reflexivity.
    eapply rows_of_step with (m := mkRow false (txt "1") true (txt "1") (txt "0")); try reflexivity.
    constructor. }
  split.
  { eexists. split; [apply lines_of_getlines|].
    let ls := eval vm_compute in (getlines c_nl [] odd') in replace (getlines c_nl [] odd') with ls by (vm_compute; reflexivity).
    eapply rows_of_step with (m := mkRow false (txt "0") true (txt "0") (txt "1")); try reflexivity.
    eapply rows_of_step with (m := mkRow true (txt "1") false (txt "1") (txt "0")); try reflexivity.
    constructor. }
  split; [discriminate|]. split; [repeat constructor|]. split; [|split; split; try reflexivity; repeat constructor].
  split; [reflexivity|]. split; [intros [|[|q]] H; cbn in *; lia|].
  split; [intros [|[|p]] [|[|q]] Hp Hq H; cbn in *; lia|].
  split.
  - intros [|[|i]] H; vm_compute; cbn in H; try lia; intuition congruence.
  - intros q i f q0s q1s E. destruct q as [|[|q]]; cbn in E; [injection E as <- <- <- <-..|destruct q; discriminate];
      cbn [odd_rows' Nat.sub nth_error]; do 3 eexists; (split; [reflexivity|]); split; intros x; cbn;
      (split; [intros H; repeat destruct H as [<-|H]; try contradiction; eexists; split; [left; reflexivity|reflexivity]
              |intros (y & H & ->); repeat destruct H as [<-|H]; try contradiction; cbn; auto]).
Qed.
(** No choice of the other options makes the two texts equal. *)
Theorem C70_deterministic_refuted T (Y : crypto T) spot f coin :
  ~ (forall r spec rows spec' rows', describes spec rows -> describes spec' rows' -> rows <> [] -> closed_table rows ->
       renumbered r rows rows' -> deterministic rows -> deterministic rows' ->
       exists minimized negated out, spec2spec_with T Y spot f coin minimized false negated spec = Ok (Prints out) /\
         spec2spec_with T Y spot f coin minimized false negated spec' = Ok (Prints out)).
Proof.
  intros H. destruct odd_hyps as (A & B & C & D & E & F & G).
  destruct (H _ _ _ _ _ A B C D E F G) as (m & ng & out & P & Q). rewrite spec2spec_with_eq in P, Q.
  apply bind_ok in P as (t & P & [= ->]). apply bind_ok in Q as (t & Q & [= ->]).
  assert (N : do_spec2spec odd m false ng <> do_spec2spec odd' m false ng)
    by (destruct m, ng; vm_compute; discriminate).
  apply N. congruence.
Qed.
(** With --reversed the two give the same text (C70_reversed applies). *)
Example C70_reversed_nonvacuous : exists out, forall T (Y : crypto T) spot f coin,
  spec2spec_with T Y spot f coin false true false odd = Ok (Prints out) /\
  spec2spec_with T Y spot f coin false true false odd' = Ok (Prints out) /\ out <> [].
Proof.
  eexists. intros T Y spot f coin. rewrite !spec2spec_with_eq.
  let t := eval vm_compute in (do_spec2spec odd false true false) in
  replace (do_spec2spec odd false true false) with t by (vm_compute; reflexivity).
  let t := eval vm_compute in (do_spec2spec odd' false true false) in
  replace (do_spec2spec odd' false true false) with t by (vm_compute; reflexivity).
  cbn [bind]. split; [reflexivity|]. split; [reflexivity|discriminate].
Qed.

Print Assumptions C70_exact.
Print Assumptions C70_renumbered.
Print Assumptions C70_reversed.
Print Assumptions C70_deterministic_refuted.
