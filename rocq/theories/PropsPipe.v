(** Property theorems C73: pipelines of `homfa spec2spec` calls. *)
From Coq Require Import String.
From Coq Require Import List Arith Bool NArith ZArith Ascii Lia.
Import ListNotations.
From Verif Require Import Base BaseFacts GraphModel Spec GraphFacts FromNfa GraphOps Minimize Quotient
  TextModel TextSpec TextFacts TextClaims AttFacts CliModel CliFacts PropsGraph PropsText
  DotModel TorusModel LtlModel StreamModel RunnerModel ClientModel CmdModel MainModel Canonical Numbering PropsCanon PropsNumber
  PipeSpec PipeFacts PipeAlgebra.
Local Open Scope list_scope.

Section Program.
Context (T : tfhe) (Y : crypto T) (spot : spot_lib).
Context (f : fs) (coin : nat).

(** [piped calls spec out]: `homfa spec2spec ... | homfa spec2spec ... | ...`, given [spec] on its standard
    input, prints [out].  State numbers are ints: no text passed from one call to the next is longer than
    2^31 characters. *)
Inductive piped : list call -> text -> text -> Prop :=
| piped_last c spec out :
    spec2spec_with T Y spot f coin (minimizing c) (reversing c) (negating c) spec = Ok (Prints out) -> piped [c] spec out
| piped_on c calls spec mid out :
    spec2spec_with T Y spot f coin (minimizing c) (reversing c) (negating c) spec = Ok (Prints mid) ->
    (N.of_nat (List.length mid) <= 2 ^ 31)%N -> piped calls mid out -> piped (c :: calls) spec out.

Lemma ok_sad g : wf_graph g -> ok (with_sad g []).
Proof. intros W. split; [exact W|reflexivity]. Qed.
Lemma sad_ok g : ok g -> with_sad g [] = g.
Proof. intros [_ D]. destruct g. cbn in D. subst. reflexivity. Qed.

Lemma call_text spec g m r n : from_istream spec = Ok g -> wf_graph g ->
  do_spec2spec spec m r n = dump (perform (with_sad g []) (mkCall m r n)).
Proof.
  intros E W. unfold do_spec2spec. rewrite E. cbn [bind]. unfold perform. cbn [negating reversing minimizing].
  assert (A : (if n then negated g else Ok g) = Ok (if n then Neg (with_sad g []) else g) /\
              wf_graph (if n then Neg (with_sad g []) else g)).
  { destruct n; auto. destruct (Neg_eq (with_sad g []) W) as (X & (X1 & _)). split; auto. }
  destruct A as (A1 & A2). rewrite A1. cbn [bind].
  set (a := if n then Neg (with_sad g []) else g) in *.
  assert (Q : with_sad a [] = (if n then Neg (with_sad g []) else with_sad g [])).
  { unfold a. destruct n; auto. apply sad_ok. apply Neg_ok. apply ok_sad; auto. }
  rewrite <- Q. clearbody a. clear Q A1 E W g n.
  assert (A : (if r then reversed a else Ok a) = Ok (if r then Rev (with_sad a []) else a) /\
              wf_graph (if r then Rev (with_sad a []) else a)).
  { destruct r; auto. destruct (Rev_eq (with_sad a []) A2) as (X & (X1 & _)). split; auto. }
  destruct A as (A1 & A3). rewrite A1. cbn [bind].
  set (b := if r then Rev (with_sad a []) else a) in *.
  assert (Q : with_sad b [] = (if r then Rev (with_sad a []) else with_sad a [])).
  { unfold b. destruct r; auto. apply sad_ok. apply Rev_ok. apply ok_sad; auto. }
  rewrite <- Q. clearbody b. clear Q A1 A2 a r.
  destruct m; [|reflexivity]. destruct (Min_eq (with_sad b []) A3) as (X & _).
  change (minimized b) with (minimized (with_sad b [])). rewrite X. reflexivity.
Qed.

Lemma piped_form calls spec out : piped calls spec out -> forall g, from_istream spec = Ok g -> wf_graph g ->
  dump (form (effect calls) (with_sad g [])) = Ok out.
Proof.
  assert (G : piped calls spec out -> forall g, from_istream spec = Ok g -> wf_graph g ->
                dump (fold_left perform calls (with_sad g [])) = Ok out).
  { induction 1 as [c spec out P|c calls spec mid out P L _ IH]; intros g E W;
      rewrite spec2spec_with_eq in P; apply bind_ok in P as (t & P & [= ->]); rewrite (call_text _ g _ _ _ E W) in P;
      replace (mkCall _ _ _) with c in P by (destruct c; reflexivity).
    - exact P.
    - assert (O : ok (perform (with_sad g []) c)) by (apply perform_ok, ok_sad; auto).
      cbn [fold_left]. rewrite <- (sad_ok _ O). apply IH; [|apply O]. rewrite <- (sad_ok _ O). apply dump_round_trip; [apply O| |exact P].
      pose proof (dump_length _ mid P). unfold int_max. lia. }
  intros P g E W. rewrite <- pipeline_form by (apply ok_sad; auto). apply G; auto.
Qed.

(** * C73: two pipelines with the same effect print the same text. *)
Theorem C73_same calls calls' spec g out out' :
  from_istream spec = Ok g -> wf_graph g -> piped calls spec out -> piped calls' spec out' ->
  effect calls = effect calls' -> out = out'.
Proof.
  intros E W P P' EE. pose proof (piped_form _ _ _ P g E W) as D. pose proof (piped_form _ _ _ P' g E W) as D'.
  rewrite EE in D. congruence.
Qed.

(** Every pipeline has the effect of one call, or of two when --reversed is given an even number of times. *)
Theorem C73_short calls : calls <> [] ->
  effect (short (effect calls)) = effect calls /\ short (effect calls) <> [] /\ length (short (effect calls)) <= 2 /\
  (length (short (effect calls)) = 2 <-> 2 <= reversals calls /\ Nat.even (reversals calls) = true).
Proof.
  intros _. split; [destruct (effect calls) as [[] []]; reflexivity|].
  split; [destruct (effect calls) as [[] []]; discriminate|]. split; [destruct (effect calls) as [[] []]; cbn; lia|].
  unfold effect, short. cbn [fst snd]. destruct (reversals calls) as [|[|k]].
  - destruct (minimizes calls); cbn; split; intros; lia.
  - destruct (minimizes calls); cbn; split; intros; lia.
  - cbn [shape_of]. destruct (Nat.even (S (S k))); cbn [length]; split; intros H; try lia; try (split; [lia|reflexivity]).
Qed.

(** Every pipeline runs to its end, unless a text on the way is too long. *)
Theorem C73_total calls spec g : from_istream spec = Ok g -> wf_graph g -> calls <> [] ->
  (exists out, piped calls spec out) \/
  exists before after mid, calls = before ++ after /\ after <> [] /\ piped before spec mid /\ (2 ^ 31 < N.of_nat (List.length mid))%N.
Proof.
  revert spec g. induction calls as [|c calls IH]; intros spec g E W NE; [congruence|].
  assert (X : exists t, do_spec2spec spec (minimizing c) (reversing c) (negating c) = Ok t).
  { destruct (spec2spec_language spec g (minimizing c) (reversing c) (negating c) E W) as (t & _ & S & _). eauto. }
  destruct X as (t & X).
  assert (P : spec2spec_with T Y spot f coin (minimizing c) (reversing c) (negating c) spec = Ok (Prints t)).
  { rewrite spec2spec_with_eq, X. reflexivity. }
  destruct calls as [|c' calls]; [left; exists t; constructor; exact P|].
  destruct (N.le_gt_cases (N.of_nat (List.length t)) (2 ^ 31)) as [L|L].
  - assert (O : ok (perform (with_sad g []) c)) by (apply perform_ok, ok_sad; auto).
    rewrite (call_text _ g _ _ _ E W) in X. replace (mkCall _ _ _) with c in X by (destruct c; reflexivity).
    assert (R : from_istream t = Ok (perform (with_sad g []) c)).
    { rewrite <- (sad_ok _ O). apply dump_round_trip; [apply O| |exact X]. pose proof (dump_length _ t X). unfold int_max. lia. }
    destruct (IH t _ R (proj1 O)) as [(out & Q)|(b & a & mid & H1 & H2 & H3 & H4)]; [discriminate| |].
    + left. exists out. eapply piped_on; eauto.
    + right. exists (c :: b), a, mid. rewrite H1. split; [reflexivity|]. split; auto. split; auto. eapply piped_on; eauto.
  - right. exists [c], (c' :: calls), t. split; [reflexivity|]. split; [discriminate|]. split; auto. constructor; exact P.
Qed.

(** * C73: what the text printed by a pipeline accepts. *)
Theorem C73_words calls spec g out :
  from_istream spec = Ok g -> wf_graph g -> piped calls spec out -> (N.of_nat (List.length out) <= 2 ^ 31)%N ->
  exists h, from_istream out = Ok h /\ wf_graph h /\
    forall w, let w' := if Nat.odd (reversals calls) then rev w else w in
      dfa_accepts h w <-> if Nat.odd (negations calls) then ~ dfa_accepts g w' else dfa_accepts g w'.
Proof.
  intros E W P L. pose proof (piped_form _ _ _ P g E W) as D. pose proof (ok_sad g W) as O. pose proof (form_ok (effect calls) _ O) as O'.
  exists (form (effect calls) (with_sad g [])). split.
  { rewrite <- (sad_ok _ O'). apply dump_round_trip; [apply O'| |exact D]. pose proof (dump_length _ out D). unfold int_max. lia. }
  split; [apply O'|]. intros w w'. unfold dfa_accepts. rewrite !verdict_accepts by (apply O' || apply W).
  unfold effect. rewrite form_verdict by auto.
  assert (Q : match shape_of (minimizes calls) (reversals calls) with Reversed | MinimalReversed => rev w | _ => w end = w').
  { unfold w'. destruct (reversals calls) as [|[|k]]; [destruct (minimizes calls); reflexivity..|].
    rewrite <- Nat.negb_even. unfold shape_of. destruct (Nat.even (S (S k))); reflexivity. }
  rewrite Q. change (verdict (with_sad g []) w') with (verdict g w').
  destruct (Nat.odd (negations calls)), (verdict g w'); cbn [xorb]; intuition congruence.
Qed.

(** * C73: with two --reversed, or with one and a --minimized, the text depends on the accepted words only. *)
Theorem C73_canonical calls calls' spec g out spec' g' out' :
  from_istream spec = Ok g -> wf_graph g -> from_istream spec' = Ok g' -> wf_graph g' ->
  piped calls spec out -> piped calls' spec' out' -> effect calls = effect calls' ->
  2 <= reversals calls \/ reversals calls = 1 /\ minimizes calls = true ->
  (N.of_nat (List.length out) <= 2 ^ 31)%N -> (N.of_nat (List.length out') <= 2 ^ 31)%N ->
  (out = out' <-> same_words g g').
Proof.
  intros E W E' W' P P' EE C L L'. pose proof (piped_form _ _ _ P g E W) as D. pose proof (piped_form _ _ _ P' g' E' W') as D'.
  rewrite <- EE in D'. pose proof (ok_sad g W) as O. pose proof (ok_sad g' W') as O'.
  assert (CS : canonical_shape (fst (effect calls))).
  { unfold effect. cbn [fst]. unfold canonical_shape. destruct (reversals calls) as [|[|k]].
    - destruct C as [C|[C _]]; [lia|discriminate].
    - destruct C as [C|[_ C]]; [lia|]. rewrite C. auto.
    - unfold shape_of. destruct (Nat.even (S (S k))); auto. }
  destruct (effect calls) as [s n] eqn:ES. cbn [fst] in CS.
  rewrite same_words_accepts by auto. split.
  - intros <- w. pose proof (form_ok (s, n) _ O) as F. pose proof (form_ok (s, n) _ O') as F'.
    assert (Q : form (s, n) (with_sad g []) = form (s, n) (with_sad g' [])).
    { rewrite <- (sad_ok _ F), <- (sad_ok _ F'). apply (dump_run _ _ out); auto; try apply F; try apply F'.
      - pose proof (dump_length _ out D). unfold int_max. lia.
      - pose proof (dump_length _ out D'). unfold int_max. lia. }
    rewrite !verdict_accepts by auto. f_equal.
    pose proof (form_verdict s n _ (match s with Reversed | MinimalReversed => rev w | _ => w end) O) as V1.
    pose proof (form_verdict s n _ (match s with Reversed | MinimalReversed => rev w | _ => w end) O') as V2.
    rewrite <- Q, V1 in V2.
    replace (match s with Reversed | MinimalReversed => rev (match s with Reversed | MinimalReversed => rev w | _ => w end)
                        | _ => match s with Reversed | MinimalReversed => rev w | _ => w end end) with w in V2
      by (destruct s; rewrite ?rev_involutive; reflexivity).
    change (verdict (with_sad g []) w) with (verdict g w) in V2. change (verdict (with_sad g' []) w) with (verdict g' w) in V2.
    destruct n, (verdict g w), (verdict g' w); cbn [xorb negb] in V2; congruence.
  - intros H. rewrite (form_same s n (with_sad g []) (with_sad g' [])) in D; auto; [congruence|].
    intros w. specialize (H w). rewrite !verdict_accepts in H by auto. injection H as H. exact H.
Qed.
End Program.

(** * The effect is all there is: pipelines with different effects print different texts for some
    specification, in fact for this one (the words 0, 01, 011, ...; a useless state and two states that can
    be merged). *)
Definition pipe_spec : text := txt
  ("0" ++ tab ++ "0" ++ tab ++ "0" ++ nl ++ ">1" ++ tab ++ "2" ++ tab ++ "0" ++ nl ++
   "2*" ++ tab ++ "0" ++ tab ++ "3" ++ nl ++ "3*" ++ tab ++ "0" ++ tab ++ "2" ++ nl ++
   "4*" ++ tab ++ "1" ++ tab ++ "3" ++ nl).
Definition pipe_graph : Graph := match from_istream pipe_spec with Ok g => g | Fail _ => mkGraph [] [] [] [] [] [] 0 end.

Lemma pipe_reads : from_istream pipe_spec = Ok pipe_graph /\ ok pipe_graph.
Proof.
  assert (R : from_istream pipe_spec = Ok pipe_graph) by (vm_compute; reflexivity). split; auto. split; [|vm_compute; reflexivity].
  eapply (reads_wf pipe_spec); [exact R|apply Nat.ltb_lt; vm_compute; reflexivity|vm_compute; reflexivity..].
Qed.

Definition form_text (e : shape * bool) : text := match dump (form e pipe_graph) with Ok t => t | Fail _ => [] end.
Lemma form_text_dump e : dump (form e pipe_graph) = Ok (form_text e) /\ (N.of_nat (List.length (form_text e)) <= 2 ^ 31)%N.
Proof. destruct e as [[] []]; (split; [vm_compute; reflexivity|apply N.leb_le; vm_compute; reflexivity]). Qed.

Definition effect_dec (e e' : shape * bool) : {e = e'} + {e <> e'}.
Proof. repeat decide equality. Defined.
Definition all_effects : list (shape * bool) :=
  flat_map (fun s => [(s, false); (s, true)]) [AsIs; Minimal; Reversed; MinimalReversed; TwiceReversed].
Definition text_dec := list_eq_dec ascii_dec.
Lemma form_text_inj e e' : form_text e = form_text e' -> e = e'.
Proof.
  assert (X : forallb (fun e => forallb (fun e' => if effect_dec e e' then true else if text_dec (form_text e) (form_text e') then false else true)
                all_effects) all_effects = true) by (vm_compute; reflexivity).
  assert (A : forall e, In e all_effects) by (intros [[] []]; vm_compute; tauto).
  rewrite forallb_forall in X. specialize (X e (A e)). rewrite forallb_forall in X. specialize (X e' (A e')).
  intros H. destruct (effect_dec e e'); auto. destruct (text_dec (form_text e) (form_text e')); [discriminate|contradiction].
Qed.

Section Exact.
Context (T : tfhe) (Y : crypto T) (spot : spot_lib).
Context (f : fs) (coin : nat).

(** Every pipeline runs on that specification. *)
Lemma pipe_runs calls : calls <> [] -> piped T Y spot f coin calls pipe_spec (form_text (effect calls)).
Proof.
  destruct pipe_reads as (R & O).
  assert (G : forall calls before t, calls <> [] -> from_istream t = Ok (form (effect before) pipe_graph) ->
                piped T Y spot f coin calls t (form_text (effect (before ++ calls)))).
  { clear calls. induction calls as [|c calls IH]; intros before t NE E; [congruence|].
    assert (OF : ok (form (effect before) pipe_graph)) by (apply form_ok; exact O).
    assert (Q : perform (form (effect before) pipe_graph) c = form (effect (before ++ [c])) pipe_graph).
    { rewrite <- !pipeline_form by exact O. rewrite fold_left_app. reflexivity. }
    assert (P : spec2spec_with T Y spot f coin (minimizing c) (reversing c) (negating c) t = Ok (Prints (form_text (effect (before ++ [c]))))).
    { rewrite spec2spec_with_eq, (call_text t _ _ _ _ E (proj1 OF)), (sad_ok _ OF).
      replace (mkCall _ _ _) with c by (destruct c; reflexivity). rewrite Q, (proj1 (form_text_dump _)). reflexivity. }
    destruct calls as [|c' calls]; [constructor; exact P|].
    eapply piped_on; [exact P|apply form_text_dump|]. replace (before ++ c :: c' :: calls) with ((before ++ [c]) ++ c' :: calls) by (rewrite <- app_assoc; reflexivity).
    apply IH; [discriminate|].
    assert (OQ : ok (form (effect (before ++ [c])) pipe_graph)) by (apply form_ok; exact O).
    destruct (form_text_dump (effect (before ++ [c]))) as (D & L).
    rewrite <- (sad_ok _ OQ). apply dump_round_trip; [apply OQ| |exact D]. pose proof (dump_length _ _ D). unfold int_max. lia. }
  intros NE. apply (G calls [] pipe_spec NE). exact R.
Qed.

Theorem C73_exact calls calls' : calls <> [] -> calls' <> [] ->
  ((forall spec g out out', from_istream spec = Ok g -> wf_graph g ->
      piped T Y spot f coin calls spec out -> piped T Y spot f coin calls' spec out' -> out = out') <->
   effect calls = effect calls').
Proof.
  intros NE NE'. split.
  - intros H. destruct pipe_reads as (R & (W & _)). apply form_text_inj.
    apply (H pipe_spec pipe_graph _ _ R W); apply pipe_runs; auto.
  - intros EE spec g out out' E W P P'. eapply (C73_same T Y spot f coin calls calls' spec g); eauto.
Qed.

(** Four calls that amount to `spec2spec --minimized --reversed`. *)
Definition four_calls : list call :=
  [mkCall false true true; mkCall false true false; mkCall false false true; mkCall false true false].
Example C73_nonvacuous : exists g out,
  from_istream pipe_spec = Ok g /\ wf_graph g /\ size g = 5 /\
  piped T Y spot f coin four_calls pipe_spec out /\ piped T Y spot f coin [mkCall true true false] pipe_spec out /\
  effect four_calls = effect [mkCall true true false] /\ (N.of_nat (List.length out) <= 2 ^ 31)%N /\
  out = txt (">0" ++ tab ++ "1" ++ tab ++ "0" ++ nl ++ "1*" ++ tab ++ "2" ++ tab ++ "2" ++ nl ++ "2" ++ tab ++ "2" ++ tab ++ "2" ++ nl) /\
  (* without --minimized, or with one --reversed less, another text comes out *)
  (exists other, piped T Y spot f coin [mkCall false true false] pipe_spec other /\ other <> out) /\
  (exists other, piped T Y spot f coin [mkCall false true false; mkCall false true false] pipe_spec other /\ other <> out).
Proof.
  destruct pipe_reads as (R & (W & _)). exists pipe_graph, (form_text (MinimalReversed, false)). split; auto. split; auto.
  split; [vm_compute; reflexivity|].
  split; [apply (pipe_runs four_calls); discriminate|]. split; [apply (pipe_runs [mkCall true true false]); discriminate|].
  split; [reflexivity|]. split; [apply form_text_dump|]. split; [vm_compute; reflexivity|].
  split; eexists; (split; [apply pipe_runs; discriminate|vm_compute; discriminate]).
Qed.

(** Two different specifications with the same words. *)
Definition pipe_spec' : text := txt
  (">0" ++ tab ++ "1" ++ tab ++ "2" ++ nl ++ "1*" ++ tab ++ "2" ++ tab ++ "1" ++ nl ++ "2" ++ tab ++ "2" ++ tab ++ "2" ++ nl).
Example C73_canonical_nonvacuous : exists g g' out,
  from_istream pipe_spec = Ok g /\ wf_graph g /\ from_istream pipe_spec' = Ok g' /\ wf_graph g' /\ size g = 5 /\ size g' = 3 /\
  piped T Y spot f coin four_calls pipe_spec out /\ piped T Y spot f coin [mkCall true true false] pipe_spec' out /\
  effect four_calls = effect [mkCall true true false] /\ 2 <= reversals four_calls /\
  (N.of_nat (List.length out) <= 2 ^ 31)%N /\ same_words g g'.
Proof.
  destruct pipe_reads as (R & (W & _)).
  assert (R' : exists g, from_istream pipe_spec' = Ok g /\ wf_graph g /\ size g = 3).
  { eexists. split; [vm_compute; reflexivity|]. split; [|reflexivity].
    eapply (reads_wf pipe_spec'); [vm_compute; reflexivity|cbn; lia|reflexivity|reflexivity|vm_compute; reflexivity]. }
  destruct R' as (g' & R' & W' & S').
  assert (P' : piped T Y spot f coin [mkCall true true false] pipe_spec' (form_text (MinimalReversed, false))).
  { constructor. rewrite spec2spec_with_eq. vm_compute. reflexivity. }
  assert (P : piped T Y spot f coin four_calls pipe_spec (form_text (MinimalReversed, false))) by (apply (pipe_runs four_calls); discriminate).
  assert (L : (N.of_nat (List.length (form_text (MinimalReversed, false))) <= 2 ^ 31)%N) by apply form_text_dump.
  exists pipe_graph, g', (form_text (MinimalReversed, false)). do 4 (split; [assumption|]). split; [vm_compute; reflexivity|].
  do 3 (split; [assumption|]). split; [reflexivity|]. split; [vm_compute; lia|]. split; [assumption|].
  apply (C73_canonical T Y spot f coin four_calls [mkCall true true false] pipe_spec pipe_graph _ pipe_spec' g' _ R W R' W' P P'); auto.
  vm_compute. lia.
Qed.
End Exact.

Print Assumptions C73_same.
Print Assumptions C73_short.
Print Assumptions C73_total.
Print Assumptions C73_words.
Print Assumptions C73_canonical.
Print Assumptions C73_exact.
