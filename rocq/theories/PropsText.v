(** Property theorems C09 and C14-C19: text formats, converters, construction histories.
    The declarative formats are in TextSpec.v. *)
From Coq Require Import String.
From Coq Require Import List Arith Bool NArith ZArith Ascii Lia.
Import ListNotations.
From Verif Require Import Base BaseFacts GraphModel Spec GraphFacts FromNfa GraphOps Quotient
  TextModel TextSpec TextFacts TextClaims AttFacts CliModel CliFacts PropsGraph.
Local Open Scope list_scope.

(** Texts for the examples. *)
Definition txt (s : string) : list ascii := list_ascii_of_string s.
Definition nl : string := String "010" "".
Definition tab : string := String "009" "".

(** test/06.spec (nondeterministic, two initial states, an empty list). *)
Definition ex_spec : list ascii :=
  txt ("0*  2   0" ++ nl ++ ">1  0   1,2" ++ nl ++ ">2  1   _" ++ nl).
(** test/02.spec *)
Definition ex_spec2 : list ascii :=
  txt (">0  1   0" ++ nl ++ "1*  2   1" ++ nl ++ "2*  0   1" ++ nl).

(** test0.cpp:55-70 lists the expected dump of test/06.spec: the model prints the same. *)
Example model_dump_06 : (do g <- from_istream ex_spec; dump g) = Ok (txt
  (">0" ++ tab ++ "1" ++ tab ++ "0" ++ nl ++ "1*" ++ tab ++ "2" ++ tab ++ "3" ++ nl ++
   "2*" ++ tab ++ "0" ++ tab ++ "4" ++ nl ++ "3*" ++ tab ++ "3" ++ tab ++ "3" ++ nl ++
   "4*" ++ tab ++ "5" ++ tab ++ "4" ++ nl ++ "5" ++ tab ++ "6" ++ tab ++ "7" ++ nl ++
   "6" ++ tab ++ "4" ++ tab ++ "0" ++ nl ++ "7" ++ tab ++ "7" ++ tab ++ "7" ++ nl)).
Proof. vm_compute. reflexivity. Qed.

(** * C14: reading back what dump printed gives the same graph (states_at_depth_ is a cache
    that a fresh graph does not have).  The bound is the range of the C++ state type. *)
Theorem C14_dump_round_trip g : wf_graph g -> (N.of_nat (size g) <= 2 ^ 31)%N ->
  exists t g', dump g = Ok t /\ from_istream t = Ok g' /\
    size g' = size g /\ initial_state g' = initial_state g /\
    (forall q b, next_state g' q b = next_state g q b) /\
    (forall q, is_final_state g' q = is_final_state g q) /\
    (forall q b, prev_states g' q b = prev_states g q b) /\
    (forall w, accepts g' w = accepts g w).
Proof.
  intros W HB. destruct (dump_ok g W) as (t & E). exists t, (with_sad g []).
  split; auto. split; [apply dump_round_trip; auto|].
  repeat split; reflexivity.
Qed.
Example C14_nonvacuous : wf_graph ex_dfa /\ (N.of_nat (size ex_dfa) <= 2 ^ 31)%N.
Proof. split; [exact ex_dfa_wf|vm_compute; discriminate]. Qed.

(** * C15: a specification file denotes the automaton written in it.
    [rows_of 0 ls rows]: the lines of the file that have the documented row format describe
    [rows]; all other lines are ignored. *)
Theorem C15_from_istream_language t ls g :
  lines_of t ls -> from_istream t = Ok g ->
  exists rows, rows_of 0 ls rows /\
    (rows <> [] ->
       wf_graph g /\
       dfa_decides g (nfa_accepts (inits_of rows) (finals_of rows) (table_of rows)) /\
       (deterministic rows -> size g = length rows /\ inits_of rows = [initial_state g])).
Proof.
  intros HL E. apply (from_istream_build t ls g HL) in E as (rows & HR & HB).
  exists rows. split; auto. intros N. apply build_language; auto.
Qed.

(** Every text has lines, so the previous theorem applies to every byte sequence. *)
Theorem C15_every_text_has_lines t : exists ls, lines_of t ls /\ forall ls', lines_of t ls' -> ls' = ls.
Proof.
  exists (getlines c_nl [] t). split; [apply lines_of_getlines|].
  intros ls' H. symmetry. apply lines_of_unique; auto.
Qed.

(** Exactly which files are accepted. *)
Theorem C15_from_istream_accepts_iff t ls :
  lines_of t ls ->
  ((exists g, from_istream t = Ok g) <->
   exists rows, rows_of 0 ls rows /\
     ((deterministic rows /\ closed_table rows) \/
      (~ deterministic rows /\ nfa_no_dangling (inits_of rows) (table_of rows)))).
Proof.
  intros HL. split.
  - intros (g & E). apply (from_istream_build t ls g HL) in E as (rows & HR & HB).
    exists rows. split; auto. apply (proj1 (build_ok_iff rows)). eauto.
  - intros (rows & HR & H). apply (proj1 (build_ok_iff rows)) in H as (g & E).
    exists g. apply (from_istream_build t ls g HL). eauto.
Qed.

(** A file without any row line gives a graph without states, on which every run throws. *)
Theorem C15_empty_specification t ls :
  lines_of t ls -> (forall l, In l ls -> ~ is_row l) ->
  exists g, from_istream t = Ok g /\ size g = 0 /\ forall w, accepts g w = Fail FOutOfRange.
Proof.
  intros HL H.
  assert (R : rows_of 0 ls []).
  { clear HL. generalize 0. induction ls as [|l ls IH]; intros i; [constructor|].
    apply rows_skip; [apply H; cbn; auto|]. apply IH. intros; apply H; cbn; auto. }
  exists (graph_of 0 [] []). split; [apply (from_istream_build t ls _ HL); exists []; split; auto|].
  split; [reflexivity|]. intros [|b w]; reflexivity.
Qed.

Example C15_nonvacuous : exists ls rows, lines_of ex_spec ls /\ rows_of 0 ls rows /\
  rows = [(false, true, [2], [0]); (true, false, [0], [1; 2]); (true, false, [1], [])] /\
  (exists g, from_istream ex_spec = Ok g /\ size g = 8).
Proof.
  exists (getlines c_nl [] ex_spec),
    [(false, true, [2], [0]); (true, false, [0], [1; 2]); (true, false, [1], [])].
  split; [apply lines_of_getlines|]. split; [|split; [reflexivity|]].
  - eapply rows_of_step with (m := mkRow false (txt "0") true (txt "2") (txt "0")); try reflexivity.
    eapply rows_of_step with (m := mkRow true (txt "1") false (txt "0") (txt "1,2")); try reflexivity.
    eapply rows_of_step with (m := mkRow true (txt "2") false (txt "1") (txt "_")); try reflexivity.
    constructor.
  - eexists. split; [vm_compute; reflexivity|reflexivity].
Qed.

(** * C16: malformed row lines are rejected.  If a graph is returned, then every row line
    carries the number of its position, and its two target lists are comma-separated numbers
    that fit an int. *)
Theorem C16_row_lines_checked t ls pre l post i n f f0 f1 g :
  lines_of t ls -> ls = pre ++ l :: post -> row_format l i n f f0 f1 ->
  from_istream t = Ok g ->
  exists rows q0s q1s, rows_of 0 pre rows /\
    int_number n (length rows) /\ targets f0 q0s /\ targets f1 q1s.
Proof.
  intros HL -> R E. apply (from_istream_build t _ g HL) in E as (rows & HR & _).
  clear HL. change 0 with (length (@nil (bool * bool * list nat * list nat))).
  assert (G : forall k all, rows_of k (pre ++ l :: post) all ->
    exists rows q0s q1s, rows_of k pre rows /\ int_number n (k + length rows) /\
      targets f0 q0s /\ targets f1 q1s).
  { clear HR. induction pre as [|p pre IH]; intros k all H; cbn [app] in H.
    - inversion H as [|? ? ? ? NR _|? ? ? ? ? ? ? ? ? ? ? R2 N2 T0 T1 _]; subst.
      + exfalso. apply NR. unfold is_row. eauto 10.
      + apply match_row_iff in R, R2. rewrite R in R2. injection R2 as <- <- <- <- <-.
        exists [], q0s, q1s. rewrite Nat.add_0_r. split; [constructor|auto].
    - inversion H as [|? ? ? ? NR H2|? ? ? ? ? ? ? ? ? ? ? R2 N2 T0 T1 H2]; subst.
      + destruct (IH _ _ H2) as (rows' & a & b & A & B & C & D). exists rows', a, b.
        split; auto. apply rows_skip; auto.
      + destruct (IH _ _ H2) as (rows' & a & b & A & B & C & D).
        exists ((init, final, q0s, q1s) :: rows'), a, b. split; [eapply rows_row; eauto|].
        split; auto. cbn [length]. rewrite Nat.add_succ_r. exact B. }
  apply (G 0 rows HR).
Qed.

(** A deterministic table with a transition to a missing row is rejected. *)
Theorem C16_missing_row_rejected t ls rows :
  lines_of t ls -> rows_of 0 ls rows -> deterministic rows -> ~ closed_table rows ->
  forall g, from_istream t <> Ok g.
Proof.
  intros HL HR D NC g E. apply (from_istream_build t ls g HL) in E as (rows' & HR' & HB).
  rewrite (rows_of_fun _ _ _ HR' _ HR) in HB.
  destruct (proj1 (proj1 (build_ok_iff rows)) (ex_intro _ g HB)) as [[_ C]|[N _]]; auto.
Qed.

(** The only ways to fail are error_die and std::out_of_range: no undefined behaviour, no
    assertion failure, no divergence. *)
Theorem C16_failure_modes t f : from_istream t = Fail f -> f = FExit \/ f = FOutOfRange.
Proof.
  intros H.
  destruct (foldM parse_line (getlines c_nl [] t) (st_of [])) as [s|f'] eqn:E.
  - apply (parse_lines _ []) in E as (rows & HR & HS).
    destruct (build rows) as [g|f'] eqn:EB.
    + assert (from_istream t = Ok g); [|congruence].
      apply (from_istream_build t _ g (lines_of_getlines t)). eauto.
    + pose proof (proj2 (build_ok_iff rows) f' EB) as ->. right.
      pose proof (from_istream_fail t _ rows (lines_of_getlines t) HR) as G. rewrite EB in G. congruence.
  - unfold from_istream in H. change (mkParse [] [] [] true) with (st_of []) in H. rewrite E in H.
    cbn in H. injection H as <-. eapply parse_lines_fail; eauto.
Qed.
Example C16_nonvacuous :
  (exists g, from_istream (txt (">0 1 0" ++ nl ++ "1* 0 1,1," ++ nl)) = Ok g) /\
  from_istream (txt (">0 1 0" ++ nl ++ "2* 0 1" ++ nl)) = Fail FExit /\          (* wrong number *)
  from_istream (txt (">0 1,,0 0" ++ nl ++ "1* 0 1" ++ nl)) = Fail FExit /\       (* empty item *)
  from_istream (txt (">0 99999999999 0" ++ nl)) = Fail FOutOfRange /\            (* beyond int *)
  from_istream (txt (">0 1 0" ++ nl ++ "1* 0 2" ++ nl)) = Fail FOutOfRange.      (* missing row *)
Proof. split; [eexists|repeat split]; vm_compute; reflexivity. Qed.

(** * C17: AT&T round trip.  The full claim
      forall g, wf_graph g -> the automaton read back has the language of g
    is false: the format has no way to say which state is initial, and the reader always starts
    in state 0.  What holds for every graph is that the automaton read back has the language of
    g started in state 0; this is the language of g exactly when g starts there. *)
Theorem C17_att_round_trip_from_zero g : wf_graph g -> (N.of_nat (size g) <= 2 ^ 31)%N ->
  exists t g', dump_att g = Ok t /\ from_att_istream t = Ok g' /\ wf_graph g' /\
    forall w, accepts g' w = bind (run_from g 0 w) (is_final_state g).
Proof.
  intros W HB. pose proof (dump_att_lines g W) as E. eexists.
  destruct (dump_att_round_trip g _ W HB E) as (g' & A & B & C). exists g'. eauto.
Qed.

Theorem C17_att_round_trip_partial g : wf_graph g -> (N.of_nat (size g) <= 2 ^ 31)%N ->
  initial_state g = 0 ->
  exists t g', dump_att g = Ok t /\ from_att_istream t = Ok g' /\ wf_graph g' /\
    forall w, accepts g' w = accepts g w.
Proof.
  intros W HB H0. destruct (C17_att_round_trip_from_zero g W HB) as (t & g' & A & B & C & D).
  exists t, g'. split; auto. split; auto. split; auto. intros w. rewrite D. unfold accepts. rewrite H0.
  reflexivity.
Qed.

(** The command pair loses the initial state: spec2att | att2spec on test/03.spec. *)
Theorem C17_att_round_trip_refuted :
  exists spec att spec' g g' w,
    do_spec2att spec = Ok att /\ do_att2spec att = Ok spec' /\
    from_istream spec = Ok g /\ wf_graph g /\ from_istream spec' = Ok g' /\
    accepts g w = Ok false /\ accepts g' w = Ok true.
Proof.
  exists (txt ("0*   1   0" ++ nl ++ ">1   0   1" ++ nl)).
  eexists. eexists. eexists. eexists. exists [].
  split; [vm_compute; reflexivity|]. split; [vm_compute; reflexivity|].
  split; [vm_compute; reflexivity|]. split.
  - apply (graph_of_wf 1 [0] [(0, 1, 0); (1, 0, 1)]).
    + intros r [<-|[<-|[]]] [|]; cbn; lia.
    + cbn; intuition lia.
    + intros q l a b. destruct q as [|[|[|q]]]; cbn; congruence.
    + cbn; lia.
    + cbn; auto.
  - split; [vm_compute; reflexivity|]. split; vm_compute; reflexivity.
Qed.
Example C17_nonvacuous : exists g, from_istream ex_spec2 = Ok g /\ initial_state g = 0 /\ size g = 3.
Proof. eexists. split; [vm_compute; reflexivity|split; reflexivity]. Qed.

(** * C18: AT&T files denote the automaton written in them. *)
(** Whatever is returned accepts exactly the language of the lines. *)
Theorem C18_att_language t ls g :
  lines_of t ls -> from_att_istream t = Ok g ->
  exists items, Forall2 att_denotes ls items /\ wf_graph g /\ dfa_decides g (att_accepts items).
Proof.
  intros HL E. destruct (from_att_spec t ls HL) as (A & _). destruct (A g E) as (items & H1 & _ & H2 & H3).
  eauto.
Qed.

(** A line of any other shape makes the reader fail. *)
Theorem C18_att_bad_line t ls l :
  lines_of t ls -> In l ls -> (forall it, ~ att_denotes l it) -> forall g, from_att_istream t <> Ok g.
Proof.
  intros HL HI HN g E. destruct (from_att_spec t ls HL) as (A & _). destruct (A g E) as (items & H1 & _).
  apply In_nth_error in HI as (i & Hi).
  destruct (nth_error items i) as [it|] eqn:Ei.
  - apply Forall2_nth in H1 as [_ H]. apply (HN it). eauto.
  - apply nth_error_None in Ei. apply Forall2_nth in H1 as [H1 _].
    assert (i < length ls) by (eapply nth_error_lt; eauto). lia.
Qed.

(** Well-formed files are read as long as no state that can be reached from 0 has a number
    larger than every state with an outgoing transition. *)
Theorem C18_att_accepted_partial t ls items :
  lines_of t ls -> Forall2 att_denotes ls items ->
  (forall w q, att_path items 0 w q -> exists f q' b, In (AEdge f q' b) items /\ q <= f) ->
  exists g, from_att_istream t = Ok g /\ dfa_decides g (att_accepts items).
Proof.
  intros HL HF C. destruct (from_att_spec t ls HL) as (A & B & _). destruct (B items HF C) as (g & E).
  destruct (A g E) as (items' & H1 & _ & _ & D). rewrite (att_denotes_fun _ _ H1 _ HF) in D. eauto.
Qed.

(** ... and that condition is exact: of files whose lines are all well formed, precisely those
    meeting it are read, and every other one ends in the same out_of_range exception. *)
Theorem C18_att_accepted_exactly t ls items :
  lines_of t ls -> Forall2 att_denotes ls items ->
  ((exists g, from_att_istream t = Ok g) <->
   (forall w q, att_path items 0 w q -> exists f q' b, In (AEdge f q' b) items /\ q <= f)) /\
  (forall w q, att_path items 0 w q -> (forall f q' b, In (AEdge f q' b) items -> f < q) ->
     from_att_istream t = Fail FOutOfRange).
Proof.
  intros HL HF. destruct (from_att_spec t ls HL) as (A & B & C). split; [split|].
  - intros (g & E). destruct (A g E) as (items' & H1 & H2 & _).
    rewrite (att_denotes_fun _ _ H1 _ HF) in H2. exact H2.
  - exact (B items HF).
  - intros w q P H. apply (C items HF). intros K. destruct (K w q P) as (f & q' & b & Hin & L).
    specialize (H f q' b Hin). lia.
Qed.

(** Without that condition the reader throws although every line is well formed: an accepting
    sink without outgoing transitions, here the automaton of the single word 0. *)
Theorem C18_att_accepted_refuted : exists t ls items,
  lines_of t ls /\ Forall2 att_denotes ls items /\ att_accepts items [false] /\
  from_att_istream t = Fail FOutOfRange.
Proof.
  exists (txt ("0" ++ tab ++ "1" ++ tab ++ "0" ++ nl ++ "1" ++ nl)).
  exists [txt ("0" ++ tab ++ "1" ++ tab ++ "0"); txt "1"], [AEdge 0 1 false; AFinal 1].
  assert (D0 : int_number (txt "0") 0) by (exists 0%N; split; [apply (dec_one "0"%char); cbn; auto|split; [discriminate|reflexivity]]).
  assert (D1 : int_number (txt "1") 1) by (exists 1%N; split; [apply (dec_one "1"%char); cbn; auto|split; [discriminate|reflexivity]]).
  split; [|split; [|split]].
  - exact (lines_of_getlines (txt ("0" ++ tab ++ "1" ++ tab ++ "0" ++ nl ++ "1" ++ nl))).
  - constructor; [exact (att_edge0 (txt "0") (txt "1") 0 1 D0 D1)|].
    constructor; [exact (att_final (txt "1") 1 D1)|constructor].
  - exists 1. split; [|cbn; auto]. econstructor; [cbn; auto|constructor].
  - vm_compute. reflexivity.
Qed.
Example C18_nonvacuous : exists g,
  from_att_istream (txt ("0" ++ tab ++ "1" ++ tab ++ "0" ++ nl ++ "1" ++ tab ++ "0" ++ tab ++ "1" ++ nl ++ "1" ++ nl)) = Ok g
  /\ size g = 3.
Proof. eexists. split; [vm_compute; reflexivity|reflexivity]. Qed.

(** * C09: every combination of the spec2spec options.  --negated applies first, then --reversed. *)
Theorem C09_spec2spec spec g opt_min opt_rev opt_neg :
  from_istream spec = Ok g -> wf_graph g ->
  exists out g',
    do_spec2spec spec opt_min opt_rev opt_neg = Ok out /\
    (* what is printed is a well-formed graph with the announced language ... *)
    dump g' = Ok out /\ wf_graph g' /\
    (forall w, exists b, accepts g (if opt_rev then rev w else w) = Ok b /\
                         accepts g' w = Ok (if opt_neg then negb b else b)) /\
    (* ... and reading it back gives that language again *)
    ((N.of_nat (size g') <= 2 ^ 31)%N ->
       exists g2, from_istream out = Ok g2 /\ forall w, accepts g2 w = accepts g' w).
Proof.
  intros E W. destruct (spec2spec_language spec g opt_min opt_rev opt_neg E W)
    as (t & g' & A & B & C & D & F).
  exists t, g'. split; auto. split; auto. split; auto. split; auto.
  intros HB. eexists. split; [apply F, HB|]. reflexivity.
Qed.
(** The printed specification is at least as long as its number of states. *)
Lemma dump_row_length g q t : dump_row g q = Ok t -> 1 <= length t.
Proof.
  unfold dump_row. intros H. apply bind_ok in H as (a & _ & H). apply bind_ok in H as (b & _ & H).
  apply bind_ok in H as (c & _ & [= <-]). rewrite !app_length. cbn [length]. lia.
Qed.
Lemma dump_length g t : dump g = Ok t -> size g <= length t.
Proof.
  unfold dump. intros H. apply bind_ok in H as (rows & H & [= <-]).
  assert (L : length (all_states g) = size g) by (unfold all_states; apply seq_length). rewrite <- L.
  clear L. revert rows H. induction (all_states g) as [|q l IH]; intros rows H; cbn [mapM] in H.
  - injection H as <-. cbn. lia.
  - apply bind_ok in H as (r & ER & H). apply bind_ok in H as (rs & ES & [= <-]). cbn [concat length]. rewrite app_length.
    specialize (IH _ ES). pose proof (dump_row_length _ _ _ ER). lia.
Qed.
(** With --minimized no automaton with the language of what is printed is smaller. *)
Theorem C09_minimal spec g opt_rev opt_neg out g' :
  from_istream spec = Ok g -> wf_graph g ->
  do_spec2spec spec true opt_rev opt_neg = Ok out -> from_istream out = Ok g' ->
  (N.of_nat (length out) <= 2 ^ 31)%N ->
  forall h, wf_graph h -> (forall w, accepts h w = accepts g' w) -> size g' <= size h.
Proof.
  intros E W D R L h Wh A. unfold do_spec2spec in D. rewrite E in D. cbn [bind] in D.
  apply bind_ok in D as (g1 & E1 & D). apply bind_ok in D as (g2 & E2 & D). apply bind_ok in D as (m & Em & D).
  assert (W1 : wf_graph g1).
  { destruct opt_neg; [|congruence]. destruct (negated_correct g W) as (x & Ex & Wx & _). congruence. }
  assert (W2 : wf_graph g2).
  { destruct opt_rev; [|congruence]. destruct (reversed_correct g1 W1) as (x & Ex & Wx & _). congruence. }
  destruct (minimized_correct g2 W2) as (m' & Em' & Wm & Am & Rm & Dm). rewrite Em in Em'. injection Em' as <-.
  assert (S : (N.of_nat (size m) <= 2 ^ 31)%N).
  { pose proof (dump_length m out D). lia. }
  destruct (C14_dump_round_trip m Wm S) as (t & g'' & Et & Eg & Hs & _ & _ & _ & _ & Ag). rewrite D in Et. injection Et as <-.
  rewrite R in Eg. injection Eg as <-. rewrite Hs. apply minimal; auto. intros w. rewrite A, Ag. reflexivity.
Qed.
Example C09_nonvacuous : exists g out, from_istream ex_spec = Ok g /\ wf_graph g /\
  do_spec2spec ex_spec true true true = Ok out.
Proof.
  assert (E : exists g, from_istream ex_spec = Ok g) by (eexists; vm_compute; reflexivity).
  destruct E as (g & E). exists g.
  destruct C15_nonvacuous as (ls & rows & HL & HR & Erows & _).
  pose proof E as E1. apply (from_istream_build ex_spec ls g HL) in E1 as (rows' & HR' & HB).
  rewrite (rows_of_fun _ _ _ HR' _ HR) in HB.
  destruct (build_language rows g ltac:(rewrite Erows; discriminate) HB) as (W & _).
  destruct (spec2spec_language ex_spec g true true true E W) as (t & _ & A & _).
  exists t. auto.
Qed.

(** * C19: whatever sequence of constructors, factories and transformations produced it, a
    graph has no dangling transition: from every valid state every run succeeds, stays in the
    graph and ends in a state whose finality can be queried. *)
Theorem C19_no_dangling g : built g ->
  forall q w, q < size g ->
  exists q', run_from g q w = Ok q' /\ q' < size g /\ exists b, is_final_state g q' = Ok b.
Proof. intros B q w Hq. apply closed_run; auto. apply built_closed; auto. Qed.

(** All well-formed graphs are among them, and so is everything read from a text. *)
Theorem C19_transformations_keep_wf g :
  wf_graph g ->
  (exists g', reversed g = Ok g' /\ wf_graph g') /\
  (exists g', minimized g = Ok g' /\ wf_graph g') /\
  (exists g', removed_unreachable g = Ok g' /\ wf_graph g') /\
  (exists g', grouped_nondistinguishable g = Ok g' /\ wf_graph g') /\
  (exists g', negated g = Ok g' /\ wf_graph g') /\
  (forall d, exists g', reserve_states_at_depth g d = Ok g' /\ wf_graph g').
Proof.
  intros W. split; [|split; [|split; [|split; [|split]]]].
  - destruct (reversed_correct g W) as (g' & A & B & _); eauto.
  - destruct (minimized_correct g W) as (g' & A & B & _); eauto.
  - destruct (removed_unreachable_claim g W) as (g' & A & B & _); eauto.
  - destruct (grouped_claim g W) as (g' & A & B & _); eauto.
  - destruct (negated_correct g W) as (g' & A & B & _); eauto.
  - intros d. destruct (states_at_depth_correct g d W) as (g' & A & B & _); eauto.
Qed.
Example C19_nonvacuous : exists g, from_istream ex_spec = Ok g /\ built g /\ 0 < size g.
Proof.
  destruct (from_istream ex_spec) as [g|] eqn:E; [|vm_compute in E; discriminate].
  exists g. split; auto. split; [eapply b_spec; eauto|].
  vm_compute in E. injection E as <-. cbn. lia.
Qed.

Print Assumptions C09_spec2spec.
Print Assumptions C14_dump_round_trip.
Print Assumptions C15_from_istream_language.
Print Assumptions C15_every_text_has_lines.
Print Assumptions C15_from_istream_accepts_iff.
Print Assumptions C15_empty_specification.
Print Assumptions C16_row_lines_checked.
Print Assumptions C16_missing_row_rejected.
Print Assumptions C16_failure_modes.
Print Assumptions C17_att_round_trip_from_zero.
Print Assumptions C17_att_round_trip_partial.
Print Assumptions C17_att_round_trip_refuted.
Print Assumptions C18_att_language.
Print Assumptions C18_att_bad_line.
Print Assumptions C18_att_accepted_partial.
Print Assumptions C18_att_accepted_exactly.
Print Assumptions C18_att_accepted_refuted.
Print Assumptions C19_no_dangling.
Print Assumptions C19_transformations_keep_wf.
