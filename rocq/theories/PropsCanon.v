(** Property theorems C63: reversing twice prints a canonical form.  Two specifications accept the
    same words exactly when `spec2spec --reversed | spec2spec --reversed` prints the same text. *)
From Coq Require Import String.
From Coq Require Import List Arith Bool NArith ZArith Ascii Lia.
Import ListNotations.
From Verif Require Import Base BaseFacts GraphModel Spec GraphFacts FromNfa GraphOps Minimize Quotient
  TextModel TextSpec TextFacts TextClaims AttFacts CliModel CliFacts PropsGraph PropsText
  DotModel TorusModel LtlModel StreamModel RunnerModel ClientModel CmdModel MainModel Canonical.
Local Open Scope list_scope.

(** [same_words g h]: the two automata accept the same words. *)
Definition same_words (g h : Graph) : Prop := forall w, dfa_accepts g w <-> dfa_accepts h w.

Lemma same_words_accepts g h : wf_graph g -> wf_graph h -> same_words g h <-> forall w, accepts g w = accepts h w.
Proof.
  intros W V. unfold same_words, dfa_accepts. split; intros H w; specialize (H w).
  - rewrite !accepts_run in * by auto. f_equal.
    destruct (fin g _), (fin h _); auto; [symmetry|]; [destruct H as [H _]|destruct H as [_ H]];
      specialize (H eq_refl); congruence.
  - rewrite H. tauto.
Qed.

(** * One reversal *)
Lemma reversed_numbered g g' : wf_graph g -> reversed g = Ok g' -> numbered g'.
Proof.
  intros W E. rewrite reversed_unfold in E by auto. eapply from_nfa_numbered; eauto.
  apply wf_graph_iff in W. tauto.
Qed.

(** Two automata with the same language, reversed twice, are the same automaton. *)
Lemma twice_same g h g1 h1 g2 h2 : wf_graph g -> wf_graph h -> (forall w, accepts g w = accepts h w) ->
  reversed g = Ok g1 -> reversed g1 = Ok g2 -> reversed h = Ok h1 -> reversed h1 = Ok h2 ->
  dump g2 = dump h2.
Proof.
  intros W V L Eg1 Eg2 Eh1 Eh2.
  destruct (reversed_correct g W) as (x & E & W1 & A1 & R1). rewrite Eg1 in E. injection E as <-.
  destruct (reversed_correct h V) as (x & E & V1 & B1 & S1). rewrite Eh1 in E. injection E as <-.
  destruct (reversed_correct g1 W1) as (x & E & W2 & A2 & R2). rewrite Eg2 in E. injection E as <-.
  destruct (reversed_correct h1 V1) as (x & E & V2 & B2 & S2). rewrite Eh2 in E. injection E as <-.
  assert (LL : forall w, accepts g2 w = accepts h2 w).
  { intros w. destruct (A1 w) as (b & X1 & X2). destruct (A2 (rev w)) as (b' & X3 & X4).
    destruct (B1 w) as (c & Y1 & Y2). destruct (B2 (rev w)) as (c' & Y3 & Y4).
    rewrite rev_involutive in X4, Y4. rewrite L in X1. congruence. }
  destruct (unique g2 h2 W2 V2 (reversed_numbered _ _ W1 Eg2) (reversed_numbered _ _ V1 Eh2) R2 S2
              (reversed_dist g1 g2 W1 R1 Eg2) (reversed_dist h1 h2 V1 S1 Eh2) LL) as (U1 & U2 & U3 & U4).
  apply dump_same; auto.
Qed.

Section Program.
Context (T : tfhe) (Y : crypto T) (spot : spot_lib).
Context (f : fs) (coin : nat).

(** `homfa spec2spec --reversed < spec` prints [out]. *)
Definition prints_reversed (spec out : text) : Prop :=
  main T Y spot f spec coin [lit "spec2spec"; lit "--reversed"] = Ok (Prints out).

Lemma prints_reversed_iff spec out :
  prints_reversed spec out <-> do_spec2spec spec false true false = Ok out.
Proof.
  unfold prints_reversed.
  assert (E : main T Y spot f spec coin [lit "spec2spec"; lit "--reversed"] =
              do t <- do_spec2spec spec false true false; Ok (Prints t)) by reflexivity.
  rewrite E. rewrite bind_ok. split.
  - intros (t & H & [= <-]). exact H.
  - intros H. exists out. auto.
Qed.

Lemma prints_reversed_graph spec g out : from_istream spec = Ok g -> wf_graph g -> prints_reversed spec out ->
  exists g', reversed g = Ok g' /\ wf_graph g' /\ dump g' = Ok out.
Proof.
  intros E W H. apply prints_reversed_iff in H. unfold do_spec2spec in H. rewrite E in H. cbn [bind] in H.
  destruct (reversed_correct g W) as (g' & E' & W' & _). rewrite E' in H. cbn [bind] in H. eauto.
Qed.

Lemma reversed_sad g : reversed (with_sad g []) = reversed g.
Proof. reflexivity. Qed.

(** Two passes on one specification. *)
Lemma two_passes spec g once twice : from_istream spec = Ok g -> wf_graph g ->
  prints_reversed spec once -> (N.of_nat (List.length once) <= 2 ^ 31)%N -> prints_reversed once twice ->
  exists g1 g2, reversed g = Ok g1 /\ wf_graph g1 /\ reversed g1 = Ok g2 /\ wf_graph g2 /\ dump g2 = Ok twice.
Proof.
  intros E W P1 L P2. destruct (prints_reversed_graph _ _ _ E W P1) as (g1 & E1 & W1 & D1).
  assert (R : from_istream once = Ok (with_sad g1 [])).
  { apply dump_round_trip; auto. pose proof (dump_length g1 once D1). unfold int_max. lia. }
  destruct (prints_reversed_graph once (with_sad g1 []) twice R) as (g2 & E2 & W2 & D2); auto.
  rewrite reversed_sad in E2. exists g1, g2. auto.
Qed.

(** * C63: the printed texts are equal exactly when the accepted words are. *)
Theorem C63_canonical spec g once twice spec' g' once' twice' :
  from_istream spec = Ok g -> wf_graph g -> from_istream spec' = Ok g' -> wf_graph g' ->
  prints_reversed spec once -> prints_reversed once twice ->
  prints_reversed spec' once' -> prints_reversed once' twice' ->
  (* state numbers are ints *)
  Forall (fun t => (N.of_nat (List.length t) <= 2 ^ 31)%N) [once; twice; once'; twice'] ->
  (twice = twice' <-> same_words g g').
Proof.
  intros E W E' W' P1 P2 P1' P2' HB.
  assert (B : forall t, In t [once; twice; once'; twice'] -> (N.of_nat (List.length t) <= 2 ^ 31)%N)
    by (apply Forall_forall; auto).
  destruct (two_passes _ _ _ _ E W P1 (B once ltac:(simpl; auto)) P2) as (g1 & g2 & R1 & W1 & R2 & W2 & D).
  destruct (two_passes _ _ _ _ E' W' P1' (B once' ltac:(simpl; auto)) P2') as (h1 & h2 & S1 & V1 & S2 & V2 & D').
  rewrite same_words_accepts by auto.
  assert (LG : forall g g1 g2, wf_graph g -> wf_graph g1 -> reversed g = Ok g1 -> reversed g1 = Ok g2 ->
             forall w, accepts g2 w = accepts g w).
  { clear. intros g g1 g2 W W1 E1 E2 w.
    destruct (reversed_correct g W) as (x & E & _ & A & _). rewrite E1 in E. injection E as <-.
    destruct (reversed_correct g1 W1) as (x & E & _ & A1 & _). rewrite E2 in E. injection E as <-.
    destruct (A w) as (b & X1 & X2). destruct (A1 (rev w)) as (c & X3 & X4). rewrite rev_involutive in X4. congruence. }
  split.
  - intros <- w.
    assert (S : (N.of_nat (size g2) <= int_max + 1)%N).
    { pose proof (dump_length g2 twice D). pose proof (B twice ltac:(simpl; auto)). unfold int_max. lia. }
    assert (S' : (N.of_nat (size h2) <= int_max + 1)%N).
    { pose proof (dump_length h2 twice D'). pose proof (B twice ltac:(simpl; auto)). unfold int_max. lia. }
    pose proof (dump_round_trip _ _ W2 S D) as Q1. pose proof (dump_round_trip _ _ V2 S' D') as Q2.
    rewrite Q1 in Q2. injection Q2 as Q2.
    rewrite <- (LG g g1 g2), <- (LG g' h1 h2) by auto.
    change (accepts (with_sad g2 []) w = accepts (with_sad h2 []) w).
    assert (Q : with_sad g2 [] = with_sad h2 []) by (unfold with_sad; congruence). rewrite Q. reflexivity.
  - intros L. pose proof (twice_same g g' g1 h1 g2 h2 W W' L R1 R2 S1 S2) as Q. congruence.
Qed.

(** Both passes succeed, the result accepts the words of the specification, and no automaton that
    accepts those words has fewer states: reversing twice also minimises. *)
Theorem C63_minimal spec g : from_istream spec = Ok g -> wf_graph g ->
  exists once, prints_reversed spec once /\
    ((N.of_nat (List.length once) <= 2 ^ 31)%N ->
     exists twice, prints_reversed once twice /\
       ((N.of_nat (List.length twice) <= 2 ^ 31)%N ->
        exists c, from_istream twice = Ok c /\ wf_graph c /\ same_words c g /\
          forall h, wf_graph h -> same_words h g -> size c <= size h)).
Proof.
  intros E W. destruct (reversed_correct g W) as (g1 & E1 & W1 & A1 & R1).
  destruct (dump_ok g1 W1) as (once & D1). exists once.
  assert (P1 : prints_reversed spec once).
  { apply prints_reversed_iff. unfold do_spec2spec. rewrite E. cbn [bind]. rewrite E1. exact D1. }
  split; auto. intros L1.
  assert (Q1 : from_istream once = Ok (with_sad g1 [])).
  { apply dump_round_trip; auto. pose proof (dump_length g1 once D1). unfold int_max. lia. }
  destruct (reversed_correct g1 W1) as (g2 & E2 & W2 & A2 & R2).
  destruct (dump_ok g2 W2) as (twice & D2). exists twice. split.
  { apply prints_reversed_iff. unfold do_spec2spec. rewrite Q1. cbn [bind]. rewrite reversed_sad, E2. exact D2. }
  intros L2.
  assert (Q2 : from_istream twice = Ok (with_sad g2 [])).
  { apply dump_round_trip; auto. pose proof (dump_length g2 twice D2). unfold int_max. lia. }
  exists (with_sad g2 []). split; auto. split; [exact W2|].
  assert (LG : forall w, accepts g2 w = accepts g w).
  { intros w. destruct (A1 w) as (b & X1 & X2). destruct (A2 (rev w)) as (c & X3 & X4).
    rewrite rev_involutive in X4. congruence. }
  split; [apply same_words_accepts; auto; exact LG|].
  intros h Wh SW. change (size g2 <= size h). apply minimal; auto.
  - intros p q Hp Hq N. apply api_dist_iff; auto. exact (reversed_dist g1 g2 W1 R1 E2 p q Hp Hq N).
  - rewrite same_words_accepts in SW by auto. intros w. rewrite LG, SW. reflexivity.
Qed.
End Program.

(** * Minimal automata are unique up to the names of their states.
    [renames r m k]: r maps the states of m one to one onto those of k and carries the initial state,
    the transitions and the accepting states of m to those of k. *)
Definition renames (r : nat -> nat) (m k : Graph) : Prop :=
  (forall q, q < size m -> r q < size k) /\
  (forall q q', q < size m -> q' < size m -> r q = r q' -> q = q') /\
  (forall p, p < size k -> exists q, q < size m /\ r q = p) /\
  r (initial_state m) = initial_state k /\
  (forall q b q', next_state m q b = Ok q' -> next_state k (r q) b = Ok (r q')) /\
  (forall q b, is_final_state m q = Ok b -> is_final_state k (r q) = Ok b).

Lemma finite_choice (P : nat -> nat -> Prop) n : (forall q, q < n -> exists p, P q p) ->
  exists r : nat -> nat, forall q, q < n -> P q (r q).
Proof.
  induction n as [|n IH]; intros H; [exists (fun _ => 0); intros; lia|].
  destruct IH as (r & Hr); [intros; apply H; lia|]. destruct (H n ltac:(lia)) as (p & Hp).
  exists (fun q => if q =? n then p else r q). intros q Hq. destruct (Nat.eqb_spec q n); [congruence|apply Hr; lia].
Qed.

Lemma reduced_unique m k : wf_graph m -> wf_graph k ->
  (forall q, q < size m -> dfa_reaches m q) -> (forall q, q < size k -> dfa_reaches k q) ->
  (forall p q, p < size m -> q < size m -> p <> q -> api_dist m p q) ->
  (forall p q, p < size k -> q < size k -> p <> q -> api_dist k p q) ->
  (forall w, accepts m w = accepts k w) -> exists r, renames r m k.
Proof.
  intros W V R S D D' L.
  pose (E := fun p q => p < size m /\ q < size k /\ forall w, fin m (run m p w) = fin k (run k q w)).
  assert (EI : E (initial_state m) (initial_state k)).
  { split; [apply init_lt; auto|]. split; [apply init_lt; auto|]. intros w. specialize (L w).
    rewrite !accepts_run in L by auto. congruence. }
  assert (ER : forall w, E (run m (initial_state m) w) (run k (initial_state k) w)).
  { intros w. split; [apply run_lt; auto using init_lt|]. split; [apply run_lt; auto using init_lt|].
    intros v. rewrite <- !run_app. apply EI. }
  assert (EN : forall p q b, E p q -> E (nxt m p b) (nxt k q b)).
  { intros p q b (H1 & H2 & H3). split; [apply nxt_lt; auto|]. split; [apply nxt_lt; auto|]. intros w. apply (H3 (b :: w)). }
  assert (EL : forall p p' q, E p q -> E p' q -> p = p').
  { intros p p' q (H1 & _ & H2) (H3 & _ & H4). destruct (Nat.eq_dec p p') as [|N]; auto. exfalso.
    specialize (D p p' H1 H3 N). apply api_dist_iff in D as (w & Hw); auto. apply Hw. rewrite H2, H4; auto. }
  assert (EE : forall p q q', E p q -> E p q' -> q = q').
  { intros p q q' (_ & H1 & H2) (_ & H3 & H4). destruct (Nat.eq_dec q q') as [|N]; auto. exfalso.
    specialize (D' q q' H1 H3 N). apply api_dist_iff in D' as (w & Hw); auto. apply Hw. rewrite <- H2, <- H4; auto. }
  destruct (finite_choice E (size m)) as (r & Hr).
  { intros q Hq. specialize (R q Hq). apply reaches_reach in R as (w & <-); auto. eauto. }
  exists r. split; [intros q Hq; apply (Hr q Hq)|]. split.
  { intros q q' H1 H2 EQ. apply (EL q q' (r q)); [auto|rewrite EQ; auto]. }
  split.
  { intros p Hp. specialize (S p Hp). apply reaches_reach in S as (w & <-); auto.
    exists (run m (initial_state m) w). split; [apply ER|]. eapply EE; [apply Hr, ER|apply ER]. }
  split; [eapply EE; [apply Hr, init_lt; auto|exact EI]|].
  assert (OUT : forall q b q', next_state m q b = Ok q' -> q < size m).
  { intros q b q'. rewrite next_state_nth. unfold size. destruct nth_error eqn:X; [|discriminate].
    intros _. eapply nth_error_lt; eauto. }
  split.
  - intros q b q' H. assert (Hq := OUT _ _ _ H). rewrite next_state_nxt in * by (auto; apply Hr, Hq).
    injection H as <-. f_equal. eapply EE; [apply EN, Hr, Hq|apply Hr, nxt_lt; auto].
  - intros q b H. destruct (lt_dec q (size m)) as [Hq|Hq].
    + rewrite is_final_fin in * by (auto; apply Hr, Hq). injection H as <-. f_equal.
      symmetry. apply (Hr q Hq) with (w := []).
    + exfalso. unfold is_final_state in H. apply at_ok in H. apply nth_error_lt in H.
      apply wf_graph_iff in W as (_ & _ & HW & _). rewrite HW in H. cbn in H.
      rewrite map_length, seq_length in H. unfold size in Hq. lia.
Qed.

Theorem C63_minimized_unique g h m k : wf_graph g -> wf_graph h -> same_words g h ->
  minimized g = Ok m -> minimized h = Ok k -> exists r, renames r m k.
Proof.
  intros W V L Em Ek. rewrite same_words_accepts in L by auto.
  destruct (minimized_correct g W) as (x & E & Wm & Am & Rm & Dm). rewrite Em in E. injection E as <-.
  destruct (minimized_correct h V) as (x & E & Wk & Ak & Rk & Dk). rewrite Ek in E. injection E as <-.
  apply reduced_unique; auto. intros w. rewrite Am, Ak, L. reflexivity.
Qed.

(** Two ways to write "an even number of ones": with two states, and with five states of which one
    is unreachable. *)
Definition even2 : text := txt (">0*" ++ tab ++ "0" ++ tab ++ "1" ++ nl ++ "1" ++ tab ++ "1" ++ tab ++ "0" ++ nl).
Definition even5 : text := txt
  (">0*" ++ tab ++ "2" ++ tab ++ "1" ++ nl ++ "1" ++ tab ++ "3" ++ tab ++ "2" ++ nl ++
   "2*" ++ tab ++ "0" ++ tab ++ "3" ++ nl ++ "3" ++ tab ++ "1" ++ tab ++ "0" ++ nl ++
   "4*" ++ tab ++ "1" ++ tab ++ "4" ++ nl).

Lemma reads_wf t g : from_istream t = Ok g -> g_init g < size g -> is_setb (g_final g) = true ->
  forallb (fun q => match nth_error (g_delta g) q with Some (l, _, _) => l =? q | None => false end) (seq 0 (size g)) = true ->
  graph_new (g_init g) (g_final g) (g_delta g) = Ok g -> wf_graph g.
Proof.
  intros _ HI HS HL HG. apply graph_new_ok in HG as (HT & HF & E). apply wf_graph_iff.
  split; auto. split; auto. split; [assert (X : g_sad g = []) by (rewrite E; reflexivity); rewrite X; exact E|]. split; [|split; [exact HI|apply is_setb_spec; auto]].
  intros q l a b H. rewrite forallb_forall in HL. assert (Hq : q < size g) by (unfold size; eapply nth_error_lt; eauto).
  specialize (HL q ltac:(apply in_seq; lia)). rewrite H in HL. apply Nat.eqb_eq in HL. auto.
Qed.

Example C63_nonvacuous T Y spot f coin :
  exists g g' once once' twice,
    from_istream even2 = Ok g /\ wf_graph g /\ from_istream even5 = Ok g' /\ wf_graph g' /\ size g = 2 /\ size g' = 5 /\
    prints_reversed T Y spot f coin even2 once /\ prints_reversed T Y spot f coin once twice /\
    prints_reversed T Y spot f coin even5 once' /\ prints_reversed T Y spot f coin once' twice /\
    (* one pass is not enough *)
    once <> once' /\
    Forall (fun t => (N.of_nat (List.length t) <= 2 ^ 31)%N) [once; twice; once'; twice] /\
    same_words g g'.
Proof.
  assert (R : exists g, from_istream even2 = Ok g /\ wf_graph g /\ size g = 2).
  { eexists. split; [vm_compute; reflexivity|]. split; [|reflexivity].
    eapply (reads_wf even2); [vm_compute; reflexivity|cbn; lia|reflexivity|reflexivity|vm_compute; reflexivity]. }
  assert (R' : exists g, from_istream even5 = Ok g /\ wf_graph g /\ size g = 5).
  { eexists. split; [vm_compute; reflexivity|]. split; [|reflexivity].
    eapply (reads_wf even5); [vm_compute; reflexivity|cbn; lia|reflexivity|reflexivity|vm_compute; reflexivity]. }
  assert (P : exists once once' twice, do_spec2spec even2 false true false = Ok once /\ do_spec2spec once false true false = Ok twice /\
     do_spec2spec even5 false true false = Ok once' /\ do_spec2spec once' false true false = Ok twice /\ once <> once' /\
     forallb (fun t => (N.of_nat (List.length t) <=? 2 ^ 31)%N) [once; twice; once'; twice] = true).
  { do 3 eexists. split; [vm_compute; reflexivity|]. split; [vm_compute; reflexivity|].
    split; [vm_compute; reflexivity|]. split; [vm_compute; reflexivity|]. split; [discriminate|vm_compute; reflexivity]. }
  destruct R as (g & Eg & Wg & Sg), R' as (g' & Eg' & Wg' & Sg'), P as (once & once' & twice & P1 & P2 & P3 & P4 & N & B).
  rewrite <- (prints_reversed_iff T Y spot f coin) in P1, P2, P3, P4.
  assert (F : Forall (fun t => (N.of_nat (List.length t) <= 2 ^ 31)%N) [once; twice; once'; twice]).
  { apply Forall_forall. intros t Ht. rewrite forallb_forall in B. apply N.leb_le, B, Ht. }
  exists g, g', once, once', twice. do 12 (split; [assumption|]).
  eapply C63_canonical with (spec := even2) (spec' := even5); eauto.
Qed.

(** The same two automata satisfy the hypotheses of C63_minimized_unique. *)
Example C63_minimized_nonvacuous (T : tfhe) (Y : crypto T) (f : fs) (spot : spot_lib) : exists g h m k, wf_graph g /\ wf_graph h /\ same_words g h /\
  minimized g = Ok m /\ minimized h = Ok k /\ size g = 2 /\ size h = 5 /\ size m = 2 /\ size k = 2.
Proof.
  destruct (C63_nonvacuous T Y spot f 0) as (g & h & _ & _ & _ & Eg & Wg & Eh & Wh & Sg & Sh & _ & _ & _ & _ & _ & _ & SW).
  assert (M : exists m, (do g <- from_istream even2; minimized g) = Ok m /\ size m = 2)
    by (eexists; split; [vm_compute; reflexivity|reflexivity]).
  assert (M' : exists m, (do g <- from_istream even5; minimized g) = Ok m /\ size m = 2)
    by (eexists; split; [vm_compute; reflexivity|reflexivity]).
  destruct M as (m & M & Sm), M' as (k & M' & Sk). rewrite Eg in M. rewrite Eh in M'.
  exists g, h, m, k. repeat (split; [assumption|]). exact Sk.
Qed.

Print Assumptions C63_canonical.
Print Assumptions C63_minimal.
Print Assumptions C63_minimized_unique.
