(** Facts about DOT texts (DotSpec.v) and Graph::dump_dot (DotModel.v). *)
From Coq Require Import String.
From Coq Require Import List Arith Bool Ascii Lia NArith.
Import ListNotations.
From Verif Require Import Base BaseFacts GraphModel Spec GraphFacts TextModel TextSpec TextFacts TextClaims DotModel DotSpec.
Local Open Scope list_scope.

(** * A text has one reading *)
Lemma word_split s : forall s' t t', Forall (fun c => id_char c = true) s -> Forall (fun c => id_char c = true) s' ->
  stops t -> stops t' -> s ++ t = s' ++ t' -> s = s' /\ t = t'.
Proof.
  induction s as [|c s IH]; intros [|c' s'] t t' F F' S S' E; cbn in E; auto.
  - subst t. inversion F'; subst. cbn in S. congruence.
  - subst t'. inversion F; subst. cbn in S'. congruence.
  - injection E as <- E. inversion F; subst. inversion F'; subst. destruct (IH s' t t') as [-> ->]; auto.
Qed.
Lemma quote_split s : forall s' t t', ~ In "034"%char s -> ~ In "034"%char s' ->
  s ++ "034"%char :: t = s' ++ "034"%char :: t' -> s = s' /\ t = t'.
Proof.
  induction s as [|c s IH]; intros [|c' s'] t t' N N' E; cbn in E, N, N'; inversion E; subst.
  - auto.
  - exfalso. apply N'. left. auto.
  - exfalso. apply N. left. auto.
  - destruct (IH s' t t') as [-> ->]; auto.
Qed.
Definition kind_of (c : ascii) : nat :=
  if id_char c then 0 else if existsb (Ascii.eqb c) [" "; "009"; "010"; "013"]%char then 1
  else if existsb (Ascii.eqb c) ["{"; "}"; "["; "]"; "="; ","; ";"]%char then 2
  else if Ascii.eqb c "-" then 3 else if Ascii.eqb c "034" then 4 else 5.
Lemma kind_blank c : blank c -> kind_of c = 1.
Proof. unfold blank. cbn. intros [<-|[<-|[<-|[<-|[]]]]]; reflexivity. Qed.
Lemma kind_punct c : In c ["{"; "}"; "["; "]"; "="; ","; ";"]%char -> kind_of c = 2.
Proof. cbn. intros [<-|[<-|[<-|[<-|[<-|[<-|[<-|[]]]]]]]]; reflexivity. Qed.
Lemma kind_id c : id_char c = true -> kind_of c = 0.
Proof. unfold kind_of. intros ->. reflexivity. Qed.
(* how the text of a reading begins *)
Lemma lexes_begins t ts : lexes t ts -> match t with
  | [] => ts = []
  | c :: t' => match kind_of c with
    | 1 => lexes t' ts
    | 2 => exists ts', ts = Punct c :: ts' /\ lexes t' ts'
    | 3 => exists u ts', t' = ">"%char :: u /\ ts = Arrow :: ts' /\ lexes u ts'
    | 4 => exists s u ts', t' = s ++ "034"%char :: u /\ ~ In "034"%char s /\ ts = Quoted s :: ts' /\ lexes u ts'
    | 0 => exists s u ts', t = s ++ u /\ Forall (fun c => id_char c = true) s /\ stops u /\ ts = Word s :: ts' /\ lexes u ts'
    | _ => False
    end
  end.
Proof.
  destruct 1 as [|c t ts B|c t ts P|t ts|s t ts N|s t ts N F S]; auto.
  - rewrite kind_blank; auto.
  - rewrite kind_punct; eauto.
  - cbn. exists t, ts. auto.
  - cbn. exists s, t, ts. auto.
  - destruct s as [|c s]; [congruence|]. cbn [app]. inversion F; subst. rewrite kind_id by auto.
    exists (c :: s), t, ts. auto.
Qed.
Lemma lexes_unique t ts ts' : lexes t ts -> lexes t ts' -> ts = ts'.
Proof.
  intros H. revert ts'. induction H as [|c t ts B H IH|c t ts P H IH|t ts H IH|s t ts N H IH|s t ts N F S H IH]; intros ts' H'.
  - apply lexes_begins in H'. auto.
  - apply lexes_begins in H'. rewrite kind_blank in H'; auto.
  - apply lexes_begins in H'. rewrite kind_punct in H' by auto. destruct H' as (u & -> & H'). f_equal; auto.
  - apply lexes_begins in H'. cbn in H'. destruct H' as (u & ts1 & [= <-] & -> & H'). f_equal; auto.
  - apply lexes_begins in H'. cbn in H'. destruct H' as (s' & u & ts1 & E & N' & -> & H').
    apply quote_split in E as [-> ->]; auto. f_equal; auto.
  - apply lexes_begins in H'. destruct s as [|c s]; [congruence|]. cbn [app] in H'. inversion F; subst. rewrite kind_id in H' by auto.
    destruct H' as (s' & u & ts1 & E & F' & S' & -> & H'). change (c :: s ++ t) with ((c :: s) ++ t) in E.
    apply word_split in E as [<- ->]; auto. f_equal; auto.
Qed.
Lemma val_unique v t t' : val_of v t -> val_of v t' -> t = t'.
Proof. destruct 1; inversion 1; auto. Qed.
Lemma attrs_unique ts l rest l' rest' : attrs_of ts l rest -> attrs_of ts l' rest' -> l = l' /\ rest = rest'.
Proof.
  intros H. revert l' rest'. induction H as [a v t rest V|a v t ts l rest V H IH]; intros l' rest' H'; inversion H'; subst.
  - split; auto. f_equal. f_equal. eapply val_unique; eauto.
  - destruct (IH _ _ H6) as [-> ->]. split; auto. f_equal. f_equal. eapply val_unique; eauto.
Qed.
Lemma stmts_unique ts l l' : stmts_of ts l -> stmts_of ts l' -> l = l'.
Proof.
  intros H. revert l'. induction H as [|n v t ts l V H IH|n ts a rest l A H IH|m n ts a rest l A H IH|m n rest l B H IH];
    intros l' H'; inversion H'; subst.
  - reflexivity.
  - f_equal; [f_equal; eapply val_unique; eauto|auto].
  - match goal with A' : attrs_of ts _ _ |- _ => destruct (attrs_unique _ _ _ _ _ A A') as [<- <-] end. f_equal; auto.
  - match goal with A' : attrs_of ts _ _ |- _ => destruct (attrs_unique _ _ _ _ _ A A') as [<- <-] end. f_equal; auto.
  - exfalso. match goal with B : no_bracket _ |- _ => apply B; reflexivity end.
  - exfalso. match goal with B : no_bracket _ |- _ => apply B; reflexivity end.
  - f_equal; auto.
Qed.
Lemma dot_says_unique t l l' : dot_says t l -> dot_says t l' -> l = l'.
Proof.
  intros (n & ts & H1 & H2) (n' & ts' & H1' & H2'). pose proof (lexes_unique _ _ _ H1 H1') as [= -> ->].
  eapply stmts_unique; eauto.
Qed.

(** * The text of a graph *)
Lemma lex_lit s t ts : forallb id_char (lit s) = true -> lit s <> [] -> stops t -> lexes t ts -> lexes (lit s ++ t) (Word (lit s) :: ts).
Proof. intros H N S L. apply lex_word; auto. apply Forall_forall. intros c Hc. rewrite forallb_forall in H. auto. Qed.
Lemma lex_num n t ts : stops t -> lexes t ts -> lexes (show_nat n ++ t) (Word (show_nat n) :: ts).
Proof.
  intros S L. apply lex_word; auto; [apply show_nat_ne|]. eapply Forall_impl; [|apply show_nat_digits].
  intros c D. unfold Digit in D. cbn in D. repeat (destruct D as [<-|D]; [reflexivity|]). destruct D.
Qed.
Lemma lex_quoted_num n t ts : lexes t ts -> lexes (c_quote :: show_nat n ++ c_quote :: t) (Quoted (show_nat n) :: ts).
Proof.
  intros L. apply lex_quoted; auto. intros H. pose proof (show_nat_digits n) as D. rewrite Forall_forall in D. apply D in H.
  unfold Digit in H. cbn in H. repeat (destruct H as [H|H]; [discriminate H|]). destruct H.
Qed.
Lemma lex_quoted_lit s t ts : existsb (Ascii.eqb "034") (lit s) = false -> lexes t ts ->
  lexes (c_quote :: lit s ++ c_quote :: t) (Quoted (lit s) :: ts).
Proof.
  intros H L. apply lex_quoted; auto. intros K. rewrite <- not_true_iff_false in H. apply H. apply existsb_exists.
  exists "034"%char. split; auto.
Qed.
Lemma lex_sp t ts : lexes t ts -> lexes (" "%char :: t) ts.
Proof. apply lex_blank. cbn. auto. Qed.
Lemma lex_nl t ts : lexes t ts -> lexes (c_nl :: t) ts.
Proof. apply lex_blank. cbn. auto. Qed.

Definition edge_stmt (q to : State) (label : string) : stmt := Edge (show_nat q) (show_nat to) [(lit "label", lit label)].
Definition row_stmts (g : Graph) (q : State) : list stmt :=
  Node (show_nat q) ((lit "label", show_nat q) :: if fin g q then [(lit "peripheries", lit "2")] else [])
  :: (if nxt g q false =? nxt g q true then [edge_stmt q (nxt g q false) "0,1"]
      else [edge_stmt q (nxt g q false) "0"; edge_stmt q (nxt g q true) "1"]).
Definition edge_toks (q to : State) (label : string) : list token :=
  [Word (show_nat q); Arrow; Word (show_nat to); Punct "["; Word (lit "label"); Punct "="; Quoted (lit label); Punct "]"].
Definition row_toks (g : Graph) (q : State) : list token :=
  [Word (show_nat q); Punct "["; Word (lit "label"); Punct "="; Quoted (show_nat q)] ++
  (if fin g q then [Punct ","; Word (lit "peripheries"); Punct "="; Word (lit "2")] else []) ++ [Punct "]"] ++
  (if nxt g q false =? nxt g q true then edge_toks q (nxt g q false) "0,1"
   else edge_toks q (nxt g q false) "0" ++ edge_toks q (nxt g q true) "1").

Definition edge_text (q to : State) (label : string) : text :=
  lit "  " ++ show_nat q ++ lit " -> " ++ show_nat to ++ lit " [label=" ++ [c_quote] ++ lit label ++ [c_quote] ++ lit "]" ++ [c_nl].
Lemma lex_edge q to label t ts : In label ["0"; "1"; "0,1"]%string -> lexes t ts ->
  lexes (edge_text q to label ++ t) (edge_toks q to label ++ ts).
Proof.
  intros HL L. unfold edge_text. rewrite <- !app_assoc. cbn [lit list_ascii_of_string app edge_toks].
  apply lex_sp, lex_sp. apply lex_num; [reflexivity|]. apply lex_sp, lex_arrow, lex_sp.
  apply lex_num; [reflexivity|]. apply lex_sp. apply lex_punct; [cbn; tauto|].
  apply (lex_lit "label"); [reflexivity|discriminate|reflexivity|]. apply lex_punct; [cbn; tauto|].
  apply lex_quoted_lit; [cbn in HL; destruct HL as [<-|[<-|[<-|[]]]]; reflexivity|].
  apply lex_punct; [cbn; tauto|]. apply lex_nl. exact L.
Qed.
Definition row_text (g : Graph) (q : State) : text :=
  lit "  " ++ show_nat q ++ lit " [label=" ++ [c_quote] ++ show_nat q ++ [c_quote] ++
  (if fin g q then lit ", peripheries=2" else []) ++ lit "]" ++
  (if nxt g q false =? nxt g q true then edge_text q (nxt g q false) "0,1"
   else edge_text q (nxt g q false) "0" ++ edge_text q (nxt g q true) "1").
Lemma lex_row g q t ts : lexes t ts -> lexes (row_text g q ++ t) (row_toks g q ++ ts).
Proof.
  intros L. unfold row_text, row_toks. rewrite <- !app_assoc. cbn [lit list_ascii_of_string app].
  apply lex_sp, lex_sp. apply lex_num; [reflexivity|]. apply lex_sp. apply lex_punct; [cbn; tauto|].
  apply (lex_lit "label"); [reflexivity|discriminate|reflexivity|]. apply lex_punct; [cbn; tauto|].
  apply lex_quoted_num.
  assert (R : lexes ("]"%char :: (if nxt g q false =? nxt g q true then edge_text q (nxt g q false) "0,1"
       else edge_text q (nxt g q false) "0" ++ edge_text q (nxt g q true) "1") ++ t)
     (Punct "]" :: (if nxt g q false =? nxt g q true then edge_toks q (nxt g q false) "0,1"
       else edge_toks q (nxt g q false) "0" ++ edge_toks q (nxt g q true) "1") ++ ts)).
  { apply lex_punct; [cbn; tauto|]. destruct (nxt g q false =? nxt g q true).
    - apply lex_edge; cbn; auto.
    - rewrite <- !app_assoc. apply lex_edge; [cbn; auto|]. apply lex_edge; cbn; auto. }
  destruct (fin g q); [|exact R]. cbn [app].
  apply lex_punct; [cbn; tauto|]. apply lex_sp. apply (lex_lit "peripheries"); [reflexivity|discriminate|reflexivity|].
  apply lex_punct; [cbn; tauto|]. apply (lex_lit "2"); [reflexivity|discriminate|reflexivity|]. exact R.
Qed.
Lemma dot_row_ok g q : wf_graph g -> q < size g -> dot_row g q = Ok (row_text g q).
Proof.
  intros W HQ. unfold dot_row. rewrite !next_state_nxt, is_final_fin by auto. cbn [bind]. reflexivity.
Qed.

Lemma stmts_edge_toks q to label rest l : stmts_of rest l -> stmts_of (edge_toks q to label ++ rest) (edge_stmt q to label :: l).
Proof.
  intros H. cbn [edge_toks app]. eapply stmts_edge; [|exact H]. apply attrs_last. constructor.
Qed.
Lemma stmts_row g q rest l : stmts_of rest l -> stmts_of (row_toks g q ++ rest) (row_stmts g q ++ l).
Proof.
  intros H. unfold row_toks, row_stmts. rewrite <- !app_assoc. cbn [app].
  assert (R : stmts_of ((if nxt g q false =? nxt g q true then edge_toks q (nxt g q false) "0,1"
       else edge_toks q (nxt g q false) "0" ++ edge_toks q (nxt g q true) "1") ++ rest)
     ((if nxt g q false =? nxt g q true then [edge_stmt q (nxt g q false) "0,1"]
      else [edge_stmt q (nxt g q false) "0"; edge_stmt q (nxt g q true) "1"]) ++ l)).
  { destruct (nxt g q false =? nxt g q true); cbn [app].
    - apply stmts_edge_toks. auto.
    - rewrite <- app_assoc. apply stmts_edge_toks, stmts_edge_toks. auto. }
  eapply stmts_node; [|exact R]. destruct (fin g q); cbn [app].
  - eapply attrs_more; [constructor|]. eapply attrs_last. constructor.
  - eapply attrs_last. constructor.
Qed.
Definition graph_stmts (g : Graph) : list stmt :=
  Assign (lit "rankdir") (lit "LR") :: Node (lit "node") [(lit "shape", lit "circle")]
  :: Node (lit "I") [(lit "label", []); (lit "style", lit "invis"); (lit "width", lit "0")]
  :: Edge (lit "I") (show_nat (initial_state g)) [] :: flat_map (row_stmts g) (seq 0 (size g)).
Lemma lex_rows g qs t ts : lexes t ts -> lexes (concat (map (row_text g) qs) ++ t) (flat_map (row_toks g) qs ++ ts).
Proof.
  intros L. induction qs as [|q qs IH]; cbn [map concat flat_map app]; auto. rewrite <- !app_assoc. apply lex_row. auto.
Qed.
Lemma stmts_rows g qs rest l : stmts_of rest l -> stmts_of (flat_map (row_toks g) qs ++ rest) (flat_map (row_stmts g) qs ++ l).
Proof.
  intros L. induction qs as [|q qs IH]; cbn [map concat flat_map app]; auto. rewrite <- !app_assoc. apply stmts_row. auto.
Qed.
Lemma dump_dot_says g : wf_graph g -> exists t, dump_dot g = Ok t /\ dot_says t (graph_stmts g).
Proof.
  intros W. unfold dump_dot, all_states.
  rewrite (mapM_pure (dot_row g) (row_text g)).
  2:{ intros q HQ. apply in_seq in HQ. apply dot_row_ok; auto. lia. }
  cbn [bind]. eexists. split; [reflexivity|].
  exists (lit "graph"), ([Word (lit "rankdir"); Punct "="; Quoted (lit "LR"); Word (lit "node"); Punct "["; Word (lit "shape"); Punct "=";
    Quoted (lit "circle"); Punct "]"; Word (lit "I"); Punct "["; Word (lit "label"); Punct "="; Quoted []; Punct ","; Word (lit "style"); Punct "=";
    Word (lit "invis"); Punct ","; Word (lit "width"); Punct "="; Word (lit "0"); Punct "]"; Word (lit "I"); Arrow; Word (show_nat (initial_state g))]
    ++ flat_map (row_toks g) (seq 0 (size g)) ++ [Punct "}"]). split.
  - rewrite <- ?app_assoc. cbn [lit list_ascii_of_string app].
    apply (lex_lit "digraph"); [reflexivity|discriminate|reflexivity|]. apply lex_sp.
    apply (lex_quoted_lit "graph"); [reflexivity|]. apply lex_sp. apply lex_punct; [cbn; tauto|]. apply lex_nl.
    apply (lex_lit "rankdir"); [reflexivity|discriminate|reflexivity|]. apply lex_punct; [cbn; tauto|].
    apply (lex_quoted_lit "LR"); [reflexivity|]. apply lex_sp, lex_sp.
    apply (lex_lit "node"); [reflexivity|discriminate|reflexivity|]. apply lex_punct; [cbn; tauto|].
    apply (lex_lit "shape"); [reflexivity|discriminate|reflexivity|]. apply lex_punct; [cbn; tauto|].
    apply (lex_quoted_lit "circle"); [reflexivity|]. apply lex_punct; [cbn; tauto|]. apply lex_nl, lex_sp, lex_sp.
    apply (lex_lit "I"); [reflexivity|discriminate|reflexivity|]. apply lex_sp. apply lex_punct; [cbn; tauto|].
    apply (lex_lit "label"); [reflexivity|discriminate|reflexivity|]. apply lex_punct; [cbn; tauto|].
    apply (lex_quoted_lit ""); [reflexivity|]. apply lex_punct; [cbn; tauto|]. apply lex_sp.
    apply (lex_lit "style"); [reflexivity|discriminate|reflexivity|]. apply lex_punct; [cbn; tauto|].
    apply (lex_lit "invis"); [reflexivity|discriminate|reflexivity|]. apply lex_punct; [cbn; tauto|]. apply lex_sp.
    apply (lex_lit "width"); [reflexivity|discriminate|reflexivity|]. apply lex_punct; [cbn; tauto|].
    apply (lex_lit "0"); [reflexivity|discriminate|reflexivity|]. apply lex_punct; [cbn; tauto|]. apply lex_nl, lex_sp, lex_sp.
    apply (lex_lit "I"); [reflexivity|discriminate|reflexivity|]. apply lex_sp, lex_arrow, lex_sp.
    apply lex_num; [reflexivity|]. apply lex_nl.
    apply lex_rows. apply lex_punct; [cbn; tauto|]. apply lex_nl. constructor.
  - unfold graph_stmts. cbn [app].
    apply stmts_assign; [constructor|]. eapply stmts_node; [apply attrs_last; constructor|].
    eapply stmts_node.
    { eapply attrs_more; [constructor|]. eapply attrs_more; [constructor|]. eapply attrs_last; constructor. }
    apply stmts_edge0.
    { unfold no_bracket. destruct (seq 0 (size g)); cbn; discriminate. }
    rewrite <- (app_nil_r (flat_map (row_stmts g) _)). apply stmts_rows. constructor.
Qed.

Lemma show_inj a b : show_nat a = show_nat b -> a = b.
Proof. intros H. apply (f_equal digits_val) in H. rewrite !show_nat_val in H. lia. Qed.
Lemma show_not n s : existsb (fun c => negb (is_digit c)) (lit s) = true -> show_nat n <> lit s.
Proof.
  intros H E. apply existsb_exists in H as (c & Hc & N). pose proof (show_nat_digits n) as D. rewrite E, Forall_forall in D.
  apply D, is_digit_Digit in Hc. rewrite Hc in N. discriminate.
Qed.
Lemma in_rows g n s : In s (flat_map (row_stmts g) (seq 0 n)) <-> exists q, q < n /\ In s (row_stmts g q).
Proof.
  rewrite in_flat_map. split; intros (q & H1 & H2); exists q; (split; [|exact H2]).
  - apply in_seq in H1. lia.
  - apply in_seq. lia.
Qed.
Definition source_of (s : stmt) : text := match s with Node n _ => n | Edge m _ _ => m | Assign n _ => n end.
Lemma row_source g q s : In s (row_stmts g q) -> source_of s = show_nat q.
Proof.
  unfold row_stmts. intros [<-|H]; auto. destruct (nxt g q false =? nxt g q true); cbn in H.
  - destruct H as [<-|[]]; auto.
  - destruct H as [<-|[<-|[]]]; auto.
Qed.
Lemma row_edge g q s : In s (row_stmts g q) -> match s with
  | Edge m n a => m = show_nat q /\ exists b, n = show_nat (nxt g q b) /\ exists lbl, a = [(lit "label", lbl)] /\ mentions lbl b
      /\ forall b', mentions lbl b' -> nxt g q b' = nxt g q b
  | Node n a => a = (lit "label", show_nat q) :: if fin g q then [(lit "peripheries", lit "2")] else []
  | Assign _ _ => False
  end.
Proof.
  assert (M0 : forall b, mentions (lit "0") b -> b = false) by (intros []; cbv; [intros [[=]|[]]|auto]).
  assert (M1 : forall b, mentions (lit "1") b -> b = true) by (intros []; cbv; [auto|intros [[=]|[]]]).
  unfold row_stmts. intros [<-|H]; auto. destruct (Nat.eqb_spec (nxt g q false) (nxt g q true)); cbn in H.
  - destruct H as [<-|[]]. cbn. split; auto. exists false. split; auto. exists (lit "0,1"). split; auto.
    split; [cbv; auto|]. intros [] _; auto.
  - destruct H as [<-|[<-|[]]]; cbn; (split; [reflexivity|]).
    + exists false. split; auto. exists (lit "0"). split; auto. split; [cbv; auto|]. intros b' H. apply M0 in H as ->. auto.
    + exists true. split; auto. exists (lit "1"). split; auto. split; [cbv; auto|]. intros b' H. apply M1 in H as ->. auto.
Qed.
Lemma row_has g q b : exists lbl, In (Edge (show_nat q) (show_nat (nxt g q b)) [(lit "label", lbl)]) (row_stmts g q) /\ mentions lbl b.
Proof.
  unfold row_stmts. destruct (Nat.eqb_spec (nxt g q false) (nxt g q true)) as [E|E].
  - exists (lit "0,1"). split; [|destruct b; cbv; auto]. right. left. unfold edge_stmt. destruct b; congruence.
  - destruct b; [exists (lit "1")|exists (lit "0")]; (split; [|cbv; auto]); cbn; auto.
Qed.
Lemma graph_pictures g : wf_graph g -> pictures (graph_stmts g) g.
Proof.
  intros W. constructor.
  - intros q HQ. eexists. split; [unfold graph_stmts; do 4 right; apply in_rows; exists q; split; auto; left; reflexivity|left; reflexivity].
  - intros n a H. unfold graph_stmts in H. destruct H as [H|[H|[H|[H|H]]]]; try discriminate.
    + injection H as <- _. auto.
    + injection H as <- _. auto.
    + apply in_rows in H as (q & HQ & H). apply row_source in H. cbn in H. right. right. eauto.
  - intros q HQ. rewrite is_final_fin by auto. unfold has. split.
    + intros (a & H & HA). unfold graph_stmts in H. destruct H as [H|[H|[H|[H|H]]]]; try discriminate.
      * injection H as H _. symmetry in H. exfalso. revert H. apply (show_not q "node"). reflexivity.
      * injection H as H _. symmetry in H. exfalso. revert H. apply (show_not q "I"). reflexivity.
      * apply in_rows in H as (q' & HQ' & H). pose proof (row_source _ _ _ H) as E. cbn in E. apply show_inj in E as <-.
        apply row_edge in H. subst a. destruct (fin g q); auto. cbn in HA. destruct HA as [HA|[]]. discriminate.
    + intros [= F]. eexists. split.
      * unfold graph_stmts. do 4 right. apply in_rows. exists q. split; auto. left. reflexivity.
      * rewrite F. cbn. auto.
  - intros p b q HP. rewrite next_state_nxt by auto. split.
    + intros [= <-]. destruct (row_has g p b) as (lbl & H & M). exists lbl. split; auto.
      unfold graph_stmts. do 4 right. apply in_rows. eauto.
    + intros (lbl & H & M). unfold graph_stmts in H. destruct H as [H|[H|[H|[H|H]]]]; try discriminate.
      apply in_rows in H as (p' & HP' & H). pose proof (row_source _ _ _ H) as E. cbn in E. apply show_inj in E as <-.
      apply row_edge in H as (_ & b' & E1 & lbl' & [= <-] & M' & U). apply show_inj in E1 as ->. rewrite (U b) by auto. reflexivity.
  - intros n a. unfold graph_stmts. split.
    + intros [H|[H|[H|[H|H]]]]; try discriminate; [injection H as <- <-; auto|].
      apply in_rows in H as (q & HQ & H). apply row_source in H. cbn [source_of] in H. exfalso. symmetry in H. revert H. apply (show_not q "I"). reflexivity.
    + intros [-> ->]. do 3 right. left. reflexivity.
  - eexists. split; [do 2 right; left; reflexivity|]. cbn. auto.
  - intros m n a H. unfold graph_stmts in H. destruct H as [H|[H|[H|[H|H]]]]; try discriminate; [injection H as <- _ _; auto|].
    apply in_rows in H as (q & HQ & H). apply row_edge in H as (-> & b & -> & lbl & -> & M & _). right.
    exists q, (nxt g q b), lbl. split; auto. split; [apply nxt_lt; auto|]. repeat split; auto. destruct b; auto.
  - unfold graph_stmts.
    assert (SRC : forall s k, In s (flat_map (row_stmts g) (seq 0 (size g))) -> existsb (fun c => negb (is_digit c)) (lit k) = true -> source_of s <> lit k).
    { intros s k H K E. apply in_rows in H as (q & _ & H). apply row_source in H. rewrite H in E. revert E. apply show_not. auto. }
    repeat constructor.
    1-4: cbn [In]; intros H; repeat (destruct H as [H|H]; [discriminate H|]);
      revert H; intros H; eapply SRC in H; [|]; [apply H; reflexivity|reflexivity].
    generalize (size g) at 1. intros n. generalize 0. induction n as [|n IH]; intros i; cbn [seq flat_map]; [constructor|].
    assert (NR : NoDup (row_stmts g i)).
    { unfold row_stmts. destruct (Nat.eqb_spec (nxt g i false) (nxt g i true)) as [E|E].
      - repeat constructor; cbn; intuition discriminate.
      - repeat constructor; cbn; intuition discriminate. }
    assert (D : forall s, In s (row_stmts g i) -> ~ In s (flat_map (row_stmts g) (seq (S i) n))).
    { intros s H H'. apply in_flat_map in H' as (q & HQ & H'). apply in_seq in HQ. apply row_source in H, H'.
      rewrite H in H'. apply show_inj in H'. lia. }
    clear - NR D IH. induction (row_stmts g i) as [|s l IHl]; cbn [app]; auto. inversion NR; subst. constructor.
    + rewrite in_app_iff. intros [H|H]; [auto|]. apply (D s); cbn; auto.
    + apply IHl; auto. intros; apply D; cbn; auto.
Qed.
