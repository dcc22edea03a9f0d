(** Main facts about the text formats (used by PropsText.v). *)
From Coq Require Import List Arith Bool NArith ZArith Ascii Lia DecimalN.
Import ListNotations.
From Verif Require Import Base BaseFacts GraphModel Spec GraphFacts FromNfa TextModel TextSpec TextFacts.

(** ** A deterministic table seen as an NFA *)
Lemma det_rows_length rows : length (det_rows rows) = length rows.
Proof. unfold det_rows. rewrite map_length. apply number_length. Qed.

Lemma det_rows_nth rows q : nth_error (det_rows rows) q =
  option_map (fun '(_, _, q0s, q1s) => (q, hd 0 q0s, hd 0 q1s)) (nth_error rows q).
Proof.
  unfold det_rows. rewrite nth_error_map, number_nth.
  destruct (nth_error rows q) as [[[[? ?] ?] ?]|]; reflexivity.
Qed.
Lemma table_of_nth rows q : nth_error (table_of rows) q =
  option_map (fun '(_, _, q0s, q1s) => (q, q0s, q1s)) (nth_error rows q).
Proof.
  unfold table_of. rewrite nth_error_map, number_nth.
  destruct (nth_error rows q) as [[[[? ?] ?] ?]|]; reflexivity.
Qed.

Lemma arow_dfa_hd rows q i f q0s q1s : forallb arow_dfa rows = true ->
  nth_error rows q = Some (i, f, q0s, q1s) -> q0s = [hd 0 q0s] /\ q1s = [hd 0 q1s].
Proof.
  intros H E. rewrite forallb_forall in H. specialize (H _ (nth_error_In _ _ E)). cbn in H.
  apply andb_prop in H as [A B]. apply Nat.eqb_eq in A, B.
  destruct q0s as [|x [|]]; try discriminate. destruct q1s as [|y [|]]; try discriminate. auto.
Qed.

Lemma det_edge rows i f q b q' : forallb arow_dfa rows = true ->
  (nfa_edge (table_of rows) q b q' <->
   q < length rows /\ nxt (graph_of i f (det_rows rows)) q b = q').
Proof.
  intros D. unfold nfa_edge, nxt. cbn [graph_of g_delta]. rewrite det_rows_nth, table_of_nth. split.
  - intros (l & d0 & d1 & E & H). destruct (nth_error rows q) as [[[[? ?] q0s] q1s]|] eqn:Eq; [|discriminate].
    split; [eapply nth_error_lt; eauto|].
    cbn in *. injection E as <- <- <-. destruct (arow_dfa_hd _ _ _ _ _ _ D Eq) as [A B].
    destruct b; [rewrite B in H|rewrite A in H]; destruct H as [H|[]]; auto.
  - intros [L E]. destruct (nth_error rows q) as [[[[? ?] q0s] q1s]|] eqn:Eq;
      [|apply nth_error_None in Eq; lia].
    cbn in *. exists q, q0s, q1s. split; auto. destruct (arow_dfa_hd _ _ _ _ _ _ D Eq) as [A B].
    subst q'. destruct b; [rewrite B|rewrite A]; cbn; auto.
Qed.

Lemma det_targets rows : forallb arow_dfa rows = true ->
  (targets_ok (det_rows rows) <-> closed_table rows).
Proof.
  intros D. unfold targets_ok, closed_table. rewrite det_rows_length, Forall_forall. split.
  - intros H [[[i f] q0s] q1s] Hr. apply In_nth_error in Hr as (q & E).
    destruct (arow_dfa_hd _ _ _ _ _ _ D E) as [A B].
    assert (R : In (q, hd 0 q0s, hd 0 q1s) (det_rows rows)).
    { apply nth_error_In with q. rewrite det_rows_nth, E. reflexivity. }
    rewrite A, B. cbn. constructor; [apply (H _ R false)|]. constructor; [apply (H _ R true)|constructor].
  - intros H r Hr b. apply In_nth_error in Hr as (q & E). rewrite det_rows_nth in E.
    destruct (nth_error rows q) as [[[[i f] q0s] q1s]|] eqn:Eq; [|discriminate]. cbn in E. injection E as <-.
    specialize (H _ (nth_error_In _ _ Eq)). cbn in H.
    destruct (arow_dfa_hd _ _ _ _ _ _ D Eq) as [A B]. rewrite A, B in H. cbn in H.
    inversion H as [|? ? H0 H1]; subst. inversion H1; subst. destruct b; cbn; auto.
Qed.

Lemma inits_of_set rows : is_set (inits_of rows).
Proof.
  unfold inits_of. pose proof (marked_inits_set rows) as H.
  destruct (marked_inits rows); [cbn; auto|auto].
Qed.
Lemma inits_of_bound rows q : rows <> [] -> In q (inits_of rows) -> q < length rows.
Proof.
  intros N H. unfold inits_of in H. destruct (marked_inits rows) eqn:E.
  - destruct H as [<-|[]]. destruct rows; [congruence|cbn; lia].
  - rewrite <- E in H. eapply sel_bound; eauto.
Qed.

Lemma deterministic_iff rows :
  deterministic rows <-> (length (inits_of rows) =? 1) && forallb arow_dfa rows = true.
Proof.
  unfold deterministic. rewrite andb_true_iff, Nat.eqb_eq, forallb_forall, Forall_forall.
  split; intros [H1 H2]; split; auto; intros [[[i f] a] b] Hr; specialize (H2 _ Hr); cbn in *;
    rewrite ?andb_true_iff, ?Nat.eqb_eq in *; auto.
Qed.
Lemma deterministic_dec rows : {deterministic rows} + {~ deterministic rows}.
Proof.
  destruct ((length (inits_of rows) =? 1) && forallb arow_dfa rows) eqn:E.
  - left. apply deterministic_iff; auto.
  - right. intros H. apply deterministic_iff in H. congruence.
Qed.

Lemma build_det rows : deterministic rows ->
  build rows = graph_new (hd 0 (inits_of rows)) (finals_of rows) (det_rows rows).
Proof. intros H. apply deterministic_iff in H. unfold build. rewrite H. reflexivity. Qed.
Lemma build_nondet rows : ~ deterministic rows ->
  build rows = from_nfa (inits_of rows) (finals_of rows) (table_of rows).
Proof.
  intros H. unfold build. destruct (_ && _) eqn:E; auto. exfalso. apply H, deterministic_iff; auto.
Qed.

(** Which row lists give a graph. *)
Definition acceptable (rows : list arow) : Prop :=
  if deterministic_dec rows then closed_table rows
  else nfa_no_dangling (inits_of rows) (table_of rows).

Lemma build_ok_iff rows :
  ((exists g, build rows = Ok g) <->
   (deterministic rows /\ closed_table rows) \/
   (~ deterministic rows /\ nfa_no_dangling (inits_of rows) (table_of rows))) /\
  (forall f, build rows = Fail f -> f = FOutOfRange).
Proof.
  destruct (deterministic_dec rows) as [D|D].
  - pose proof D as D0. apply deterministic_iff in D0. apply andb_prop in D0 as [_ DF].
    rewrite build_det by auto. split.
    + split.
      * intros (g & E). apply graph_new_ok in E as (T & _). apply det_targets in T; auto.
      * intros [[_ T]|[ND _]]; [|contradiction]. apply det_targets in T; auto.
        eexists. apply graph_new_good; auto. intros q Hq. rewrite det_rows_length. eapply sel_bound; eauto.
    + intros f E. destruct (targets_dec (det_rows rows) (length (det_rows rows))) as [T|T].
      * rewrite graph_new_good in E; [discriminate|auto|].
        intros q Hq. rewrite det_rows_length. eapply sel_bound; eauto.
      * rewrite graph_new_bad in E; [congruence|]. intros [T' _].
        destruct T as (d1 & r & d2 & b & Ed & L & _). unfold targets_ok in T'.
        specialize (T' r). rewrite Ed in T' at 1. specialize (T' (in_elt _ _ _) b). lia.
  - rewrite build_nondet by auto.
    destruct (from_nfa_ok_iff (inits_of rows) (finals_of rows) (table_of rows) (inits_of_set rows)) as [H1 H2].
    pose proof (from_nfa_spec (inits_of rows) (finals_of rows) (table_of rows) (inits_of_set rows)) as S.
    split; [tauto|]. intros f E. rewrite E in S. tauto.
Qed.

Lemma build_language rows g : rows <> [] -> build rows = Ok g ->
  wf_graph g /\ dfa_decides g (nfa_accepts (inits_of rows) (finals_of rows) (table_of rows)) /\
  (deterministic rows -> size g = length rows /\ inits_of rows = [initial_state g]).
Proof.
  intros N E. destruct (deterministic_dec rows) as [D|D].
  - pose proof D as D0. apply deterministic_iff in D0. apply andb_prop in D0 as [DL DF].
    rewrite build_det in E by auto. pose proof E as E0. apply graph_new_ok in E as (T & F & ->).
    apply Nat.eqb_eq in DL. destruct (inits_of rows) as [|i [|]] eqn:EI; try discriminate. cbn [hd] in *.
    assert (Hi : i < length rows) by (apply inits_of_bound; auto; rewrite EI; cbn; auto).
    assert (W : wf_graph (graph_of i (finals_of rows) (det_rows rows))).
    { apply graph_of_wf; auto; [|rewrite det_rows_length; auto|apply finals_of_set].
      intros q l a b H. rewrite det_rows_nth in H.
      destruct (nth_error rows q) as [[[[? ?] ?] ?]|]; [|discriminate]. cbn in H. congruence. }
    split; auto. split; [|intros _; split; [apply det_rows_length|reflexivity]].
    set (g := graph_of i (finals_of rows) (det_rows rows)) in *.
    assert (P : forall w q q', q < length rows -> (nfa_path (table_of rows) q w q' <-> run g q w = q')).
    { induction w as [|b w IH]; intros q q' Hq.
      - split; [inversion 1; auto|cbn; intros ->; constructor].
      - cbn. assert (Hn : nxt g q b < length rows).
        { rewrite <- det_rows_length. apply (nxt_lt g); auto. unfold size, g. cbn. rewrite det_rows_length. auto. }
        split.
        + inversion 1; subst. apply (det_edge rows i (finals_of rows)) in H3 as [_ <-]; auto.
          apply IH; auto.
        + intros H. eapply path_cons; [|apply IH; eauto]. apply (det_edge rows i (finals_of rows)); auto. }
    assert (A : forall w, accepts g w = Ok true <-> nfa_accepts [i] (finals_of rows) (table_of rows) w).
    { intros w. rewrite accepts_run by auto. unfold nfa_accepts. split.
      - intros [= H]. apply smem_In in H. exists i, (run g i w). split; [cbn; auto|].
        split; [apply P; auto|exact H].
      - intros (q & q' & [<-|[]] & HP & HF). apply P in HP; auto. subst q'. f_equal. apply smem_In. exact HF. }
    intros w. specialize (A w). rewrite accepts_run in A by auto. unfold dfa_accepts, dfa_rejects.
    rewrite accepts_run by auto. destruct (fin g _); intuition congruence.
  - rewrite build_nondet in E by auto. split; [eapply from_nfa_wf; eauto using inits_of_set|].
    split; [apply from_nfa_language; auto using inits_of_set|tauto].
Qed.

(** ** Printed numbers *)
Lemma uint_text_acc u : forall p,
  fold_left (fun a c => 10 * a + digit_val c)%N (uint_text u) (Npos p) = Npos (Pos.of_uint_acc u p).
Proof.
  induction u; intros p; cbn [uint_text fold_left Pos.of_uint_acc]; auto;
    rewrite <- IHu; apply (f_equal (fold_left _ (uint_text u)));
    match goal with |- context [digit_val ?c] => let v := eval compute in (digit_val c) in change (digit_val c) with v end;
    lia.
Qed.
Lemma uint_text_val u : digits_val (uint_text u) = N.of_uint u.
Proof.
  unfold digits_val. induction u; cbn [uint_text fold_left]; auto;
    unfold N.of_uint; cbn [Pos.of_uint]; rewrite <- ?uint_text_acc; auto.
Qed.
Lemma uint_text_digits u : Forall Digit (uint_text u).
Proof. induction u; constructor; auto; apply is_digit_Digit; reflexivity. Qed.

Lemma show_nat_digits n : Forall Digit (show_nat n).
Proof. apply uint_text_digits. Qed.
Lemma show_nat_val n : digits_val (show_nat n) = N.of_nat n.
Proof. unfold show_nat. rewrite uint_text_val. apply DecimalN.Unsigned.of_to. Qed.
Lemma show_nat_ne n : show_nat n <> [].
Proof.
  intros H. destruct n; [discriminate|]. pose proof (show_nat_val (S n)) as E. rewrite H in E. discriminate.
Qed.
Lemma show_nat_int n : (N.of_nat n <= int_max)%N -> int_number (show_nat n) n.
Proof.
  intros H. apply int_number_iff. rewrite show_nat_val. split; [apply show_nat_ne|].
  split; [apply show_nat_digits|]. split; auto. lia.
Qed.

Lemma digits_no_nl s : Forall Digit s -> ~ In "010"%char s.
Proof.
  intros F H. rewrite Forall_forall in F. apply F in H. apply is_digit_Digit in H. discriminate.
Qed.

(** ** Lines of a printed text *)
Lemma lines_of_concat ls : (forall l, In l ls -> ~ In "010"%char l) ->
  lines_of (concat (map (fun l => l ++ ["010"%char]) ls)) ls.
Proof.
  induction ls as [|l ls IH]; intros H; cbn; [constructor|].
  rewrite <- app_assoc. cbn. apply lines_cons; [apply H; cbn; auto|]. apply IH. intros; apply H; cbn; auto.
Qed.

(** ** dump *)
Definition row_line (g : Graph) (q : nat) : text :=
  (if initial_state g =? q then [">"%char] else []) ++ show_nat q ++
  (if fin g q then ["*"%char] else []) ++ ["009"%char] ++ show_nat (nxt g q false) ++ ["009"%char] ++
  show_nat (nxt g q true).

Lemma dump_lines g : wf_graph g ->
  dump g = Ok (concat (map (fun l => l ++ ["010"%char]) (map (row_line g) (seq 0 (size g))))).
Proof.
  intros W. unfold dump, all_states.
  rewrite (mapM_pure _ (fun q => row_line g q ++ ["010"%char])).
  - cbn [bind]. rewrite map_map. reflexivity.
  - intros q Hq. apply in_seq in Hq. unfold dump_row. rewrite is_final_fin by (auto; lia). cbn [bind].
    rewrite !next_state_nxt by lia. cbn [bind]. unfold row_line, c_gt, c_star, c_tab, c_nl.
    rewrite <- !app_assoc. reflexivity.
Qed.

Lemma row_line_no_nl g q : ~ In "010"%char (row_line g q).
Proof.
  unfold row_line. intros H.
  repeat (apply in_app_or in H as [H|H]);
    try (apply digits_no_nl in H; [auto|apply show_nat_digits]).
  - destruct (initial_state g =? q); cbn in H; intuition discriminate.
  - destruct (fin g q); cbn in H; intuition discriminate.
  - cbn in H; intuition discriminate.
  - cbn in H; intuition discriminate.
Qed.

Lemma row_line_format g q : row_format (row_line g q) (initial_state g =? q) (show_nat q) (fin g q)
  (show_nat (nxt g q false)) (show_nat (nxt g q true)).
Proof.
  exists ["009"%char], ["009"%char]. unfold row_line.
  assert (TF : forall n, targets_field (show_nat n)).
  { intros n. right. split; [apply show_nat_ne|]. eapply Forall_impl; [|apply show_nat_digits]. auto. }
  assert (B : Forall Blank ["009"%char]) by (constructor; [|constructor]; cbn; auto).
  repeat (split; [first [reflexivity | apply show_nat_ne | apply show_nat_digits | discriminate | exact B | apply TF]|]).
  apply TF.
Qed.

Definition graph_row (g : Graph) (q : nat) : arow :=
  (initial_state g =? q, fin g q, [nxt g q false], [nxt g q true]).

Lemma rows_of_dump g : wf_graph g -> (N.of_nat (size g) <= int_max + 1)%N ->
  rows_of 0 (map (row_line g) (seq 0 (size g))) (map (graph_row g) (seq 0 (size g))).
Proof.
  intros W HB.
  assert (G : forall n k, k + n = size g -> rows_of k (map (row_line g) (seq k n)) (map (graph_row g) (seq k n))).
  { induction n as [|n IH]; intros k Hk; cbn [seq map]; [constructor|].
    pose proof (nxt_lt g k false W ltac:(lia)). pose proof (nxt_lt g k true W ltac:(lia)).
    eapply rows_row; [apply row_line_format| | | |apply IH; lia].
    - apply show_nat_int. lia.
    - apply tg_one, show_nat_int. lia.
    - apply tg_one, show_nat_int. lia. }
  apply G. auto.
Qed.

Lemma nth_graph_rows g q : nth_error (map (graph_row g) (seq 0 (size g))) q =
  if q <? size g then Some (graph_row g q) else None.
Proof.
  rewrite nth_error_map. destruct (Nat.ltb_spec q (size g)).
  - rewrite nth_error_seq by auto. reflexivity.
  - rewrite (proj2 (nth_error_None _ _)); [reflexivity|rewrite seq_length; auto].
Qed.

Lemma graph_rows_inits g : wf_graph g -> inits_of (map (graph_row g) (seq 0 (size g))) = [initial_state g].
Proof.
  intros W. assert (E : marked_inits (map (graph_row g) (seq 0 (size g))) = [initial_state g]).
  { apply is_set_ext; [apply marked_inits_set|cbn; auto|]. intros q. unfold marked_inits.
    rewrite (proj2 (sel_is_set _ _)). rewrite nth_graph_rows. split.
    - intros (x & E & H). destruct (q <? size g); [|discriminate]. injection E as <-. cbn in H.
      apply Nat.eqb_eq in H. cbn; auto.
    - intros [<-|[]]. pose proof (init_lt g W) as L. apply Nat.ltb_lt in L. rewrite L.
      eexists; split; [reflexivity|]. cbn. apply Nat.eqb_refl. }
  unfold inits_of. rewrite E. reflexivity.
Qed.
Lemma graph_rows_finals g : wf_graph g -> finals_of (map (graph_row g) (seq 0 (size g))) = g_final g.
Proof.
  intros W. pose proof W as W0. apply wf_graph_iff in W0 as (_ & HF & _ & _ & _ & HS).
  apply is_set_ext; [apply finals_of_set|auto|]. intros q. unfold finals_of.
  rewrite (proj2 (sel_is_set _ _)). rewrite nth_graph_rows. split.
  - intros (x & E & H). destruct (q <? size g); [|discriminate]. injection E as <-. cbn in H.
    apply smem_In in H. auto.
  - intros H. pose proof (HF q H) as L. apply Nat.ltb_lt in L. unfold size. rewrite L.
    eexists; split; [reflexivity|]. cbn. apply smem_In; auto.
Qed.
Lemma graph_rows_delta g : wf_graph g -> det_rows (map (graph_row g) (seq 0 (size g))) = g_delta g.
Proof.
  intros W. apply nth_error_ext; intros q. rewrite det_rows_nth, nth_graph_rows.
  destruct (Nat.ltb_spec q (size g)) as [L|L].
  - apply wf_graph_iff in W as (_ & _ & _ & HL & _). unfold size in L.
    destruct (nth_error (g_delta g) q) as [[[l a] b]|] eqn:E; [|apply nth_error_None in E; lia].
    cbn. unfold nxt. rewrite E. cbn. rewrite <- (HL _ _ _ _ E). reflexivity.
  - cbn. symmetry. apply nth_error_None. exact L.
Qed.

Lemma dump_round_trip g t : wf_graph g -> (N.of_nat (size g) <= int_max + 1)%N ->
  dump g = Ok t -> from_istream t = Ok (with_sad g []).
Proof.
  intros W HB E. rewrite dump_lines in E by auto. injection E as <-.
  apply (from_istream_build _ (map (row_line g) (seq 0 (size g)))).
  { apply lines_of_concat. intros l Hl. apply in_map_iff in Hl as (q & <- & _). apply row_line_no_nl. }
  exists (map (graph_row g) (seq 0 (size g))). split; [apply rows_of_dump; auto|].
  assert (D : deterministic (map (graph_row g) (seq 0 (size g)))).
  { split; [rewrite graph_rows_inits by auto; reflexivity|]. apply Forall_forall. intros r Hr.
    apply in_map_iff in Hr as (q & <- & _). cbn. auto. }
  rewrite build_det by auto. rewrite graph_rows_inits, graph_rows_finals, graph_rows_delta by auto.
  cbn [hd]. unfold wf_graph in W. destruct W as [W _]. exact W.
Qed.

Lemma dump_ok g : wf_graph g -> exists t, dump g = Ok t.
Proof. intros W. rewrite dump_lines by auto. eauto. Qed.
