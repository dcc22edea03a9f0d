(** Lemmas for C71: which rows a truncated specification has. *)
From Coq Require Import List Arith Bool NArith ZArith Ascii Lia.
Import ListNotations.
From Verif Require Import Base BaseFacts GraphModel Spec GraphFacts FromNfa GraphOps Minimize Quotient
  TextModel TextSpec TextFacts TextClaims.
Local Open Scope list_scope.

(** * Prefixes of lines *)
Notation nl_lines ls := (concat (map (fun l => l ++ ["010"%char]) ls)).
Lemma prefix_lines (ls : list (list ascii)) : forall p s, nl_lines ls = p ++ s ->
  exists k r, k <= length ls /\ p = nl_lines (firstn k ls) ++ r /\
    (r = [] \/ exists l e, nth_error ls k = Some l /\ l = r ++ e /\ s = e ++ "010"%char :: nl_lines (skipn (S k) ls)).
Proof.
  induction ls as [|l ls IH]; intros p s H; cbn [map concat] in H.
  - symmetry in H. apply app_eq_nil in H as [-> ->]. exists 0, []. cbn. auto.
  - rewrite <- app_assoc in H. apply app_eq_app in H as (m & [[-> H]|[-> H]]).
    + exists 0, p. cbn [firstn map concat app]. split; [lia|]. split; auto. destruct p as [|c p]; [auto|].
      right. exists ((c :: p) ++ m), m. cbn [nth_error skipn]. repeat split; auto.
    + destruct m as [|c m].
      * exists 0, l. cbn [firstn map concat app]. split; [lia|]. rewrite app_nil_r. split; auto.
        destruct l; [auto|]. right. eexists _, []. cbn [nth_error skipn]. rewrite app_nil_r. split; [reflexivity|]. split; auto.
      * cbn [app] in H. injection H as <- H. destruct (IH m s H) as (k & r & Hk & -> & HR).
        exists (S k), r. cbn [firstn map concat length nth_error]. split; [lia|]. split; [rewrite <- !app_assoc; reflexivity|].
        exact HR.
Qed.
Lemma lines_of_part ls r : (forall l, In l ls -> ~ In "010"%char l) -> ~ In "010"%char r ->
  lines_of (nl_lines ls ++ r) (ls ++ match r with [] => [] | _ => [r] end).
Proof.
  induction ls as [|l ls IH]; intros H Hr; cbn [map concat app].
  - destruct r; [constructor|]. apply lines_last; [discriminate|auto].
  - rewrite <- !app_assoc. cbn [app]. apply lines_cons; [apply H; cbn; auto|]. apply IH; auto. intros; apply H; cbn; auto.
Qed.

(** * Which prefixes of a row line are row lines *)
Definition blanks (l : list ascii) : nat := length (filter is_space l).
Lemma blanks_app a b : blanks (a ++ b) = blanks a + blanks b.
Proof. unfold blanks. rewrite filter_app, app_length. reflexivity. Qed.
Lemma blanks_digits s : Forall Digit s -> blanks s = 0.
Proof.
  unfold blanks. induction 1 as [|c s D _ IH]; [reflexivity|]. cbn. apply is_digit_Digit in D.
  destruct (is_space c) eqn:E; auto. apply space_not_digit in E. destruct E. congruence.
Qed.
Lemma blanks_blank b : b <> [] -> Forall Blank b -> 1 <= blanks b.
Proof.
  intros N F. destruct F as [|c b HB F]; [contradiction|]. unfold blanks. cbn. apply is_space_Blank in HB. rewrite HB. cbn. lia.
Qed.
Lemma row_blanks l : is_row l -> 2 <= blanks l.
Proof.
  intros (i & n & f & f0 & f1 & b0 & b1 & -> & _ & _ & N0 & B0 & N1 & B1 & _).
  rewrite !blanks_app. pose proof (blanks_blank _ N0 B0). pose proof (blanks_blank _ N1 B1). lia.
Qed.
Lemma field_last f : targets_field f -> exists s c, f = s ++ [c] /\ is_space c = false.
Proof.
  intros [->|[N F]]; [exists [], "_"%char; auto|].
  destruct (exists_last N) as (s & c & ->). exists s, c. split; auto. apply Forall_app in F as [_ F].
  inversion F as [|? ? H _]; subst. apply is_digit_comma_iff in H. apply dc_not_other in H. tauto.
Qed.
Lemma row_last l : ~ is_row (l ++ ["009"%char]).
Proof.
  intros (i & n & f & f0 & f1 & b0 & b1 & E & _ & _ & _ & _ & _ & _ & _ & T1).
  destruct (field_last _ T1) as (s & c & -> & Hc). rewrite !app_assoc in E. apply app_inj_tail in E as [_ <-].
  vm_compute in Hc. discriminate.
Qed.
Lemma row_prefix g q r e : row_line g q = r ++ e ->
  ~ is_row r \/
  exists d, d <> [] /\ show_nat (nxt g q true) = d ++ e /\
    row_format r (initial_state g =? q) (show_nat q) (fin g q) (show_nat (nxt g q false)) d.
Proof.
  unfold row_line. set (H := (if initial_state g =? q then [">"%char] else []) ++ show_nat q ++ (if fin g q then ["*"%char] else [])).
  set (D0 := show_nat (nxt g q false)). set (D1 := show_nat (nxt g q true)).
  intros E. assert (E' : (H ++ ["009"%char] ++ D0) ++ ("009"%char :: D1) = r ++ e).
  { rewrite <- E. unfold H. rewrite <- !app_assoc. reflexivity. }
  assert (BH : blanks H = 0).
  { unfold H. rewrite !blanks_app, (blanks_digits (show_nat q)) by apply show_nat_digits.
    destruct (initial_state g =? q), (fin g q); reflexivity. }
  assert (B0 : blanks D0 = 0) by (apply blanks_digits, show_nat_digits).
  assert (BB : blanks (H ++ ["009"%char] ++ D0) = 1) by (rewrite !blanks_app, BH, B0; reflexivity).
  apply app_eq_app in E' as (m & [[EH Ee]|[-> Em]]).
  - left. intros R. apply row_blanks in R. rewrite EH, blanks_app in BB. lia.
  - destruct m as [|c d].
    + left. rewrite app_nil_r. intros R. apply row_blanks in R. lia.
    + cbn [app] in Em. injection Em as <- Ed. destruct d as [|c d].
      * left. apply row_last.
      * right. exists (c :: d). split; [discriminate|]. split; auto.
        exists ["009"%char], ["009"%char]. unfold H. rewrite <- !app_assoc. cbn [app].
        assert (B : Forall Blank ["009"%char]) by (constructor; [|constructor]; cbn; auto).
        assert (FD : Forall Digit (c :: d)).
        { pose proof (show_nat_digits (nxt g q true)) as F. fold D1 in F. rewrite Ed in F.
          change (c :: d ++ e) with ((c :: d) ++ e) in F. apply Forall_app in F. tauto. }
        assert (TF : forall n, targets_field (show_nat n)).
        { intros n. right. split; [apply show_nat_ne|]. eapply Forall_impl; [|apply show_nat_digits]. auto. }
        split; [reflexivity|]. split; [apply show_nat_ne|]. split; [apply show_nat_digits|].
        split; [discriminate|]. split; [exact B|]. split; [discriminate|]. split; [exact B|].
        split; [apply TF|]. right. split; [discriminate|]. eapply Forall_impl; [|exact FD]. auto.
Qed.

(** Fewer digits give a smaller number. *)
Lemma digits_val_app d e : (digits_val d <= digits_val (d ++ e))%N /\ (e <> [] -> (10 * digits_val d <= digits_val (d ++ e)))%N.
Proof.
  induction e as [|c e [IH1 IH2]] using rev_ind.
  - rewrite app_nil_r. split; [lia|congruence].
  - rewrite app_assoc, digits_val_snoc. split; [lia|]. intros _. lia.
Qed.
Lemma show_nat_lead x : 1 <= x -> exists c s, show_nat x = c :: s /\ (0 < digit_val c)%N.
Proof.
  intros Hx. unfold show_nat. set (u := N.to_uint (N.of_nat x)).
  assert (U : Decimal.unorm u = u).
  { unfold u. rewrite <- DecimalN.Unsigned.to_of, DecimalN.Unsigned.of_to. reflexivity. }
  assert (V : N.of_uint u = N.of_nat x) by (apply DecimalN.Unsigned.of_to).
  destruct u as [|u|u|u|u|u|u|u|u|u|u]; try (eexists _, _; split; [reflexivity|reflexivity]).
  - cbn in V. lia.
  - exfalso. unfold Decimal.unorm in U. cbn [Decimal.nzhead] in U.
    destruct (Decimal.nzhead u) eqn:E; try discriminate.
    + injection U as <-. cbn in V. lia.
    + eapply DecimalFacts.nzhead_nonzero; eauto.
Qed.
Lemma show_nat_prefix x d e : show_nat x = d ++ e -> d <> [] -> (N.of_nat x <= int_max)%N ->
  exists v, int_number d v /\ (e = [] -> v = x) /\ (e <> [] -> v < x /\ 10 <= x).
Proof.
  intros E N L. pose proof (show_nat_val x) as V. pose proof (show_nat_digits x) as F. rewrite E in V, F.
  destruct (digits_val_app d e) as [A B]. apply Forall_app in F as [Fd Fe].
  exists (N.to_nat (digits_val d)). split; [apply int_number_iff; repeat split; auto; lia|].
  split; [intros ->; rewrite app_nil_r in V; lia|]. intros Ne. specialize (B Ne).
  assert (NZ : (digits_val d <> 0)%N).
  { (* no leading zero: the printed number is longer than one digit *)
    intros Z. destruct x as [|x].
    - cbn in E. destruct d as [|c [|]]; [contradiction| |discriminate]. injection E as _ <-. contradiction.
    - pose proof (show_nat_lead (S x) ltac:(lia)) as (c & s & Es & Hc). rewrite E in Es. destruct d as [|c' d]; [contradiction|].
      injection Es as -> Es. clear - Z Hc. unfold digits_val in Z. cbn [fold_left] in Z.
      assert (G : forall l a, (0 < a)%N -> (0 < fold_left (fun a c => 10 * a + digit_val c) l a)%N).
      { induction l as [|y l IH]; intros a Ha; cbn [fold_left]; auto. apply IH. lia. }
      specialize (G d (10 * 0 + digit_val c)%N). lia. }
  lia.
Qed.

(** * The rows of a truncated dump *)
Definition row_by (g : Graph) (nx : nat -> bool -> nat) (q : nat) : bool * bool * list nat * list nat :=
  (initial_state g =? q, fin g q, [nx q false], [nx q true]).

(** The successors as printed, except that the number [v] was read for the 1-successor of [k]. *)
Definition cut_at (g : Graph) (k v : nat) (q : nat) (b : bool) : nat :=
  if b then if q =? k then v else nxt g q true else nxt g q false.

Lemma rows_whole g tail tr : wf_graph g -> (N.of_nat (size g) <= int_max + 1)%N -> forall n k, k + n <= size g ->
  rows_of (k + n) tail tr ->
  rows_of k (map (row_line g) (seq k n) ++ tail) (map (graph_row g) (seq k n) ++ tr).
Proof.
  intros W HB. induction n as [|n IH]; intros k Hk HT; cbn [seq map app]; [rewrite Nat.add_0_r in HT; auto|].
  pose proof (nxt_lt g k false W ltac:(lia)). pose proof (nxt_lt g k true W ltac:(lia)).
  eapply rows_row; [apply row_line_format| | | |apply IH; [lia|replace (S k + n) with (k + S n) by lia; auto]].
  - apply show_nat_int. lia.
  - apply tg_one, show_nat_int. lia.
  - apply tg_one, show_nat_int. lia.
Qed.

Lemma firstn_seq n a k : k <= n -> firstn k (seq a n) = seq a k.
Proof.
  revert a n; induction k as [|k IH]; intros a [|n] H; cbn; auto; try lia. f_equal. apply IH. lia.
Qed.

(** What a truncated dump describes: [n] whole rows, or [k] whole rows and one with a shorter last number. *)
Lemma cut_rows g t p s : wf_graph g -> (N.of_nat (size g) <= int_max + 1)%N -> dump g = Ok t -> t = p ++ s ->
  exists ls n nx, lines_of p ls /\ rows_of 0 ls (map (row_by g nx) (seq 0 n)) /\ n <= size g /\
    ((nx = nxt g /\ (n = size g -> s = [] \/ s = ["010"%char])) \/
     (exists k v, n = S k /\ nx = cut_at g k v /\ v < nxt g k true /\ 10 <= nxt g k true)).
Proof.
  intros W HB E Ht. rewrite dump_lines in E by auto. injection E as <-.
  destruct (prefix_lines _ p s Ht) as (k & r & Hk & -> & HR).
  rewrite map_length, seq_length in Hk.
  assert (NL : forall l, In l (firstn k (map (row_line g) (seq 0 (size g)))) -> ~ In "010"%char l).
  { intros l Hl. rewrite firstn_map in Hl. apply in_map_iff in Hl as (q & <- & _). apply row_line_no_nl. }
  assert (EK : firstn k (map (row_line g) (seq 0 (size g))) = map (row_line g) (seq 0 k)).
  { rewrite firstn_map, firstn_seq; auto. }
  assert (RB : forall l, map (row_by g (nxt g)) l = map (graph_row g) l) by reflexivity.
  destruct HR as [->|(l & e & Hl & -> & Hs)].
  - exists (firstn k (map (row_line g) (seq 0 (size g)))), k, (nxt g).
    split; [pose proof (lines_of_part _ [] NL (fun H => H)) as LP; cbn beta iota in LP; rewrite (app_nil_r (firstn _ _)) in LP; exact LP|].
    rewrite EK. split.
    { rewrite <- (app_nil_r (map (row_line g) _)), <- (app_nil_r (map (row_by g _) _)). apply rows_whole; auto.
      constructor. }
    split; auto. left. split; auto. intros ->.
    rewrite EK, app_nil_r in Ht. left. apply (app_inv_head (nl_lines (map (row_line g) (seq 0 (size g))))).
    rewrite app_nil_r. auto.
  - rewrite nth_error_map in Hl. destruct (nth_error (seq 0 (size g)) k) as [k'|] eqn:Ek; [|discriminate].
    assert (Lk : k < size g) by (apply nth_error_lt in Ek; rewrite seq_length in Ek; auto).
    rewrite nth_error_seq in Ek by auto. injection Ek as <-. injection Hl as Hl. cbn in Hl.
    assert (Nr : ~ In "010"%char r).
    { intros H. apply (row_line_no_nl g k). rewrite Hl. apply in_or_app; auto. }
    set (tail := match r with [] => [] | _ => [r] end).
    assert (LP : lines_of (nl_lines (firstn k (map (row_line g) (seq 0 (size g)))) ++ r)
              (firstn k (map (row_line g) (seq 0 (size g))) ++ tail)) by (apply lines_of_part; auto).
    destruct (row_prefix g k r e Hl) as [NR|(d & Nd & Ed & RF)].
    + exists (firstn k (map (row_line g) (seq 0 (size g))) ++ tail), k, (nxt g). split; auto. rewrite EK. split.
      { rewrite <- (app_nil_r (map (row_by g _) _)). apply rows_whole; auto. unfold tail. destruct r; [constructor|].
        apply rows_skip; [auto|constructor]. }
      split; auto. left. split; auto. lia.
    + pose proof (nxt_lt g k false W Lk). pose proof (nxt_lt g k true W Lk).
      destruct (show_nat_prefix _ _ _ Ed Nd ltac:(lia)) as (v & Iv & V1 & V2).
      assert (RR : forall nx, (forall q, q < k -> nx q false = nxt g q false /\ nx q true = nxt g q true) ->
        nx k false = nxt g k false -> nx k true = v ->
        rows_of 0 (map (row_line g) (seq 0 k) ++ tail) (map (row_by g nx) (seq 0 (S k)))).
      { intros nx N1 N2 N3. rewrite seq_S, map_app.
        assert (EM : map (row_by g nx) (seq 0 k) = map (graph_row g) (seq 0 k)).
        { apply map_ext_in. intros q Hq. apply in_seq in Hq. unfold row_by, graph_row.
          destruct (N1 q ltac:(lia)) as [-> ->]. reflexivity. }
        rewrite EM. apply rows_whole; auto. unfold tail. destruct r as [|c r].
        { exfalso. assert (R : is_row []) by (do 5 eexists; exact RF). apply row_blanks in R. cbn in R. lia. }
        cbn [map Nat.add]. change (0 + k) with k. unfold row_by. rewrite N2, N3.
        eapply rows_row; [exact RF| | | |constructor].
        - apply show_nat_int. lia.
        - apply tg_one, show_nat_int. lia.
        - apply tg_one; auto. }
      destruct e as [|c e].
      * exists (firstn k (map (row_line g) (seq 0 (size g))) ++ tail), (S k), (nxt g). split; auto. rewrite EK. split.
        { apply RR; auto. rewrite V1; auto. }
        split; [lia|]. left. split; auto.
        intros Hn. right. rewrite Hs. cbn [app]. rewrite skipn_all2 by (rewrite map_length, seq_length; lia). reflexivity.
      * exists (firstn k (map (row_line g) (seq 0 (size g))) ++ tail), (S k), (cut_at g k v). split; auto. rewrite EK. split.
        { apply RR; unfold cut_at; auto; [|rewrite Nat.eqb_refl; auto].
          intros q Hq. destruct (Nat.eqb_spec q k); [lia|auto]. }
        split; [lia|]. right. destruct V2 as [A B]; [discriminate|]. eauto 6.
Qed.

(** * What is built from such rows *)
Lemma nth_rows_by g nx n q : nth_error (map (row_by g nx) (seq 0 n)) q = if q <? n then Some (row_by g nx q) else None.
Proof.
  rewrite nth_error_map. destruct (Nat.ltb_spec q n).
  - rewrite nth_error_seq by auto. reflexivity.
  - rewrite (proj2 (nth_error_None _ _)); [reflexivity|rewrite seq_length; auto].
Qed.
Lemma rows_by_inits g nx n : inits_of (map (row_by g nx) (seq 0 n)) = [if initial_state g <? n then initial_state g else 0].
Proof.
  assert (M : forall q, In q (marked_inits (map (row_by g nx) (seq 0 n))) <-> q < n /\ q = initial_state g).
  { intros q. unfold marked_inits. rewrite (proj2 (sel_is_set _ _)). rewrite nth_rows_by. split.
    - intros (x & E & H). destruct (Nat.ltb_spec q n); [|discriminate]. injection E as <-. cbn in H.
      apply Nat.eqb_eq in H. auto.
    - intros [L ->]. apply Nat.ltb_lt in L. rewrite L. eexists; split; [reflexivity|]. cbn. apply Nat.eqb_refl. }
  unfold inits_of. destruct (Nat.ltb_spec (initial_state g) n) as [L|L].
  - replace (marked_inits _) with [initial_state g]; [reflexivity|]. symmetry.
    apply is_set_ext; [apply marked_inits_set|cbn; auto|]. intros q. rewrite M. cbn. intuition.
  - destruct (marked_inits _) as [|x l] eqn:E; [reflexivity|]. exfalso.
    destruct (proj1 (M x) (or_introl eq_refl)). lia.
Qed.
Lemma rows_by_build g nx n : wf_graph g -> n <= size g ->
  let rows := map (row_by g nx) (seq 0 n) in
  ((forall q b, q < n -> nx q b < n) ->
   exists g', build rows = Ok g' /\ size g' = n /\
     initial_state g' = (if initial_state g <? n then initial_state g else 0) /\
     (forall q b, q < n -> nxt g' q b = nx q b) /\ (forall q, q < n -> fin g' q = fin g q) /\ (0 < n -> wf_graph g')) /\
  (~ (forall q b, q < n -> nx q b < n) -> build rows = Fail FOutOfRange).
Proof.
  intros W Hn rows.
  assert (LR : length rows = n) by (unfold rows; rewrite map_length, seq_length; auto).
  assert (D : deterministic rows).
  { split; [unfold rows; rewrite rows_by_inits; reflexivity|]. apply Forall_forall. intros r Hr.
    apply in_map_iff in Hr as (q & <- & _). cbn. auto. }
  rewrite build_det by auto.
  pose proof D as D0. apply deterministic_iff in D0. apply andb_prop in D0 as [_ DF].
  assert (CL : targets_ok (det_rows rows) <-> forall q b, q < n -> nx q b < n).
  { rewrite det_targets by auto. unfold closed_table. rewrite LR, Forall_forall. split.
    - intros H q b Hq. specialize (H (row_by g nx q)). cbn in H.
      assert (I : In (row_by g nx q) rows) by (apply in_map, in_seq; lia).
      specialize (H I). pose proof (Forall_inv H). pose proof (Forall_inv (Forall_inv_tail H)). destruct b; auto.
    - intros H r Hr. apply in_map_iff in Hr as (q & <- & Hq). apply in_seq in Hq. cbn.
      constructor; [apply H; lia|]. constructor; [apply H; lia|constructor]. }
  assert (FO : forall q, In q (finals_of rows) <-> q < n /\ fin g q = true).
  { intros q. unfold finals_of. rewrite (proj2 (sel_is_set _ _)). unfold rows. rewrite nth_rows_by. split.
    - intros (x & E & H). destruct (Nat.ltb_spec q n); [|discriminate]. injection E as <-. auto.
    - intros [L F]. apply Nat.ltb_lt in L. rewrite L. eexists; split; [reflexivity|]. auto. }
  assert (LD : length (det_rows rows) = n) by (rewrite det_rows_length; auto).
  split.
  - intros H. apply CL in H.
    rewrite graph_new_good by (auto; intros q Hq; apply FO in Hq; rewrite LD; tauto).
    eexists. split; [reflexivity|]. unfold size. cbn [graph_of g_delta]. split; auto.
    split; [unfold rows; rewrite rows_by_inits; reflexivity|].
    split; [|split].
    + intros q b Hq. unfold nxt. cbn [graph_of g_delta]. rewrite det_rows_nth. unfold rows. rewrite nth_rows_by.
      apply Nat.ltb_lt in Hq. rewrite Hq. destruct b; reflexivity.
    + intros q Hq. unfold fin at 1. cbn [graph_of g_final]. apply eq_true_iff_eq. rewrite smem_In, FO. tauto.
    + intros Hp. apply graph_of_wf; auto.
      * intros q Hq. apply FO in Hq. rewrite LD. tauto.
      * intros q l q0 q1 E. rewrite det_rows_nth in E. destruct (nth_error rows q) as [[[[? ?] ?] ?]|]; [|discriminate].
        injection E as <- _ _. reflexivity.
      * rewrite LD. unfold rows. rewrite rows_by_inits. cbn [hd]. destruct (Nat.ltb_spec (initial_state g) n); lia.
      * apply finals_of_set.
  - intros H. apply graph_new_bad. intros [T _]. apply H, CL, T.
Qed.

(** A nonempty set of states that contains the initial one and is closed is everything that is reachable. *)
Lemma closed_init g n : wf_graph g -> (forall q, q < size g -> dfa_reaches g q) -> initial_state g < n ->
  (forall q x, q < n -> nxt g q x < n) -> size g <= n.
Proof.
  intros W HR Hi HC. destruct (le_lt_dec (size g) n) as [|Hl]; auto. exfalso.
  specialize (HR n Hl). apply reaches_reach in HR as (w & Hw); auto.
  assert (G : forall w q, q < n -> run g q w < n).
  { clear Hw w. induction w as [|x w IH]; intros q Hq; cbn; auto. apply IH, HC, Hq. }
  specialize (G w (initial_state g) Hi). rewrite Hw in G. lia.
Qed.
Lemma closed_dec (nx : nat -> bool -> nat) n : {forall q b, q < n -> nx q b < n} + {~ forall q b, q < n -> nx q b < n}.
Proof.
  destruct (forallb (fun q => (nx q false <? n) && (nx q true <? n)) (seq 0 n)) eqn:E.
  - left. rewrite forallb_forall in E. intros q b Hq. specialize (E q). rewrite in_seq, andb_true_iff, !Nat.ltb_lt in E.
    destruct E; [lia|]. destruct b; auto.
  - right. intros H. apply Bool.not_true_iff_false in E. apply E. apply forallb_forall. intros q Hq. apply in_seq in Hq.
    apply andb_true_intro. rewrite !Nat.ltb_lt. split; apply H; lia.
Qed.

(** * The initial state stays state 0 *)
Lemma set_of_zero R i : is_set R -> In 0 R -> nth_error R i = Some 0 -> i = 0.
Proof.
  intros S H E. destruct i as [|i]; auto. destruct R as [|x R]; [destruct H|].
  cbn in E. apply nth_error_In in E. apply (is_set_lt x R 0 S) in E. lia.
Qed.
Lemma grouped_zero g g' : wf_graph g -> initial_state g = 0 -> grouped_nondistinguishable g = Ok g' -> initial_state g' = 0.
Proof.
  intros W I0 E. unfold grouped_nondistinguishable in E.
  apply bind_ok in E as (t & _ & E). apply bind_ok in E as (uf & _ & E). apply bind_ok in E as (grp & EG & E).
  assert (CG : size g <> 0 -> forall i c, nth_error (gr_st grp) i = Some c -> (In 0 c <-> i = 0)).
  { intros Hz. unfold group_states in EG.
    apply (foldM_inv _ (fun done s => match done with
        [] => s = mkGrp uf (repeat None (size g)) (repeat [] (uf_size uf)) 0
      | _ => forall i c, nth_error (gr_st s) i = Some c -> (In 0 c <-> i = 0) end)) in EG; auto.
    - unfold all_states in EG. destruct (size g); [contradiction|]. exact EG.
    - intros done a rest s s' El HP Es. apply bind_ok in Es as ([uf1 ui] & _ & Es). apply bind_ok in Es as (o & Eo & Es).
      apply bind_ok in Es as ([u2 nx] & Eu & Es). apply bind_ok in Es as (o' & Eo' & Es).
      destruct o' as [i|]; [|discriminate]. apply bind_ok in Es as (cell & Ec & Es). apply bind_ok in Es as (st' & Est & Es).
      injection Es as <-. cbn [gr_st]. apply set_at_ok in Est as [Li ->]. apply at_ok in Ec, Eo, Eo'.
      unfold all_states in El. apply seq_app_inv in El as (_ & -> & _). cbn [plus].
      destruct done as [|d0 done].
      + cbn [app length]. subst s. cbn [gr_uf2st gr_st gr_next] in *.
        assert (o = None) as ->.
        { apply nth_error_In in Eo. apply repeat_spec in Eo. auto. }
        apply bind_ok in Eu as (u & Eu & [= <- <-]). apply set_at_ok in Eu as [Lu ->].
        rewrite upd_eq in Eo' by auto. injection Eo' as <-.
        apply nth_error_In in Ec. apply repeat_spec in Ec. subst cell.
        intros j c Hj. destruct (Nat.eq_dec j 0) as [->|Hne].
        * rewrite upd_eq in Hj by auto. injection Hj as <-. cbn. tauto.
        * rewrite upd_neq in Hj by auto. apply nth_error_In in Hj. apply repeat_spec in Hj. subst c. cbn. tauto.
      + cbn [app]. intros j c Hj. destruct (Nat.eq_dec j i) as [->|Hne].
        * rewrite upd_eq in Hj by auto. injection Hj as <-. rewrite sinsert_In. cbn [length]. rewrite <- (HP i cell Ec).
          split; [intros [|]; [lia|auto]|auto].
        * rewrite upd_neq in Hj by auto. auto. }
  assert (Hz : size g <> 0) by (pose proof (init_lt g W); lia). specialize (CG Hz).
  apply bind_ok in E as (qt & EQ & E). destruct (qt_init qt) as [i|] eqn:Ei; [|discriminate].
  apply graph_new_ok in E as (_ & _ & ->). cbn [graph_of initial_state g_init].
  refine (foldM_inv _ (fun _ s => forall i, qt_init s = Some i -> i = 0) _ _ _ EQ _ _ i Ei); [discriminate|].
  intros done a rest s s' El HP Es. unfold quot_step in Es. apply bind_ok in Es as (cl & Ecl & Es). apply at_ok in Ecl.
  destruct cl as [|r cl]; [discriminate|]. apply bind_ok in Es as (f & _ & Es). apply bind_ok in Es as (n0 & _ & Es).
  apply bind_ok in Es as ([u1 q0] & _ & Es). apply bind_ok in Es as (n1 & _ & Es). apply bind_ok in Es as ([u2 q1] & _ & Es).
  injection Es as <-. cbn [qt_init]. rewrite I0. destruct (existsb (Nat.eqb 0) (r :: cl)) eqn:Ex.
  - intros j Ej. change ((0 =? r) || existsb (Nat.eqb 0) cl) with (existsb (Nat.eqb 0) (r :: cl)) in Ej. rewrite Ex in Ej. injection Ej as <-. apply (CG a _ Ecl). apply (smem_In 0 (r :: cl)). exact Ex.
  - intros j Ej. change ((0 =? r) || existsb (Nat.eqb 0) cl) with (existsb (Nat.eqb 0) (r :: cl)) in Ej. rewrite Ex in Ej. auto.
Qed.
Lemma minimized_zero g g' : wf_graph g -> initial_state g = 0 -> minimized g = Ok g' -> initial_state g' = 0.
Proof.
  intros W I0 E. unfold minimized in E. apply bind_ok in E as (g1 & E1 & E).
  destruct (removed_unreachable_correct g W) as (x & R & Ex & W1 & HS & HR & _ & H0 & _). rewrite E1 in Ex. injection Ex as <-.
  rewrite I0 in H0. eapply grouped_zero; [exact W1| |exact E].
  eapply set_of_zero; [exact HS|apply nth_error_In in H0; auto|exact H0].
Qed.
Lemma negated_trim g g' : wf_graph g -> negated g = Ok g' ->
  initial_state g' = initial_state g /\ size g' = size g /\ forall q, dfa_reaches g q -> dfa_reaches g' q.
Proof.
  intros W E. unfold negated in E. apply bind_ok in E as (nf & _ & E). apply graph_new_ok in E as (_ & _ & ->).
  split; [reflexivity|]. split; [reflexivity|]. intros q (w & H). exists w. exact H.
Qed.
