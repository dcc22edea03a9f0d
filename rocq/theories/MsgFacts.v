(** Lemmas for C78. *)
From Coq Require Import String.
From Coq Require Import List Arith Bool NArith Lia Ascii.
Import ListNotations.
From Verif Require Import Base GraphModel Spec TextModel TextSpec TextFacts AttFacts DotModel CmdModel MsgModel MsgSpec.
Local Open Scope list_scope.

(** ** The results without the messages *)
Lemma snd_after {A B} (m : said A) (k : A -> said B) : snd (after m k) = bind (snd m) (fun a => snd (k a)).
Proof. destruct m as [l [a|e]]; cbn; auto. destruct (k a); reflexivity. Qed.
Lemma snd_loop {A S} (f : S -> A -> said S) (g : S -> A -> res S) (E : forall s a, snd (f s a) = g s a) l :
  forall s, snd (loop f l s) = foldM g l s.
Proof.
  induction l as [|a l IH]; intros s; cbn [loop foldM]; auto. rewrite snd_after, E. destruct (g s a); cbn; auto.
Qed.
Lemma after_app {A B} (l l' : list note) (r : res A) (k : A -> said B) :
  after (l ++ l', r) k = let (l2, r2) := after (l', r) k in (l ++ l2, r2).
Proof. destruct r; cbn; auto. destruct (k a). rewrite app_assoc. reflexivity. Qed.
Lemma loop_app {A S} (f : S -> A -> said S) l l' : forall s, loop f (l ++ l') s = after (loop f l s) (loop f l').
Proof.
  induction l as [|a l IH]; intros s; cbn [loop app].
  - cbn. destruct (loop f l' s); reflexivity.
  - destruct (f s a) as [n [s1|e]]; cbn [after]; auto. rewrite IH.
    destruct (loop f l s1) as [n1 [s2|e]]; cbn [after]; auto.
    destruct (loop f l' s2) as [n2 r]. rewrite app_assoc. reflexivity.
Qed.

Lemma shown_app q l l' : shown q (l ++ l') = shown q l ++ shown q l'.
Proof. apply filter_app. Qed.

Section Trace.
Context (trace : text).

Lemma load_entries fs : forall acc,
  snd (loop (load_state trace) fs acc) = bind (mapM load_item fs) (fun l => Ok (acc ++ l)).
Proof.
  induction fs as [|p fs IH]; intros acc; cbn [loop mapM bind].
  - cbn. rewrite app_nil_r. reflexivity.
  - rewrite snd_after. unfold load_state at 1, load_item at 1. destruct (stoi p); cbn; auto.
    rewrite IH. destruct (mapM load_item fs); cbn; auto. rewrite <- app_assoc. reflexivity.
Qed.
Lemma load_states_same f : snd (load_states_said trace f) = load_states f.
Proof.
  unfold load_states_said, load_states. destruct list_eq_dec; [reflexivity|]. rewrite load_entries.
  change (fun f0 : list ascii => match stoi f0 with
       | StoiOk n => Ok (N.to_nat n) | StoiInvalid => Fail FExit | StoiRange => Fail FOutOfRange end)
      with load_item.
  destruct (mapM load_item (getlines c_comma [] f)); reflexivity.
Qed.
Lemma parse_line_same s l : snd (parse_line_said trace s l) = parse_line s l.
Proof.
  unfold parse_line_said, parse_line. destruct (match_row l) as [m|]; [|reflexivity].
  rewrite snd_after, load_states_same. destruct (load_states (m_f0 m)); cbn [bind]; auto.
  rewrite snd_after, load_states_same. destruct (load_states (m_f1 m)); cbn [bind]; auto.
  destruct (stoi (m_num m)); auto. destruct (N.eqb _ _); reflexivity.
Qed.
Lemma from_istream_same t : snd (from_istream_said trace t) = from_istream t.
Proof.
  unfold from_istream_said. rewrite snd_after, (snd_loop _ parse_line parse_line_same). reflexivity.
Qed.
Lemma att_line_same s l : snd (att_line_said trace s l) = att_line s l.
Proof.
  unfold att_line_said, att_line. destruct s as [finals delta]. destruct (match_att_edge l) as [[[a b] ch]|]; [reflexivity|].
  destruct (match_att_final l); reflexivity.
Qed.
Lemma from_att_istream_same t : snd (from_att_istream_said trace t) = from_att_istream t.
Proof.
  unfold from_att_istream_said. rewrite snd_after, (snd_loop _ att_line att_line_same). unfold from_att_istream.
  destruct (foldM _ _ _) as [[fs d]|]; reflexivity.
Qed.

(** ** Lists of targets *)
Lemma too_large_iff s : too_large s <-> s <> [] /\ Forall Digit s /\ stoi s = StoiRange.
Proof.
  unfold too_large. split.
  - intros (v & D & L). apply decimal_iff in D as (N & F & <-). split; auto. split; auto.
    unfold stoi. destruct s; [congruence|]. destruct (N.leb_spec (digits_val (a :: s)) int_max); auto. unfold int_max in *. lia.
  - intros (N & F & E). exists (digits_val s). rewrite decimal_iff. split; auto.
    unfold stoi in E. destruct s; [congruence|]. destruct (N.leb_spec (digits_val (a :: s)) int_max); [discriminate|].
    unfold int_max in *. lia.
Qed.
Lemma number_cases s : s <> [] -> Forall Digit s -> (exists n, int_number s n) \/ too_large s.
Proof.
  intros N F. destruct (stoi s) as [v| |] eqn:E.
  - left. exists (N.to_nat v). apply stoi_int_number; eauto.
  - unfold stoi in E. destruct s; [congruence|]. destruct (N.leb _ _); discriminate.
  - right. apply too_large_iff. auto.
Qed.
Lemma first_wrong_ne f w : first_wrong f w -> f <> ["_"%char].
Proof.
  assert (D : forall s u, Forall Digit s -> s <> [] -> s ++ u <> ["_"%char]).
  { intros [|c s] u F N E; [congruence|]. injection E as -> _. inversion F; subst. apply is_digit_Digit in H1. discriminate. }
  intros H. destruct H as [f|s L|s f L|s n f w L H].
  - discriminate.
  - apply too_large_iff in L as (N & F & _). rewrite <- (app_nil_r s). auto.
  - apply too_large_iff in L as (N & F & _). auto.
  - apply int_number_digits in L as [F N]. auto.
Qed.
Lemma load_wrong f w : first_wrong f w -> forall acc,
  loop (load_state trace) (getlines c_comma [] f) acc = complains trace [] (list_complaint w).
Proof.
  induction 1 as [f|s L|s f L|s n f w L H IH]; intros acc.
  - change (","%char :: f) with ([] ++ c_comma :: f). rewrite getlines_cut by (intros []). reflexivity.
  - apply too_large_iff in L as (N & F & E). rewrite getlines_nosep by (apply digit_no_comma; auto).
    cbn [app]. destruct s; [congruence|]. cbn [loop]. unfold load_state at 1. rewrite E. reflexivity.
  - apply too_large_iff in L as (N & F & E). change ","%char with c_comma. rewrite getlines_cut by (apply digit_no_comma; auto).
    cbn [loop app]. unfold load_state at 1. rewrite E. reflexivity.
  - pose proof L as [F N]%int_number_digits. change ","%char with c_comma. rewrite getlines_cut by (apply digit_no_comma; auto).
    apply stoi_int_number in L as (v & E & _); auto. cbn [loop app]. unfold load_state at 1. rewrite E.
    cbn [after mute]. rewrite IH. destruct w; reflexivity.
Qed.
Lemma load_states_wrong f w : first_wrong f w -> load_states_said trace f = complains trace [] (list_complaint w).
Proof.
  intros H. unfold load_states_said. destruct list_eq_dec as [E|_]; [apply first_wrong_ne in H; contradiction|].
  apply load_wrong. auto.
Qed.
Lemma loop_quiet fs : forall acc l, snd (loop (load_state trace) fs acc) = Ok l -> fst (loop (load_state trace) fs acc) = [].
Proof.
  induction fs as [|p fs IH]; intros acc l; cbn [loop]; auto. unfold load_state at 1 3. destruct (stoi p); cbn; try discriminate.
  specialize (IH (acc ++ [N.to_nat n]) l). destruct (loop _ fs _). auto.
Qed.
Lemma load_states_good f l : targets_field f -> targets f l -> load_states_said trace f = ([], Ok l).
Proof.
  intros HF H. apply load_states_ok in H; auto. rewrite <- load_states_same in H.
  enough (E : fst (load_states_said trace f) = []) by (destruct (load_states_said trace f); cbn in *; congruence).
  revert H. unfold load_states_said. destruct list_eq_dec; auto. apply loop_quiet.
Qed.
Lemma targets_cases f : targets_field f -> (exists l, targets f l) \/ (exists w, first_wrong f w).
Proof.
  intros [->|[N F]]; [left; exists []; constructor|].
  enough (G : f = [] \/ (exists l, targets f l) \/ (exists w, first_wrong f w)) by tauto. clear N.
  revert F. pattern f, (getlines c_comma [] f). revert f.
  refine (getlines_ind c_comma (fun f _ => Forall (fun c => Digit c \/ c = ","%char) f ->
    f = [] \/ (exists l, targets f l) \/ (exists w, first_wrong f w)) _ _ _).
  - auto.
  - intros f Hf Hs F. right.
    assert (FD : Forall Digit f).
    { rewrite Forall_forall in *. intros c Hc. destruct (F c Hc) as [|E]; auto. subst. exfalso; auto. }
    destruct (number_cases f Hf FD) as [[n H]|H].
    + left. exists [n]. constructor; auto.
    + right. exists Large. constructor; auto.
  - intros p t ps Hp IH F. right. apply Forall_app in F as [F1 F2]. inversion F2 as [|c0 t0 _ F3]; subst.
    assert (FD : Forall Digit p).
    { rewrite Forall_forall in *. intros c Hc. destruct (F1 c Hc) as [|E]; auto. subst. exfalso; auto. }
    destruct p as [|c p]; [right; exists Empty; apply fw_empty|].
    destruct (number_cases (c :: p)) as [[n H]|H]; auto; [discriminate| |right; exists Large; apply fw_large_more; auto].
    destruct (IH F3) as [->|[[l T]|[w W]]].
    + left. exists [n]. apply tg_trail. auto.
    + left. exists (n :: l). apply tg_cons; auto. apply dc_field_ne_us. auto.
    + right. exists w. eapply fw_later; eauto.
Qed.

(** ** Rows *)
Lemma line_skip s l : ~ is_row l -> parse_line_said trace s l = ([(LInfo, lit "Skip line """ ++ l ++ lit """")], Ok s).
Proof. intros H. apply match_row_none in H. unfold parse_line_said. rewrite H. reflexivity. Qed.
Lemma line_good done l i n f f0 f1 q0s q1s :
  row_format l i n f f0 f1 -> targets f0 q0s -> targets f1 q1s -> int_number n (length done) ->
  parse_line_said trace (st_of done) l = ([], Ok (st_of (done ++ [(i, f, q0s, q1s)]))).
Proof.
  intros R T0 T1 N.
  assert (E : parse_line (st_of done) l = Ok (st_of (done ++ [(i, f, q0s, q1s)]))).
  { apply (parse_line_row _ _ _ _ _ _ _ _ R). eauto 10. }
  rewrite <- parse_line_same in E.
  enough (fst (parse_line_said trace (st_of done) l) = []) by (destruct (parse_line_said trace (st_of done) l); cbn in *; congruence).
  clear E. pose proof R as (b0 & b1 & _ & N1 & D1 & _ & _ & _ & _ & F0 & F1).
  apply match_row_iff in R. unfold parse_line_said. rewrite R. cbn [m_f0 m_f1 m_num].
  rewrite (load_states_good _ _ F0 T0). cbn [after app]. rewrite (load_states_good _ _ F1 T1). cbn [after app].
  apply stoi_int_number in N as (v & Es & E); auto. rewrite Es.
  cbn [st_of p_delta p_init p_final p_dfa]. rewrite table_of_length.
  destruct (N.eqb_spec (N.of_nat (length done)) v); [reflexivity|lia].
Qed.
Lemma line_bad done l c : bad_row (length done) l c -> parse_line_said trace (st_of done) l = complains trace [] c.
Proof.
  intros H. destruct H as [i n f f0 f1 w R W|i n f f0 f1 q0s w R T0 W|i n f f0 f1 q0s q1s R T0 T1 L|i n f f0 f1 q0s q1s k R T0 T1 K NE];
  pose proof R as (b0 & b1 & _ & N1 & D1 & _ & _ & _ & _ & F0 & F1);
  apply match_row_iff in R; unfold parse_line_said; rewrite R; cbn [m_f0 m_f1 m_num].
  - rewrite (load_states_wrong _ _ W). destruct w; reflexivity.
  - rewrite (load_states_good _ _ F0 T0). cbn [after app]. rewrite (load_states_wrong _ _ W). destruct w; reflexivity.
  - rewrite (load_states_good _ _ F0 T0). cbn [after app]. rewrite (load_states_good _ _ F1 T1). cbn [after app].
    apply too_large_iff in L as (_ & _ & ->). reflexivity.
  - rewrite (load_states_good _ _ F0 T0). cbn [after app]. rewrite (load_states_good _ _ F1 T1). cbn [after app].
    apply stoi_int_number in K as (v & Es & E); auto. rewrite Es.
    cbn [st_of p_delta p_init p_final p_dfa]. rewrite table_of_length.
    destruct (N.eqb_spec (N.of_nat (length done)) v); [exfalso; apply NE; lia|]. subst k. reflexivity.
Qed.
Lemma line_cases q l : ~ is_row l \/
  (exists i n f f0 f1 q0s q1s, row_format l i n f f0 f1 /\ targets f0 q0s /\ targets f1 q1s /\ int_number n q) \/
  (exists c, bad_row q l c).
Proof.
  destruct (is_row_dec l) as [(i & n & f & f0 & f1 & R)|]; [right|auto].
  pose proof R as (b0 & b1 & _ & N1 & D1 & _ & _ & _ & _ & F0 & F1).
  destruct (targets_cases f0 F0) as [[q0s T0]|[w W]]; [|right; eexists; eapply bad_zero; eauto].
  destruct (targets_cases f1 F1) as [[q1s T1]|[w W]]; [|right; eexists; eapply bad_one; eauto].
  destruct (number_cases n N1 D1) as [[k K]|L]; [|right; eexists; eapply bad_large; eauto].
  destruct (Nat.eq_dec k q) as [->|]; [left; eauto 12|right; eexists; eapply bad_number; eauto].
Qed.

Lemma lines_good ls : forall done rows ns, rows_of (length done) ls rows -> skips ls ns ->
  loop (parse_line_said trace) ls (st_of done) = (ns, Ok (st_of (done ++ rows))).
Proof.
  induction ls as [|l ls IH]; intros done rows ns HR HS.
  - inversion HR; inversion HS; subst. rewrite app_nil_r. reflexivity.
  - cbn [loop]. inversion HR; subst.
    + inversion HS; subst; [contradiction|]. rewrite line_skip by auto. cbn [after].
      match goal with H : skips ls ?n |- _ => rewrite (IH done rows n) by auto end. reflexivity.
    + assert (is_row l) by (unfold is_row; eauto 10).
      inversion HS; subst; [|contradiction]. rewrite (line_good done l init num final f0 f1 q0s q1s) by auto. cbn [after].
      rewrite (IH (done ++ [(init, final, q0s, q1s)]) rows0 ns); auto.
      * rewrite <- app_assoc. reflexivity.
      * rewrite app_length. cbn. rewrite Nat.add_1_r. auto.
Qed.
Lemma skips_ex ls : exists ns, skips ls ns.
Proof.
  induction ls as [|l ls [ns IH]]; [exists []; constructor|].
  destruct (is_row_dec l); eexists; [apply skips_row|apply skips_other]; eauto.
Qed.
Lemma lines_cases ls : forall q,
  (exists rows, rows_of q ls rows) \/
  (exists pre l post rows c, ls = pre ++ l :: post /\ rows_of q pre rows /\ bad_row (q + length rows) l c).
Proof.
  induction ls as [|l ls IH]; intros q; [left; exists []; constructor|].
  destruct (line_cases q l) as [NR|[(i & n & f & f0 & f1 & q0s & q1s & R & T0 & T1 & K)|(c & B)]].
  - destruct (IH q) as [(rows & H)|(pre & l' & post & rows & c & -> & H & B)].
    + left. exists rows. apply rows_skip; auto.
    + right. exists (l :: pre), l', post, rows, c. split; auto. split; auto. apply rows_skip; auto.
  - destruct (IH (S q)) as [(rows & H)|(pre & l' & post & rows & c & -> & H & B)].
    + left. exists ((i, f, q0s, q1s) :: rows). eapply rows_row; eauto.
    + right. exists (l :: pre), l', post, ((i, f, q0s, q1s) :: rows), c. split; auto. split; [eapply rows_row; eauto|].
      cbn [length]. rewrite Nat.add_succ_r. exact B.
  - right. exists [], l, ls, [], c. split; auto. split; [constructor|]. cbn. rewrite Nat.add_0_r. auto.
Qed.
Lemma lines_bad pre l post rows c ns : rows_of 0 pre rows -> skips pre ns -> bad_row (length rows) l c ->
  loop (parse_line_said trace) (pre ++ l :: post) (st_of []) = complains trace ns c.
Proof.
  intros HR HS B. rewrite loop_app, (lines_good pre [] rows ns) by auto. cbn [after app loop].
  rewrite (line_bad rows l c B). destruct c; cbn; [reflexivity|]. rewrite app_nil_r. reflexivity.
Qed.

Lemma file_good t ls rows ns : lines_of t ls -> rows_of 0 ls rows -> skips ls ns ->
  from_istream_said trace t = (ns, from_istream t).
Proof.
  intros HL HR HS. pose proof (from_istream_same t) as E.
  enough (F : fst (from_istream_said trace t) = ns) by (destruct (from_istream_said trace t); cbn in *; congruence).
  clear E. unfold from_istream_said. rewrite (lines_of_unique _ _ HL).
  change (mkParse [] [] [] true) with (st_of []). rewrite (lines_good ls [] rows ns) by auto. cbn. apply app_nil_r.
Qed.
Lemma file_bad t pre l post rows c ns : lines_of t (pre ++ l :: post) -> rows_of 0 pre rows -> skips pre ns ->
  bad_row (length rows) l c -> from_istream_said trace t = complains trace ns c.
Proof.
  intros HL HR HS B. unfold from_istream_said. rewrite (lines_of_unique _ _ HL).
  change (mkParse [] [] [] true) with (st_of []). rewrite (lines_bad pre l post rows c ns) by auto. destruct c; reflexivity.
Qed.

(** ** AT&T lines *)
Lemma att_shaped_match l : att_shaped l <-> match_att_edge l <> None \/ match_att_final l <> None.
Proof.
  unfold att_shaped. split.
  - intros [(a & b & c & N1 & D1 & N2 & D2 & C & ->)|[N D]].
    + left. destruct C as [->| ->].
      * rewrite (proj2 (match_att_edge_iff _ a b false)) by auto. discriminate.
      * rewrite (proj2 (match_att_edge_iff _ a b true)) by auto. discriminate.
    + right. rewrite (proj2 (match_att_final_iff _ l)) by auto. discriminate.
  - intros [H|H].
    + left. destruct (match_att_edge l) as [[[a b] ch]|] eqn:M; [|congruence]. apply match_att_edge_iff in M as (-> & N1 & D1 & N2 & D2).
      exists a, b, (if ch then "1"%char else "0"%char). repeat (split; auto). destruct ch; auto.
    + right. destruct (match_att_final l) as [a|] eqn:M; [|congruence]. apply match_att_final_iff in M as (-> & N & D). auto.
Qed.
Lemma att_line_quiet s l : att_shaped l -> fst (att_line_said trace s l) = [].
Proof.
  intros H. apply att_shaped_match in H. unfold att_line_said. destruct s as [fs d].
  destruct (match_att_edge l) as [[[a b] ch]|]; [reflexivity|]. destruct (match_att_final l); [reflexivity|]. destruct H; congruence.
Qed.
Lemma att_denotes_shaped l it : att_denotes l it -> att_shaped l.
Proof.
  intros H. apply att_shaped_match. destruct (match_att_edge l) eqn:M; [left; discriminate|].
  destruct (match_att_final l) eqn:F; [right; discriminate|]. exfalso. eapply att_denotes_none; eauto.
Qed.
Lemma att_line_good items s l it : att_inv items s -> att_denotes l it ->
  exists s', att_line_said trace s l = ([], Ok s') /\ att_inv (items ++ [it]) s'.
Proof.
  intros I H. pose proof (att_line_same s l) as S.
  pose proof (att_line_quiet s l (att_denotes_shaped l it H)) as E.
  destruct (proj2 (att_line_spec items s l I) it H) as (s' & E' & I').
  exists s'. split; auto. destruct (att_line_said trace s l); cbn in *; congruence.
Qed.
Lemma stoi_plain_large a : too_large a -> stoi_plain a = Fail FOutOfRange.
Proof. intros H. apply too_large_iff in H as (_ & _ & E). unfold stoi_plain. rewrite E. reflexivity. Qed.
Lemma att_line_large s l : att_shaped l -> (forall it, ~ att_denotes l it) -> att_line_said trace s l = ([], Fail FOutOfRange).
Proof.
  intros H ND. pose proof (att_line_same s l) as S. pose proof (att_line_quiet s l H) as Q.
  enough (E : att_line s l = Fail FOutOfRange) by (destruct (att_line_said trace s l); cbn in *; congruence).
  clear S Q. apply att_shaped_match in H. unfold att_line. destruct s as [fs d].
  destruct (match_att_edge l) as [[[a b] ch]|] eqn:M.
  - pose proof M as (_ & N1 & D1 & N2 & D2)%match_att_edge_iff.
    destruct (number_cases a N1 D1) as [[f Hf]|L]; [|rewrite (stoi_plain_large a L); reflexivity].
    destruct (number_cases b N2 D2) as [[t Ht]|L].
    + exfalso. apply (ND (AEdge f t ch)). apply (att_denotes_edge _ _ _ _ _ M). eauto.
    + apply stoi_plain_ok in Hf; auto. rewrite Hf. cbn [bind]. rewrite (stoi_plain_large b L). reflexivity.
  - destruct (match_att_final l) as [a|] eqn:F; [|destruct H; congruence].
    pose proof F as (_ & N1 & D1)%match_att_final_iff.
    destruct (number_cases a N1 D1) as [[q Hq]|L]; [|rewrite (stoi_plain_large a L); reflexivity].
    exfalso. apply (ND (AFinal q)). apply (att_denotes_final _ _ _ M F). eauto.
Qed.
Lemma att_line_bad s l : ~ att_shaped l -> att_line_said trace s l = (die_notes trace (lit "Invalid line: " ++ l), Fail FExit).
Proof.
  intros H. rewrite att_shaped_match in H. unfold att_line_said. destruct s as [fs d].
  destruct (match_att_edge l); [exfalso; apply H; left; discriminate|].
  destruct (match_att_final l); [exfalso; apply H; right; discriminate|]. reflexivity.
Qed.
Lemma att_lines_good ls : forall items its s, att_inv items s -> Forall2 att_denotes ls its ->
  exists s', loop (att_line_said trace) ls s = ([], Ok s').
Proof.
  induction ls as [|l ls IH]; intros items its s I H; [exists s; reflexivity|].
  inversion H as [|? it ? its' Hit HF]; subst. destruct (att_line_good items s l it I Hit) as (s1 & E & I1).
  destruct (IH _ its' s1 I1 HF) as (s2 & E2). exists s2. cbn [loop]. rewrite E. cbn [after]. rewrite E2. reflexivity.
Qed.
Lemma att_good t ls its : lines_of t ls -> Forall2 att_denotes ls its ->
  from_att_istream_said trace t = ([], from_att_istream t).
Proof.
  intros HL H. pose proof (from_att_istream_same t) as S.
  enough (Q : fst (from_att_istream_said trace t) = []) by (destruct (from_att_istream_said trace t); cbn in *; congruence).
  unfold from_att_istream_said. rewrite (lines_of_unique _ _ HL).
  destruct (att_lines_good ls [] its ([], []) att_inv_nil H) as ([fs d] & ->). reflexivity.
Qed.
Lemma att_bad t pre l post its : lines_of t (pre ++ l :: post) -> Forall2 att_denotes pre its ->
  (~ att_shaped l -> from_att_istream_said trace t = complains trace [] (Some (lit "Invalid line: " ++ l))) /\
  (att_shaped l -> (forall it, ~ att_denotes l it) -> from_att_istream_said trace t = complains trace [] None).
Proof.
  intros HL H. unfold from_att_istream_said. rewrite (lines_of_unique _ _ HL).
  destruct (att_lines_good pre [] its ([], []) att_inv_nil H) as (s & E).
  rewrite loop_app, E. cbn [after app loop]. split.
  - intros NS. rewrite (att_line_bad s l NS). reflexivity.
  - intros S ND. rewrite (att_line_large s l S ND). reflexivity.
Qed.
Lemma att_line_cases l : (exists it, att_denotes l it) \/ ~ att_shaped l \/ (att_shaped l /\ forall it, ~ att_denotes l it).
Proof.
  destruct (att_line ([], []) l) as [s'|e] eqn:E.
  - left. destruct (proj1 (att_line_spec [] ([], []) l att_inv_nil) s' E) as (it & H & _). eauto.
  - right.
    assert (ND : forall it, ~ att_denotes l it).
    { intros it H. destruct (proj2 (att_line_spec [] ([], []) l att_inv_nil) it H) as (s' & E' & _). congruence. }
    destruct (match_att_edge l) eqn:M; [right; split; auto; apply att_shaped_match; left; rewrite M; discriminate|].
    destruct (match_att_final l) eqn:F; [right; split; auto; apply att_shaped_match; right; rewrite F; discriminate|].
    left. rewrite att_shaped_match, M, F. intuition congruence.
Qed.
Lemma att_lines_cases ls : (exists its, Forall2 att_denotes ls its) \/
  (exists pre l post its, ls = pre ++ l :: post /\ Forall2 att_denotes pre its /\
     (~ att_shaped l \/ (att_shaped l /\ forall it, ~ att_denotes l it))).
Proof.
  induction ls as [|l ls IH]; [left; exists []; constructor|].
  destruct (att_line_cases l) as [[it H]|C]; [|right; exists [], l, ls, []; auto].
  destruct IH as [[its F]|(pre & l' & post & its & -> & F & C)].
  - left. exists (it :: its). auto.
  - right. exists (l :: pre), l', post, (it :: its). auto.
Qed.
End Trace.
