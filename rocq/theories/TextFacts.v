(** The text formats: the model's matchers against the declarative formats of TextSpec.v, and
    printing against reading. *)
From Coq Require Import List Arith Bool NArith ZArith Ascii Lia.
Import ListNotations.
From Verif Require Import Base BaseFacts GraphModel Spec GraphFacts FromNfa TextModel TextSpec.

(** ** Characters *)
Lemma is_digit_enum c : is_digit c = existsb (Ascii.eqb c) ["0"; "1"; "2"; "3"; "4"; "5"; "6"; "7"; "8"; "9"]%char.
Proof. destruct c as [[] [] [] [] [] [] [] []]; reflexivity. Qed.
Lemma is_space_enum c : is_space c = existsb (Ascii.eqb c) ["009"; "010"; "011"; "012"; "013"; " "]%char.
Proof. destruct c as [[] [] [] [] [] [] [] []]; reflexivity. Qed.

Lemma existsb_eqb_In c l : existsb (Ascii.eqb c) l = true <-> In c l.
Proof.
  rewrite existsb_exists. split.
  - intros (x & H & E). apply Ascii.eqb_eq in E. subst; auto.
  - intros H. exists c. split; auto. apply Ascii.eqb_refl.
Qed.

Lemma is_digit_Digit c : is_digit c = true <-> Digit c.
Proof. rewrite is_digit_enum. apply existsb_eqb_In. Qed.
Lemma is_space_Blank c : is_space c = true <-> Blank c.
Proof. rewrite is_space_enum. apply existsb_eqb_In. Qed.
Lemma is_digit_comma_iff c : is_digit_comma c = true <-> Digit c \/ c = ","%char.
Proof.
  unfold is_digit_comma. rewrite orb_true_iff, is_digit_Digit, Ascii.eqb_eq. reflexivity.
Qed.
Lemma digit_val_digit c : is_digit c = true -> digit_val c = digit c.
Proof. destruct c as [[] [] [] [] [] [] [] []]; cbv; congruence. Qed.

Lemma space_not_digit c : is_space c = true -> is_digit c = false /\ is_digit_comma c = false
  /\ Ascii.eqb c c_star = false /\ Ascii.eqb c c_us = false /\ Ascii.eqb c c_gt = false.
Proof. destruct c as [[] [] [] [] [] [] [] []]; cbv; intuition congruence. Qed.
Lemma digit_not_other c : is_digit c = true -> Ascii.eqb c c_us = false /\ Ascii.eqb c c_gt = false
  /\ Ascii.eqb c c_star = false /\ Ascii.eqb c c_nl = false /\ Ascii.eqb c c_tab = false
  /\ Ascii.eqb c c_comma = false /\ is_space c = false.
Proof. destruct c as [[] [] [] [] [] [] [] []]; cbv; intuition congruence. Qed.
Lemma dc_not_other c : is_digit_comma c = true -> Ascii.eqb c c_us = false /\ is_space c = false.
Proof. destruct c as [[] [] [] [] [] [] [] []]; cbv; intuition congruence. Qed.

(** ** Spans *)
Lemma span_spec p s a b : span p s = (a, b) ->
  s = a ++ b /\ Forall (fun c => p c = true) a /\ match b with [] => True | c :: _ => p c = false end.
Proof.
  revert a b. induction s as [|c s IH]; intros a b; cbn.
  - intros [= <- <-]. auto.
  - destruct (p c) eqn:E.
    + destruct (span p s) as [a' b'] eqn:Es. intros [= <- <-].
      destruct (IH a' b' eq_refl) as (-> & F & H). cbn. auto.
    + intros [= <- <-]. cbn. auto.
Qed.

Lemma span_unique p a b : Forall (fun c => p c = true) a ->
  match b with [] => True | c :: _ => p c = false end -> span p (a ++ b) = (a, b).
Proof.
  intros F H. induction F as [|c a E F IH]; cbn.
  - destruct b as [|c b]; cbn; auto. rewrite H. reflexivity.
  - rewrite E, IH. reflexivity.
Qed.

Lemma plus_spec p s a b : plus p s = Some (a, b) <->
  s = a ++ b /\ a <> [] /\ Forall (fun c => p c = true) a /\
  match b with [] => True | c :: _ => p c = false end.
Proof.
  unfold plus. split.
  - destruct (span p s) as [a' b'] eqn:E. apply span_spec in E as (-> & F & H).
    destruct a'; [discriminate|]. intros [= <- <-]. repeat split; auto. discriminate.
  - intros (-> & N & F & H). rewrite span_unique by auto. destruct a; congruence.
Qed.

Lemma optc_spec c s b r : optc c s = (b, r) <->
  s = (if b then [c] else []) ++ r /\ (b = false -> match r with [] => True | x :: _ => x <> c end).
Proof.
  unfold optc. destruct s as [|x s].
  - split; [intros [= <- <-]; auto|]. destruct b; cbn; intros [E _]; [discriminate|congruence].
  - destruct (Ascii.eqb x c) eqn:E.
    + apply Ascii.eqb_eq in E as ->. split; [intros [= <- <-]; split; auto; discriminate|].
      destruct b; cbn; intros [H1 H2]; [congruence|].
      subst r. specialize (H2 eq_refl). congruence.
    + apply Ascii.eqb_neq in E. split; [intros [= <- <-]; auto|].
      destruct b; cbn; intros [H1 H2]; [injection H1 as -> ->; congruence|congruence].
Qed.

Lemma field_spec s f r :
  (match r with [] => True | c :: _ => is_space c = true end) ->
  field s = Some (f, r) <-> s = f ++ r /\ targets_field f.
Proof.
  intros HR. unfold field. split.
  - destruct (optc c_us s) as [[] r'] eqn:E; apply optc_spec in E as [-> E].
    + intros [= <- <-]. split; auto. left; reflexivity.
    + intros H. apply plus_spec in H as (H1 & H2 & H3 & H4). split; auto. right. split; auto.
      eapply Forall_impl; [|apply H3]. intros c Hc. apply is_digit_comma_iff; auto.
  - intros [-> [->|[N F]]].
    + reflexivity.
    + assert (F' : Forall (fun c => is_digit_comma c = true) f)
        by (eapply Forall_impl; [|apply F]; intros c; apply is_digit_comma_iff).
      assert (optc c_us (f ++ r) = (false, f ++ r)) as ->.
      { destruct f as [|c f]; [congruence|]. cbn. inversion F'; subst.
        destruct (dc_not_other c) as [-> _]; auto. }
      apply plus_spec. repeat split; auto. destruct r as [|c r]; auto.
      destruct (space_not_digit c) as (_ & ? & _); auto.
Qed.

Lemma field_any s f r : field s = Some (f, r) -> s = f ++ r /\ targets_field f.
Proof.
  unfold field. destruct (optc c_us s) as [[] r'] eqn:E; apply optc_spec in E as [-> E].
  - intros [= <- <-]. split; auto. left; reflexivity.
  - intros H. apply plus_spec in H as (H1 & H2 & H3 & H4). split; auto. right. split; auto.
    eapply Forall_impl; [|apply H3]. intros c Hc. apply is_digit_comma_iff; auto.
Qed.

(** ** Rows *)
Lemma Forall_digit s : Forall (fun c => is_digit c = true) s <-> Forall Digit s.
Proof. split; apply Forall_impl; intros; apply is_digit_Digit; auto. Qed.
Lemma Forall_blank s : Forall (fun c => is_space c = true) s <-> Forall Blank s.
Proof. split; apply Forall_impl; intros; apply is_space_Blank; auto. Qed.

Lemma match_row_iff line i n f f0 f1 :
  match_row line = Some (mkRow i n f f0 f1) <-> row_format line i n f f0 f1.
Proof.
  unfold match_row. split.
  - destruct (optc c_gt line) as [i' s1] eqn:E1. apply optc_spec in E1 as [-> _].
    destruct (plus is_digit s1) as [[num s2]|] eqn:E2; [|discriminate].
    apply plus_spec in E2 as (-> & N1 & D1 & _).
    destruct (optc c_star s2) as [f' s3] eqn:E3. apply optc_spec in E3 as [-> _].
    destruct (plus is_space s3) as [[b0 s4]|] eqn:E4; [|discriminate].
    apply plus_spec in E4 as (-> & N2 & D2 & _).
    destruct (field s4) as [[g0 s5]|] eqn:E5; [|discriminate]. apply field_any in E5 as [-> T0].
    destruct (plus is_space s5) as [[b1 s6]|] eqn:E6; [|discriminate].
    apply plus_spec in E6 as (-> & N3 & D3 & _).
    destruct (field s6) as [[g1 s7]|] eqn:E7; [|discriminate]. apply field_any in E7 as [-> T1].
    destruct s7; [|discriminate]. intros [= <- <- <- <- <-]. rewrite app_nil_r.
    exists b0, b1. rewrite Forall_digit in D1. rewrite Forall_blank in D2, D3.
    rewrite <- ?app_assoc. repeat (split; auto).
  - intros (b0 & b1 & -> & N1 & D1 & N2 & B0 & N3 & B1 & T0 & T1).
    rewrite <- Forall_digit in D1. rewrite <- Forall_blank in B0, B1.
    assert (optc c_gt ((if i then [">"%char] else []) ++ n ++ (if f then ["*"%char] else []) ++ b0 ++ f0 ++ b1 ++ f1)
            = (i, n ++ (if f then ["*"%char] else []) ++ b0 ++ f0 ++ b1 ++ f1)) as ->.
    { apply optc_spec. split; [reflexivity|]. intros _. destruct n as [|c n]; [congruence|]. cbn.
      inversion D1; subst. destruct (digit_not_other c) as (_ & H & _); auto.
      apply Ascii.eqb_neq; auto. }
    assert (plus is_digit (n ++ (if f then ["*"%char] else []) ++ b0 ++ f0 ++ b1 ++ f1) =
            Some (n, (if f then ["*"%char] else []) ++ b0 ++ f0 ++ b1 ++ f1)) as ->.
    { apply plus_spec. repeat split; auto. destruct f; [reflexivity|].
      destruct b0 as [|c b0]; [congruence|]. cbn. inversion B0; subst. apply space_not_digit; auto. }
    assert (optc c_star ((if f then ["*"%char] else []) ++ b0 ++ f0 ++ b1 ++ f1) =
            (f, b0 ++ f0 ++ b1 ++ f1)) as ->.
    { apply optc_spec. split; [reflexivity|]. intros _.
      destruct b0 as [|c b0]; [congruence|]. cbn. inversion B0; subst.
      destruct (space_not_digit c) as (_ & _ & H & _); auto. apply Ascii.eqb_neq; auto. }
    assert (TH : forall t r, targets_field t -> match t ++ r with [] => True | c :: _ => is_space c = false end).
    { intros t r [->|[H1 H2]]; [reflexivity|]. destruct t as [|c t]; [congruence|]. cbn.
      inversion H2; subst. destruct (dc_not_other c); auto. apply is_digit_comma_iff; auto. }
    assert (plus is_space (b0 ++ f0 ++ b1 ++ f1) = Some (b0, f0 ++ b1 ++ f1)) as ->.
    { apply plus_spec. repeat split; auto. apply TH; auto. }
    assert (field (f0 ++ b1 ++ f1) = Some (f0, b1 ++ f1)) as ->.
    { apply field_spec; auto. destruct b1 as [|c b1]; [congruence|]. cbn. inversion B1; auto. }
    assert (plus is_space (b1 ++ f1) = Some (b1, f1)) as ->.
    { apply plus_spec. repeat split; auto. rewrite <- (app_nil_r f1). apply TH; auto. }
    assert (field f1 = Some (f1, [])) as ->; [|reflexivity].
    apply field_spec; auto. rewrite app_nil_r; auto.
Qed.

Lemma match_row_none line : match_row line = None <-> ~ is_row line.
Proof.
  split.
  - intros H (i & n & f & f0 & f1 & R). apply match_row_iff in R. congruence.
  - intros H. destruct (match_row line) as [[i n f f0 f1]|] eqn:E; auto. exfalso. apply H.
    apply match_row_iff in E. unfold is_row. eauto 10.
Qed.

(** ** Lines *)
Lemma getlines_cut sep l t : forall cur, ~ In sep l ->
  getlines sep cur (l ++ sep :: t) = (cur ++ l) :: getlines sep [] t.
Proof.
  induction l as [|c l IH]; intros cur H; cbn.
  - rewrite Ascii.eqb_refl, app_nil_r. reflexivity.
  - destruct (Ascii.eqb c sep) eqn:E; [apply Ascii.eqb_eq in E; subst; exfalso; apply H; cbn; auto|].
    rewrite IH by (intros G; apply H; cbn; auto). rewrite <- app_assoc. reflexivity.
Qed.
Lemma getlines_nosep sep l : forall cur, ~ In sep l ->
  getlines sep cur l = match cur ++ l with [] => [] | x => [x] end.
Proof.
  induction l as [|c l IH]; intros cur H; cbn.
  - rewrite app_nil_r. destruct cur; reflexivity.
  - destruct (Ascii.eqb c sep) eqn:E; [apply Ascii.eqb_eq in E; subst; exfalso; apply H; cbn; auto|].
    rewrite IH by (intros G; apply H; cbn; auto). rewrite <- app_assoc. reflexivity.
Qed.

Lemma getlines_ind sep (P : text -> list text -> Prop) :
  P [] [] -> (forall l, l <> [] -> ~ In sep l -> P l [l]) ->
  (forall l t ls, ~ In sep l -> P t ls -> P (l ++ sep :: t) (l :: ls)) ->
  forall t, P t (getlines sep [] t).
Proof.
  intros H0 H1 H2.
  assert (G : forall s cur, ~ In sep cur -> P (cur ++ s) (getlines sep cur s)).
  { induction s as [|c s IH]; intros cur H; cbn.
    - rewrite app_nil_r. destruct cur; auto. apply H1; auto. discriminate.
    - destruct (Ascii.eqb c sep) eqn:E.
      + apply Ascii.eqb_eq in E as ->. apply H2; auto. apply (IH []); auto.
      + change (c :: s) with ([c] ++ s). rewrite app_assoc. apply IH.
        intros HI. apply in_app_or in HI as [HI|[HI|[]]]; auto. apply Ascii.eqb_neq in E. auto. }
  intros t. apply (G t []). auto.
Qed.

Lemma lines_of_getlines t : lines_of t (getlines c_nl [] t).
Proof. apply (getlines_ind c_nl lines_of); constructor; auto. Qed.
Lemma lines_of_unique t ls : lines_of t ls -> getlines c_nl [] t = ls.
Proof.
  induction 1.
  - reflexivity.
  - rewrite getlines_nosep by auto. cbn. destruct l; congruence.
  - change "010"%char with c_nl. rewrite getlines_cut by auto. cbn. f_equal; auto.
Qed.

(** ** Numbers *)
Lemma digits_val_snoc s c : digits_val (s ++ [c]) = (10 * digits_val s + digit_val c)%N.
Proof. unfold digits_val. rewrite fold_left_app. reflexivity. Qed.

Lemma decimal_iff s v : decimal s v <-> s <> [] /\ Forall Digit s /\ digits_val s = v.
Proof.
  split.
  - induction 1 as [c D|s n c H IH D].
    + split; [discriminate|]. split; auto. rewrite <- digit_val_digit by (apply is_digit_Digit; auto).
      reflexivity.
    + destruct IH as (N & F & E). split; [destruct s; discriminate|].
      split; [apply Forall_app; auto|]. rewrite digits_val_snoc, E, digit_val_digit; auto.
      apply is_digit_Digit; auto.
  - intros (N & F & E). revert v N F E. induction s as [|c s IH] using rev_ind; intros v N F E; [congruence|].
    apply Forall_app in F as [F F1]. inversion F1; subst. rewrite digits_val_snoc.
    rewrite digit_val_digit by (apply is_digit_Digit; auto).
    destruct s as [|d s].
    + change (10 * digits_val [] + digit c)%N with (digit c). constructor; auto.
    + constructor; auto. apply IH; auto. discriminate.
Qed.

Lemma stoi_ok s n : Forall Digit s -> (stoi s = StoiOk n <-> decimal s n /\ (n <= int_max)%N).
Proof.
  intros F. rewrite decimal_iff. unfold stoi. destruct s as [|c s].
  - split; [discriminate|]. intros ((H & _) & _). congruence.
  - destruct (N.leb_spec (digits_val (c :: s)) int_max).
    + split; [intros [= <-]|intros ((_ & _ & ->) & _); auto]. split; auto. split; auto. discriminate.
    + split; [discriminate|]. intros ((_ & _ & E) & L). subst. lia.
Qed.

Lemma int_number_iff s n : int_number s n <->
  s <> [] /\ Forall Digit s /\ (digits_val s <= int_max)%N /\ n = N.to_nat (digits_val s).
Proof.
  unfold int_number. split.
  - intros (v & D & L & ->). apply decimal_iff in D as (? & ? & <-). auto.
  - intros (? & ? & ? & ->). exists (digits_val s). rewrite decimal_iff. auto.
Qed.

Lemma stoi_int_number s n : Forall Digit s -> (int_number s n <-> exists v, stoi s = StoiOk v /\ n = N.to_nat v).
Proof.
  intros F. unfold int_number. split.
  - intros (v & D & L & ->). exists v. rewrite stoi_ok; auto.
  - intros (v & E & ->). apply stoi_ok in E as [D L]; auto. eauto.
Qed.

(** ** Target lists *)
Definition load_item (f : text) : res State :=
  match stoi f with
  | StoiOk n => Ok (N.to_nat n)
  | StoiInvalid => Fail FExit
  | StoiRange => Fail FOutOfRange
  end.

Lemma load_item_ok f n : Forall Digit f -> (load_item f = Ok n <-> int_number f n).
Proof.
  intros F. rewrite stoi_int_number by auto. unfold load_item. split.
  - destruct (stoi f); try discriminate. intros [= <-]. eauto.
  - intros (v & -> & ->). reflexivity.
Qed.

Lemma int_number_digits s n : int_number s n -> Forall Digit s /\ s <> [].
Proof. rewrite int_number_iff. tauto. Qed.

Lemma digit_no_comma s : Forall Digit s -> ~ In ","%char s.
Proof.
  intros F H. rewrite Forall_forall in F. specialize (F _ H).
  apply is_digit_Digit in F. discriminate.
Qed.

Lemma dc_field_ne_us f : Forall (fun c => Digit c \/ c = ","%char) f -> f <> ["_"%char].
Proof.
  intros F ->. inversion F; subst. destruct H1 as [H|H]; [|discriminate].
  apply is_digit_Digit in H. discriminate.
Qed.

(** The comma-separated pieces, without the "_" case. *)
Lemma pieces_targets f : Forall (fun c => Digit c \/ c = ","%char) f ->
  (getlines c_comma [] f = [] <-> f = []) /\
  forall l, l <> [] -> (mapM load_item (getlines c_comma [] f) = Ok l <-> targets f l).
Proof.
  pattern f, (getlines c_comma [] f). revert f.
  refine (getlines_ind c_comma (fun f ps => Forall (fun c => Digit c \/ c = ","%char) f ->
    (ps = [] <-> f = []) /\
    forall l, l <> [] -> (mapM load_item ps = Ok l <-> targets f l)) _ _ _).
  - intros _. split; [tauto|]. intros l Hl. cbn. split; [congruence|]. intros H. inversion H; subst.
    + apply int_number_digits in H0 as [_ G]. congruence.
    + destruct s; discriminate.
    + destruct s; discriminate.
  - intros f Hf Hs F. split; [split; [discriminate|congruence]|]. intros l Hl. cbn.
    assert (FD : Forall Digit f).
    { rewrite Forall_forall in *. intros c Hc. destruct (F c Hc) as [|E]; auto. subst.
      exfalso; auto. }
    split.
    + intros H. destruct (load_item f) as [n|] eqn:E; [|discriminate]. cbn in H.
      injection H as <-. apply load_item_ok in E; auto. apply tg_one; auto.
    + intros H. inversion H; subst.
      * congruence.
      * apply load_item_ok in H0; auto. rewrite H0. reflexivity.
      * exfalso. apply Hs. apply in_or_app; cbn; auto.
      * exfalso. apply Hs. apply in_or_app; cbn; auto.
  - intros p t ps Hp IH F. split; [split; [discriminate|destruct p; discriminate]|]. intros l Hl.
    apply Forall_app in F as [F1 F2]. inversion F2 as [|c0 t0 _ F3]; subst.
    destruct (IH F3) as [IH0 IH1].
    assert (FD : Forall Digit p).
    { rewrite Forall_forall in *. intros c Hc. destruct (F1 c Hc) as [|E]; auto. subst.
      exfalso; auto. }
    cbn. split.
    + intros H. destruct (load_item p) as [n|] eqn:E; [|discriminate]. cbn in H.
      apply load_item_ok in E; auto.
      destruct (mapM load_item ps) as [l'|] eqn:E'; [|discriminate]. cbn in H. injection H as <-.
      destruct l' as [|x l'].
      * (* nothing after the comma *)
        destruct ps as [|p1 ps]; [|cbn in E'; destruct (load_item p1); cbn in E'; [destruct (mapM load_item ps)|]; discriminate].
        rewrite (proj1 IH0 eq_refl). apply tg_trail; auto.
      * apply tg_cons; auto; [apply dc_field_ne_us; auto|]. apply IH1; auto. discriminate.
    + intros H.
      assert (U : forall s r, int_number s r -> forall u, p ++ ","%char :: t = s ++ ","%char :: u -> p = s /\ t = u).
      { intros s r Hs u E. apply int_number_digits in Hs as [Ds _]. apply digit_no_comma in Ds.
        apply digit_no_comma in FD. clear - E Ds FD. revert s Ds E.
        induction p as [|c p IHp]; intros [|d s] Ds E; cbn in E; injection E; auto.
        - intros. subst. exfalso; apply Ds; cbn; auto.
        - intros. subst. exfalso; apply FD; cbn; auto.
        - intros E' ->. destruct (IHp (fun G => FD (or_intror G)) s (fun G => Ds (or_intror G)) E') as [-> ->]; auto. }
      inversion H; subst.
      * congruence.
      * exfalso. apply int_number_digits in H0 as [D _]. apply (digit_no_comma _ D). apply in_or_app; cbn; auto.
      * match goal with N : int_number ?s ?n, E : ?s ++ _ = p ++ _ |- _ =>
          destruct (U s n N _ (eq_sym E)) as [Ep Et]; apply load_item_ok in N; [|subst; auto];
          rewrite Ep, N; clear N E end. cbn.
        assert (ps = []) as ->; [|reflexivity]. apply IH0; auto.
      * match goal with N : int_number ?s ?n, E : ?s ++ _ = p ++ _ |- _ =>
          destruct (U s n N _ (eq_sym E)) as [Ep Et]; apply load_item_ok in N; [|subst; auto];
          rewrite Ep, N; clear N E end. cbn.
        subst f.
        match goal with T : targets t ?l |- _ =>
          destruct l as [|x l0]; [inversion T; subst; congruence|];
          apply IH1 in T; [|discriminate]; rewrite T end. reflexivity.
Qed.

Lemma targets_us l : targets ["_"%char] l <-> l = [].
Proof.
  split; [|intros ->; constructor].
  intros H. inversion H; subst; auto; exfalso.
  - apply int_number_digits in H0 as [D _]. inversion D; subst. apply is_digit_Digit in H2. discriminate.
  - apply int_number_digits in H1 as [D _]. destruct s as [|c [|]]; try discriminate.
  - destruct s as [|c [|]]; discriminate.
Qed.

Lemma load_states_ok f l : targets_field f -> (load_states f = Ok l <-> targets f l).
Proof.
  intros [->|[N F]].
  - rewrite targets_us. unfold load_states. destruct list_eq_dec as [_|G]; [|exfalso; apply G; reflexivity].
    split; congruence.
  - unfold load_states. destruct list_eq_dec as [G|_]; [apply dc_field_ne_us in F; contradiction|].
    fold load_item. change (fun f0 : list ascii => match stoi f0 with
       | StoiOk n => Ok (N.to_nat n) | StoiInvalid => Fail FExit | StoiRange => Fail FOutOfRange end)
      with load_item.
    destruct (pieces_targets f F) as [P0 P1]. destruct l as [|x l]; [|apply P1; discriminate].
    split.
    + intros H. exfalso. destruct (getlines c_comma [] f) as [|p ps] eqn:E; [apply N, P0; auto|].
      cbn in H. destruct (load_item p); [|discriminate]. cbn in H. destruct (mapM load_item ps); discriminate.
    + intros H. exfalso. inversion H; subst. apply dc_field_ne_us in F. congruence.
Qed.

(** ** Parsing a list of lines *)
Definition arow_dfa (r : arow) : bool :=
  let '(_, _, q0s, q1s) := r in (length q0s =? 1) && (length q1s =? 1).
Definition st_of (rows : list arow) : parse_st :=
  mkParse (marked_inits rows) (finals_of rows) (table_of rows) (forallb arow_dfa rows).

Lemma number_snoc {A} (l : list A) x : number (l ++ [x]) = number l ++ [(length l, x)].
Proof.
  unfold number. rewrite app_length. cbn [length]. rewrite seq_app.
  assert (G : forall (l : list A) x k, combine (seq k (length l) ++ seq (k + length l) 1) (l ++ [x]) =
            combine (seq k (length l)) l ++ [(k + length l, x)]).
  { clear. induction l as [|y l IH]; intros x k; cbn.
    - rewrite Nat.add_0_r. reflexivity.
    - f_equal. specialize (IH x (S k)). rewrite !Nat.add_succ_comm in IH. rewrite <- IH.
      reflexivity. }
  apply (G l x 0).
Qed.

Lemma number_fst {A} (l : list A) : map fst (number l) = seq 0 (length l).
Proof.
  unfold number. generalize 0. induction l as [|x l IH]; intros k; cbn; auto. f_equal; apply IH.
Qed.
Lemma number_length {A} (l : list A) : length (number l) = length l.
Proof. unfold number. rewrite combine_length, seq_length. lia. Qed.
Lemma number_nth {A} (l : list A) i : nth_error (number l) i = option_map (fun x => (i, x)) (nth_error l i).
Proof.
  unfold number.
  assert (G : forall (l : list A) k i, nth_error (combine (seq k (length l)) l) i =
              option_map (fun x => (k + i, x)) (nth_error l i)).
  { clear. induction l as [|y l IH]; intros k [|i]; cbn; auto.
    - rewrite Nat.add_0_r; auto.
    - rewrite IH. replace (S k + i) with (k + S i) by lia. reflexivity. }
  apply G.
Qed.

Lemma sel_is_set {A} (p : nat * A -> bool) (l : list A) :
  is_set (map fst (filter p (number l))) /\
  forall q, In q (map fst (filter p (number l))) <-> exists x, nth_error l q = Some x /\ p (q, x) = true.
Proof.
  assert (M : forall q, In q (map fst (filter p (number l))) <-> exists x, nth_error l q = Some x /\ p (q, x) = true).
  { intros q. rewrite in_map_iff. split.
    - intros ((q', x) & <- & H). apply filter_In in H as [H E]. apply In_nth_error in H as (i & H).
      rewrite number_nth in H. destruct (nth_error l i) eqn:Ei; [|discriminate]. injection H as -> ->.
      cbn. eauto.
    - intros (x & E & H). exists (q, x). split; auto. apply filter_In. split; auto.
      apply nth_error_In with q. rewrite number_nth, E. reflexivity. }
  split; auto. clear M.
  assert (G : forall (l : list A) k, is_set (map fst (filter p (combine (seq k (length l)) l))) /\
               forall q, In q (map fst (filter p (combine (seq k (length l)) l))) -> k <= q).
  { clear. induction l as [|x l IH]; intros k; cbn; [split; auto; intros q []|].
    destruct (IH (S k)) as [I1 I2]. destruct (p (k, x)); cbn.
    - split.
      + destruct (map fst (filter p (combine (seq (S k) (length l)) l))) as [|y r] eqn:E; cbn; auto.
        split; [|exact I1]. specialize (I2 y). cbn in I2. specialize (I2 (or_introl eq_refl)). lia.
      + intros q [<-|H]; auto. apply I2 in H. lia.
    - split; auto. intros q H. apply I2 in H. lia. }
  apply (G l 0).
Qed.

Lemma marked_inits_set rows : is_set (marked_inits rows).
Proof. apply sel_is_set. Qed.
Lemma finals_of_set rows : is_set (finals_of rows).
Proof. apply sel_is_set. Qed.
Lemma sinsert_last l q : is_set l -> (forall x, In x l -> x < q) -> sinsert q l = l ++ [q].
Proof.
  induction l as [|y l IH]; intros S H; cbn [sinsert app]; auto.
  destruct (Nat.ltb_spec q y); [specialize (H y (or_introl eq_refl)); lia|].
  destruct (Nat.eqb_spec q y); [specialize (H y (or_introl eq_refl)); lia|].
  f_equal. apply IH; [destruct S; auto|]. intros; apply H; cbn; auto.
Qed.

Lemma sel_bound {A} (p : nat * A -> bool) (l : list A) q :
  In q (map fst (filter p (number l))) -> q < length l.
Proof. intros H. apply sel_is_set in H as (x & H & _). eapply nth_error_lt; eauto. Qed.

Lemma table_of_length rows : length (table_of rows) = length rows.
Proof. unfold table_of. rewrite map_length. apply number_length. Qed.

Lemma st_of_snoc rows i f q0s q1s :
  st_of (rows ++ [(i, f, q0s, q1s)]) =
  mkParse (if i : bool then sinsert (length rows) (marked_inits rows) else marked_inits rows)
          (if f : bool then sinsert (length rows) (finals_of rows) else finals_of rows)
          (table_of rows ++ [(length rows, q0s, q1s)])
          (if (length q0s =? 1) && (length q1s =? 1) then forallb arow_dfa rows else false).
Proof.
  rewrite !sinsert_last by (first [apply sel_is_set | apply sel_bound]).
  unfold st_of, marked_inits, finals_of, table_of. rewrite number_snoc, !filter_app, !map_app, forallb_app.
  cbn [filter map forallb app arow_dfa fst]. f_equal.
  - destruct i; cbn; auto using app_nil_r.
  - destruct f; cbn; auto using app_nil_r.
  - rewrite andb_true_r. destruct ((length q0s =? 1) && (length q1s =? 1)); [apply andb_true_r|apply andb_false_r].
Qed.

Lemma parse_line_row done l i n f f0 f1 s' :
  row_format l i n f f0 f1 ->
  (parse_line (st_of done) l = Ok s' <->
   exists q0s q1s, targets f0 q0s /\ targets f1 q1s /\ int_number n (length done) /\
     s' = st_of (done ++ [(i, f, q0s, q1s)])).
Proof.
  intros R. pose proof R as (b0 & b1 & _ & N1 & D1 & _ & _ & _ & _ & T0 & T1).
  apply match_row_iff in R. unfold parse_line. rewrite R. cbn [m_f0 m_f1 m_num m_init m_final].
  cbn [st_of p_delta p_init p_final p_dfa]. rewrite table_of_length.
  split.
  - intros H. apply bind_ok in H as (q0s & E0 & H). apply bind_ok in H as (q1s & E1 & H).
    apply load_states_ok in E0; auto. apply load_states_ok in E1; auto.
    exists q0s, q1s. split; auto. split; auto.
    destruct (stoi n) as [v| |] eqn:Es; try discriminate.
    destruct (N.eqb_spec (N.of_nat (length done)) v) as [E|]; [|discriminate].
    injection H as <-. split; [|rewrite st_of_snoc; reflexivity].
    apply stoi_int_number; auto. exists v. split; auto. lia.
  - intros (q0s & q1s & H0 & H1 & HN & ->). apply load_states_ok in H0; auto.
    apply load_states_ok in H1; auto. rewrite H0, H1. cbn [bind].
    apply stoi_int_number in HN as (v & Es & E); auto. rewrite Es.
    destruct (N.eqb_spec (N.of_nat (length done)) v); [|lia]. rewrite st_of_snoc. reflexivity.
Qed.

Lemma parse_line_skip s l : ~ is_row l -> parse_line s l = Ok s.
Proof. intros H. apply match_row_none in H. unfold parse_line. rewrite H. reflexivity. Qed.

Lemma is_row_dec l : {is_row l} + {~ is_row l}.
Proof.
  destruct (match_row l) as [[i n f f0 f1]|] eqn:E.
  - left. exists i, n, f, f0, f1. apply match_row_iff; auto.
  - right. apply match_row_none; auto.
Qed.

Lemma parse_lines ls : forall done s,
  foldM parse_line ls (st_of done) = Ok s <->
  exists rows, rows_of (length done) ls rows /\ s = st_of (done ++ rows).
Proof.
  induction ls as [|l ls IH]; intros done s; cbn [foldM].
  - split.
    + intros [= <-]. exists []. rewrite app_nil_r. split; auto. constructor.
    + intros (rows & H & ->). inversion H; subst. rewrite app_nil_r. reflexivity.
  - destruct (is_row_dec l) as [HR|HR].
    + split.
      * intros H. apply bind_ok in H as (s1 & H1 & H).
        destruct HR as (i & n & f & f0 & f1 & R).
        apply (parse_line_row done l i n f f0 f1 s1 R) in H1 as (q0s & q1s & T0 & T1 & HN & ->).
        apply IH in H as (rows & H & ->). rewrite app_length in H. cbn in H. rewrite Nat.add_1_r in H.
        exists ((i, f, q0s, q1s) :: rows). rewrite <- app_assoc. split; auto.
        eapply rows_row; eauto.
      * intros (rows & H & ->). inversion H; subst; [contradiction|].
        assert (E : parse_line (st_of done) l = Ok (st_of (done ++ [(init, final, q0s, q1s)]))).
        { eapply parse_line_row; eauto 10. }
        rewrite E. cbn [bind]. apply IH. exists rows0. rewrite app_length. cbn. rewrite Nat.add_1_r.
        rewrite <- app_assoc. auto.
    + rewrite parse_line_skip by auto. cbn [bind]. rewrite IH. split.
      * intros (rows & H & ->). exists rows. split; auto. apply rows_skip; auto.
      * intros (rows & H & ->). inversion H; subst.
        -- eauto.
        -- exfalso. apply HR. unfold is_row. eauto 10.
Qed.

Lemma rows_of_fun i ls r1 : rows_of i ls r1 -> forall r2, rows_of i ls r2 -> r1 = r2.
Proof.
  induction 1 as [i|i l ls rows NR H IH|i l ls rows ini num fi f0 f1 q0s q1s R N T0 T1 H IH]; intros r2 H2.
  - inversion H2; auto.
  - inversion H2; subst; auto. exfalso. apply NR. unfold is_row. eauto 10.
  - inversion H2 as [|? ? ? ? NR H3|? ? ? rows2 ini2 num2 fi2 g0 g1 p0s p1s R2 N2 U0 U1 H3]; subst.
    + exfalso. apply NR. unfold is_row. eauto 10.
    + pose proof R as (? & ? & _ & _ & _ & _ & _ & _ & _ & TF0 & TF1).
      apply match_row_iff in R. apply match_row_iff in R2. rewrite R in R2. injection R2 as <- <- <- <- <-.
      apply load_states_ok in T0, T1, U0, U1; auto. rewrite T0 in U0. rewrite T1 in U1.
      injection U0 as <-. injection U1 as <-. f_equal. auto.
Qed.

(** Computing [rows_of] on concrete texts. *)
Lemma rows_of_step i l ls rows m q0s q1s :
  match_row l = Some m -> load_item (m_num m) = Ok i ->
  load_states (m_f0 m) = Ok q0s -> load_states (m_f1 m) = Ok q1s -> rows_of (S i) ls rows ->
  rows_of i (l :: ls) ((m_init m, m_final m, q0s, q1s) :: rows).
Proof.
  destruct m as [ini n f f0 f1]. cbn. intros R N L0 L1 H. apply match_row_iff in R.
  pose proof R as (? & ? & _ & _ & D & _ & _ & _ & _ & T0 & T1).
  eapply rows_row; eauto; [apply load_item_ok; auto|apply load_states_ok; auto|apply load_states_ok; auto].
Qed.
Lemma rows_of_skip i l ls rows : match_row l = None -> rows_of i ls rows -> rows_of i (l :: ls) rows.
Proof. intros M H. apply rows_skip; auto. apply match_row_none; auto. Qed.

(** ** from_istream *)
Definition det_rows (rows : list arow) : list (nat * nat * nat) :=
  map (fun '(q, (_, _, q0s, q1s)) => (q, hd 0 q0s, hd 0 q1s)) (number rows).

Definition build (rows : list arow) : res Graph :=
  if (length (inits_of rows) =? 1) && forallb arow_dfa rows
  then graph_new (hd 0 (inits_of rows)) (finals_of rows) (det_rows rows)
  else from_nfa (inits_of rows) (finals_of rows) (table_of rows).

Definition finish (s : parse_st) : res Graph :=
  let init_sts := match p_init s with [] => [0] | l => l end in
  let is_dfa := if length init_sts =? 1 then p_dfa s else false in
  if is_dfa then
    do new_delta <- mapM (fun '(q, q0s, q1s) =>
                            assert_ ((length q0s =? 1) && (length q1s =? 1))
                              (do a <- at_ q0s 0; do b <- at_ q1s 0; Ok (q, a, b)))
                         (p_delta s);
    match init_sts with
    | [] => Fail FUndefined
    | i :: _ => graph_new i (p_final s) new_delta
    end
  else from_nfa init_sts (p_final s) (p_delta s).

Lemma from_istream_finish t :
  from_istream t = bind (foldM parse_line (getlines c_nl [] t) (st_of [])) finish.
Proof. reflexivity. Qed.

Lemma finish_build rows : finish (st_of rows) = build rows.
Proof.
  unfold finish. cbn zeta. cbn [st_of p_init p_final p_delta p_dfa]. unfold build.
  fold (inits_of rows). destruct (length (inits_of rows) =? 1) eqn:E1; cbn [andb]; auto.
  destruct (forallb arow_dfa rows) eqn:E2; auto.
  assert (M : mapM (fun '(q, q0s, q1s) =>
                          assert_ ((length q0s =? 1) && (length q1s =? 1))
                            (do a <- at_ q0s 0; do b <- at_ q1s 0; Ok (q, a, b))) (table_of rows)
              = Ok (det_rows rows)).
  { unfold table_of, det_rows.
    assert (F : forall x, In x (number rows) -> arow_dfa (snd x) = true).
    { intros [q r] Hx. cbn. rewrite forallb_forall in E2. apply E2.
      unfold number in Hx. eapply in_combine_r; eauto. }
    induction (number rows) as [|[q [[[i f] a] b]] l IHl]; [reflexivity|].
    cbn [map mapM]. rewrite IHl by (intros; apply F; cbn; auto).
    specialize (F _ (or_introl eq_refl)). cbn in F. rewrite F. cbn [assert_].
    apply andb_prop in F as [F0 F1]. destruct a as [|x a]; [discriminate|].
    destruct b as [|y b]; [discriminate|]. reflexivity. }
  rewrite M. cbn [bind]. destruct (inits_of rows); [discriminate|reflexivity].
Qed.

Lemma from_istream_fail t ls rows : lines_of t ls -> rows_of 0 ls rows -> from_istream t = build rows.
Proof.
  intros HL HR. apply lines_of_unique in HL. rewrite from_istream_finish, HL.
  assert (E : foldM parse_line ls (st_of []) = Ok (st_of rows)) by (apply (parse_lines ls []); exists rows; auto).
  rewrite E. cbn [bind]. apply finish_build.
Qed.

Lemma from_istream_build t ls g : lines_of t ls ->
  (from_istream t = Ok g <-> exists rows, rows_of 0 ls rows /\ build rows = Ok g).
Proof.
  intros HL. split.
  - intros H. pose proof HL as HL0. apply lines_of_unique in HL0. rewrite from_istream_finish, HL0 in H.
    apply bind_ok in H as (s & H1 & H). apply (parse_lines ls []) in H1 as (rows & HR & ->).
    exists rows. split; auto. rewrite <- finish_build. exact H.
  - intros (rows & HR & H). rewrite (from_istream_fail t ls rows HL HR). exact H.
Qed.

Lemma load_states_fail f e : load_states f = Fail e -> e = FExit \/ e = FOutOfRange.
Proof.
  unfold load_states. destruct list_eq_dec; [discriminate|].
  generalize (getlines c_comma [] f). intros l. induction l as [|x l IH]; cbn [mapM]; [discriminate|].
  destruct (stoi x); cbn [bind]; [|intros [= <-]; auto|intros [= <-]; auto].
  destruct (mapM _ l) eqn:E; cbn; [discriminate|]. intros [= <-]. auto.
Qed.

Lemma parse_lines_fail ls e : forall s, foldM parse_line ls s = Fail e -> e = FExit \/ e = FOutOfRange.
Proof.
  induction ls as [|l ls IH]; intros s; cbn [foldM]; [discriminate|].
  destruct (parse_line s l) as [s1|e1] eqn:E; cbn [bind]; [apply IH|]. intros [= <-].
  unfold parse_line in E. destruct (match_row l) as [[i n f f0 f1]|] eqn:M; [|discriminate].
  apply match_row_iff in M as (? & ? & _ & N & D & _). cbn [m_f0 m_f1 m_num m_init m_final] in E.
  destruct (load_states f0) eqn:L0; cbn [bind] in E; [|injection E as <-; eapply load_states_fail; eauto].
  destruct (load_states f1) eqn:L1; cbn [bind] in E; [|injection E as <-; eapply load_states_fail; eauto].
  destruct (stoi n) eqn:Es.
  - destruct (N.eqb _ _); [discriminate|]. injection E as <-; auto.
  - unfold stoi in Es. destruct n; [congruence|]. destruct (digits_val _ <=? _)%N; discriminate.
  - injection E as <-; auto.
Qed.
