(** The manual describes the command line (MainSpec.v): proofs. *)
From Coq Require Import String.
From Coq Require Import List Arith Bool NArith Ascii Permutation Lia.
Import ListNotations.
From Verif Require Import Base BaseFacts GraphModel TextModel CliModel DotModel TorusModel CmdModel CmdFacts
  LtlModel MainModel MainSpec MainFacts.
Local Open Scope list_scope.
Section M.
Context (T : tfhe) (Y : crypto T) (spot : spot_lib).
Context (f : fs) (stdin : text) (coin : nat).

Ltac reads := repeat match goal with
  | H : positive ?t ?n |- _ => apply positive_read in H as (? & H & <-)
  | H : number ?t ?n |- _ => apply number_read in H
  | H : readable _ _ |- _ => unfold readable in H
  | H : common_ok _ _ _ _ _ |- _ => destruct H as (? & ? & ? & ?)
  end.
Ltac known := repeat match goal with
  | H : read_num ?t = _ |- context [read_num ?t] => rewrite H
  | H : f ?p <> None |- context [f ?p] => let E := fresh "E" in destruct (f p) eqn:E; [|congruence]
  | H : f ?p = _ |- context [f ?p] => rewrite H
  | |- _ => progress cbn
  end.
Lemma source_text e p r : text_of e f stdin p r -> exists n, p = match n with Some x => [x] | None => [] end /\ r = source e f stdin n.
Proof.
  destruct p as [|n [|]]; cbn.
  - intros ->. exists None. split; auto.
  - intros H. exists (Some n). split; auto. unfold source. destruct H as [[-> ->]|[N H]].
    + reflexivity.
    + destruct (is_name n "-") eqn:E; [apply is_name_iff in E; contradiction|]. destruct (f n); rewrite H; reflexivity.
  - intros [].
Qed.
Lemma text_of_source e n : text_of e f stdin match n with Some x => [x] | None => [] end (source e f stdin n).
Proof.
  destruct n as [n|]; cbn; auto. unfold source. destruct (is_name n "-") eqn:E.
  - apply is_name_iff in E. auto.
  - right. split; [intros ->; discriminate E|]. destruct (f n); reflexivity.
Qed.
Ltac nodup := cbn; repeat constructor; cbn; intuition discriminate.
Ltac fore s := match goal with C : command_line _ _ ?o _ |- _ =>
  rewrite (command_parse f _ _ _ _ s C); [| reflexivity | apply entry_okb_ok; reflexivity
    | let E := fresh in intros ? E; cbn in E; injection E as <-; nodup] end.
Lemma manual_main argv c o p r : command_line argv c o p -> manual T Y spot f stdin coin c o p r ->
  main T Y spot f stdin coin argv = r.
Proof.
  intros C H. unfold main. destruct H.
  - fore genkey. reads. reflexivity.
  - fore genbkey. reads. known. reflexivity.
  - fore enc. reads. known. reflexivity.
  - fore dec. reads. known. reflexivity.
  - destruct d as [d|]; reads; cbn [readable_opt] in *; fore (offline false); reads; known; reflexivity.
  - destruct d as [d|], r; reads; cbn [readable_opt] in *; cbn in H; 
    destruct H as [<-|[<-|[]]]; fore (reverse false); reads; known; reflexivity.
  - destruct d as [d|]; reads; cbn [readable_opt] in *; cbn in H; 
    destruct H as [<-|[<-|[<-|[]]]]; fore (block false); reads; known; reflexivity.
  - destruct d as [d|]; reads; cbn [readable_opt] in *; cbn in H; 
    destruct H as [<-|[<-|[]]]; fore (flut false); reads; known; reflexivity.
  - fore (plain false). reads. known. reflexivity.
  - destruct all; fore ltl2spec; reads; known; rewrite Nnat.Nat2N.id; unfold ltl_to_monitor; destruct (parses spot fml); reflexivity.
  - assert (S : exists n, p = match n with Some x => [x] | None => [] end /\ s = source FAssert f stdin n).
    { apply source_text. auto. }
    destruct S as (n' & -> & ->). destruct n' as [x|], m, r, n; fore spec2spec; cbn -[source]; destruct (source _ f stdin _); reflexivity.
  - assert (S : exists n, p = match n with Some x => [x] | None => [] end /\ s = source FAssert f stdin n).
    { apply source_text. auto. }
    destruct S as (n' & -> & ->). destruct n' as [x|]; fore spec2dot; cbn -[source]; destruct (source _ f stdin _); reflexivity.
  - assert (S : exists n, p = match n with Some x => [x] | None => [] end /\ s = source FAssert f stdin n).
    { apply source_text. auto. }
    destruct S as (n' & -> & ->). destruct n' as [x|]; fore spec2att; cbn -[source]; destruct (source _ f stdin _); reflexivity.
  - assert (S : exists n, p = match n with Some x => [x] | None => [] end /\ s = source FExit f stdin n).
    { apply source_text. auto. }
    destruct S as (n' & -> & ->). destruct n' as [x|]; fore att2spec; cbn -[source]; destruct (source _ f stdin _); reflexivity.
Qed.

(** * Every command line that is accepted is in the manual *)
Lemma parsed_stored s o p A : NoDup (map o_name (s_opts s)) -> Forall (entry_ok (s_opts s)) o -> parsed f s o p = Ok A ->
  exists more, placed (s_opts s) p = Ok more /\
    Forall (fun x => stored_ok f x (vals (if positional x then more else o) (o_name x))) (s_opts s).
Proof.
  intros ND F H. apply bind_ok in H as (more & E & H). exists more. split; auto.
  apply foldM_stores in H. rewrite Forall_forall in *. intros x Hx. specialize (H x Hx). rewrite vals_app in H.
  destruct (positional x) eqn:P.
  - rewrite (vals_positional (s_opts s) o x) in H; auto. apply Forall_forall. auto.
  - rewrite (vals_placed (s_opts s) p more x), app_nil_r in H; auto.
Qed.
Lemma st_file n t vs : stored_ok f (mkOpt n (ToText t) true ExistingFile) vs -> exists v, vs = [v] /\ readable f v.
Proof. destruct vs as [|v [|]]; cbn; try discriminate; try contradiction. eauto. Qed.
Lemma st_text n t vs : stored_ok f (mkOpt n (ToText t) true NoCheck) vs -> exists v, vs = [v].
Proof. destruct vs as [|v [|]]; cbn; try discriminate; try contradiction. eauto. Qed.
Lemma st_file_opt n t vs : stored_ok f (mkOpt n (ToText t) false ExistingFile) vs ->
  exists d, vs = match d with Some v => [v] | None => [] end /\ readable_opt f d.
Proof. destruct vs as [|v [|]]; cbn; try contradiction; intros H; [exists None|exists (Some v)]; cbn; auto. Qed.
Lemma st_text_opt n t vs : stored_ok f (mkOpt n (ToText t) false NoCheck) vs ->
  exists d, vs = match d with Some v => [v] | None => [] end.
Proof. destruct vs as [|v [|]]; cbn; try contradiction; intros H; [exists None|exists (Some v)]; cbn; auto. Qed.
Lemma st_pos n t vs : stored_ok f (mkOpt n (ToNum t) true PositiveNumber) vs -> exists v m, vs = [v] /\ positive v m.
Proof. destruct vs as [|v [|]]; cbn; try discriminate; try contradiction. intros []. eauto. Qed.
Lemma st_num n t vs : stored_ok f (mkOpt n (ToNum t) true NoCheck) vs -> exists v m, vs = [v] /\ number v m.
Proof. destruct vs as [|v [|]]; cbn; try discriminate; try contradiction. intros []. eauto. Qed.
Lemma st_flag n t vs : stored_ok f (mkOpt n (ToFlag t) false NoCheck) vs -> exists b w, vs = if b : bool then [w] else [].
Proof. destruct vs as [|v [|]]; cbn; try contradiction; intros H; [exists false, []|exists true, v]; auto. Qed.
Ltac stored1 S := cbv beta in S; lazymatch type of S with
  | stored_ok _ {| o_name := _; o_target := ToText _; o_required := true; o_check := ExistingFile |} _ => apply st_file in S as (? & ? & ?)
  | stored_ok _ {| o_name := _; o_target := ToText _; o_required := true; o_check := NoCheck |} _ => apply st_text in S as (? & ?)
  | stored_ok _ {| o_name := _; o_target := ToText _; o_required := false; o_check := ExistingFile |} _ => apply st_file_opt in S as (? & ? & ?)
  | stored_ok _ {| o_name := _; o_target := ToText _; o_required := false; o_check := NoCheck |} _ => apply st_text_opt in S as (? & ?)
  | stored_ok _ {| o_name := _; o_target := ToNum _; o_required := true; o_check := PositiveNumber |} _ => apply st_pos in S as (? & ? & ? & ?)
  | stored_ok _ {| o_name := _; o_target := ToNum _; o_required := true; o_check := NoCheck |} _ => apply st_num in S as (? & ? & ? & ?)
  | stored_ok _ {| o_name := _; o_target := ToFlag _; o_required := false; o_check := NoCheck |} _ => apply st_flag in S as (? & ? & ?)
  end.
Ltac stored H := repeat (let S := fresh "S" in apply Forall_cons_iff in H as [S H]; stored1 S); clear H.
Ltac seen := repeat match goal with
  | V : vals ?o ?n = _, C : context [vals ?o ?n] |- _ => rewrite V in C; clear V
  end.
Lemma maybe_map n d : map (fun v : text => (n, Some v)) match d with Some v => [v] | None => [] end = maybe n d.
Proof. destruct d; reflexivity. Qed.
Lemma flagged_map n (b : bool) (w : text) : map (fun _ : text => (n, @None text)) (if b then [w] else []) = flagged n b.
Proof. destruct b; reflexivity. Qed.

Lemma accepted_manual c s items A : lookup c = Some s -> Forall (entry_ok (s_opts s)) (options items) ->
  parsed f s (options items) (positionals items) = Ok A ->
  exists o r, Permutation (options items) o /\ manual T Y spot f stdin coin c o (positionals items) r.
Proof.
  intros L F H. destruct (lookup_sane c s L) as [ND SN].
  pose proof (canon_perm _ _ ND F) as CP.
  apply parsed_stored in H as (more & E & H); auto. clear ND SN F.
  set (o := options items) in *. set (p := positionals items) in *. clearbody o p.
  apply lookup_cases in L. each_sub L.
  all: match type of H with Forall _ ?l => let l' := eval cbv in l in change l with l' in H, CP, E end.
  all: stored H; cbn [o_name] in *; cbv [canon flat_map] in CP;
    repeat match type of CP with context [positional ?x] => let b := eval cbv in (positional x) in change (positional x) with b in CP end;
    repeat match goal with V : context [positional ?x] |- _ => let b := eval cbv in (positional x) in change (positional x) with b in V end;
    cbv iota in *; cbn [o_name o_target map app] in CP.
  all: seen; rewrite ?maybe_map, ?flagged_map, ?app_nil_r in CP; cbn [map app] in CP.
  all: cbn in E.
  all: try (destruct p as [|v1 p]; [injection E as <-|discriminate E]).
  all: try solve [eexists; eexists; (split; [exact CP|]);
    first [solve [econstructor; eauto; unfold common_ok; eauto] | solve [eapply man_reverse; cbn; unfold common_ok; eauto 6]
      | solve [eapply man_block; cbn; unfold common_ok; eauto 6] | solve [eapply man_flut; cbn; unfold common_ok; eauto 6]]].
  - destruct p as [|fml [|t [|]]]; try discriminate E; injection E as <-.
    + discriminate.
    + discriminate.
    + cbn in H2. injection H2 as <-. eexists; eexists; (split; [exact CP|]). apply (man_ltl2spec T Y spot f stdin coin fml t x3). auto.
  - destruct p as [|v1 [|]]; try discriminate E.
    + eexists; eexists; (split; [exact CP|]). apply man_spec2spec. apply (text_of_source _ None).
    + eexists; eexists; (split; [exact CP|]). apply man_spec2spec. apply (text_of_source _ (Some v1)).
  - destruct p as [|v1 [|]]; try discriminate E.
    + eexists; eexists; (split; [exact CP|]). apply man_spec2dot. apply (text_of_source _ None).
    + eexists; eexists; (split; [exact CP|]). apply man_spec2dot. apply (text_of_source _ (Some v1)).
  - destruct p as [|v1 [|]]; try discriminate E.
    + eexists; eexists; (split; [exact CP|]). apply man_spec2att. apply (text_of_source _ None).
    + eexists; eexists; (split; [exact CP|]). apply man_spec2att. apply (text_of_source _ (Some v1)).
  - destruct p as [|v1 [|]]; try discriminate E.
    + eexists; eexists; (split; [exact CP|]). apply man_att2spec. apply (text_of_source _ None).
    + eexists; eexists; (split; [exact CP|]). apply man_att2spec. apply (text_of_source _ (Some v1)).
Qed.

(** * What is not accepted *)
Lemma vals_one items n : vals (options items) n <> [] -> exists a b, words items = a ++ lit n :: b.
Proof.
  induction items as [|i items IH]; [intros H; elim H; reflexivity|]. intros H.
  assert (R : vals (options items) n <> [] -> exists a b, words (i :: items) = a ++ lit n :: b).
  { intros H'. apply IH in H' as (a & b & E). change (words (i :: items)) with (words [i] ++ words items)
    || (replace (words (i :: items)) with (words [i] ++ words items) by (symmetry; apply (words_app [i] items))).
    rewrite E. exists (words [i] ++ a), b. rewrite app_assoc. reflexivity. }
  destruct i as [m v|m|v]; cbn [options flat_map app vals fst snd] in H; auto.
  - destruct (String.eqb_spec m n) as [->|]; auto. exists [], (v :: words items). reflexivity.
  - destruct (String.eqb_spec m n) as [->|]; auto. exists [], (words items). reflexivity.
Qed.
Lemma vals_two items n : 2 <= length (vals (options items) n) ->
  exists a b c, words items = a ++ lit n :: b ++ lit n :: c.
Proof.
  induction items as [|i items IH]; [cbn; lia|]. intros H.
  assert (W : words (i :: items) = words [i] ++ words items) by apply (words_app [i] items).
  assert (R : 2 <= length (vals (options items) n) -> exists a b c, words (i :: items) = a ++ lit n :: b ++ lit n :: c).
  { intros H'. apply IH in H' as (a & b & c & E). rewrite W, E. exists (words [i] ++ a), b, c. rewrite app_assoc. reflexivity. }
  assert (Q : 2 <= S (length (vals (options items) n)) -> exists a b, words items = a ++ lit n :: b).
  { intros H'. apply vals_one. destruct (vals (options items) n); [cbn in H'; lia|discriminate]. }
  destruct i as [m v|m|v]; cbn [options flat_map app vals fst snd] in H; auto.
  - destruct (String.eqb_spec m n) as [->|]; auto. destruct (Q H) as (a & b & E). rewrite W, E. exists [], (v :: a), b. reflexivity.
  - destruct (String.eqb_spec m n) as [->|]; auto. destruct (Q H) as (a & b & E). rewrite W, E. exists [], a, b. reflexivity.
Qed.

Lemma value_word items opts more n v : placed opts (positionals items) = Ok more -> In v (vals (options items ++ more) n) -> v <> [] ->
  In v (words items).
Proof.
  intros P H NE. rewrite vals_app, in_app_iff in H. destruct H as [H|H].
  - clear P. induction items as [|i items IH]; [destruct H|].
    change (words (i :: items)) with (words [i] ++ words items) ||
      replace (words (i :: items)) with (words [i] ++ words items) by (symmetry; apply (words_app [i] items)).
    rewrite in_app_iff. destruct i as [m w|m|w]; cbn [options flat_map app vals fst snd] in H; auto.
    + destruct (String.eqb m n); auto. destruct H as [<-|H]; auto. left. cbn. auto.
    + destruct (String.eqb m n); auto. destruct H as [<-|H]; auto. elim NE. reflexivity.
  - assert (K : In v (positionals items)).
    { revert P H. generalize (positionals items). revert more. induction opts as [|o opts IH]; intros more p P H; cbn in P.
      - destruct p; [injection P as <-; destruct H|discriminate].
      - destruct (positional o); [|eauto]. destruct p as [|w p]; [injection P as <-; destruct H|].
        apply bind_ok in P as (r & P & [= <-]). unfold vals in H. cbn [flat_map fst snd] in H. destruct (String.eqb (o_name o) n).
        + destruct H as [<-|H]; [left; reflexivity|right; eauto].
        + right. eauto. }
    clear - K. induction items as [|i items IH]; [destruct K|]. destruct i as [m w|m|w]; cbn in *; intuition.
Qed.
Lemma parse_sub_fail s argv e : NoDup (map o_name (s_opts s)) -> sane (s_opts s) = true -> parse_sub f s argv = Fail e ->
  e = FExit \/
  (e = FUndefined /\
   ((exists pre w post, argv = pre ++ w :: post /\ (strange w \/ exists c, In c commands /\ w = lit c)) \/
    (exists w, In w argv /\ strange_number w) \/
    (exists a b c x y, argv = a ++ lit (o_name x) :: b ++ lit (o_name x) :: c /\ In x (s_opts s) /\ o_target x = ToFlag y))).
Proof.
  intros ND SN H. unfold parse_sub in H. destruct (collect (s_opts s) argv) as [[given pos]|e'] eqn:C; cbn [bind] in H.
  - apply collect_inv in C as (items & -> & -> & -> & F & FP); auto.
    rewrite distribute_placed in H. destruct (placed _ _) as [more|e'] eqn:P; cbn [bind] in H.
    + rewrite <- given_of_app in H.
      erewrite foldM_ext in H by (intros; apply store_store1).
      apply (foldM_stores_fail f (s_opts s) (fun x => vals (options items ++ more) (o_name x)))
        in H as [->|(-> & x & HI & [(L & y & T')|(v & EV & SV)])]; auto.
      2:{ right. split; auto. right. left. exists v. split; auto. apply (value_word items (s_opts s) more (o_name x)); auto.
          - rewrite EV. left. reflexivity.
          - intros ->. destruct SV as [[(c & [] & _)|SV] _]. discriminate. }
      right. split; auto. right. right. rewrite vals_app in L.
      destruct (positional x) eqn:PX.
      * exfalso. rewrite (vals_positional (s_opts s) (options items) x) in L; auto. cbn in L.
        clear - P L ND HI. revert L.
        assert (G : forall opts p more x, NoDup (map o_name opts) -> placed opts p = Ok more -> length (vals more (o_name x)) <= 1).
        { clear. intros opts p more x ND P. apply vals_nodup. revert p more P. induction opts as [|o opts IH]; intros p more P; cbn in P.
          - destruct p; [injection P as <-; constructor|discriminate].
          - cbn in ND. inversion ND; subst. destruct (positional o) eqn:PO; [|eauto].
            destruct p; [injection P as <-; constructor|]. apply bind_ok in P as (r & P & [= <-]). cbn. constructor; [|eauto].
            intros HI. apply in_map_iff in HI as (e & E & He). apply placed_names in P. rewrite Forall_forall in P.
            destruct (P e He) as (z & Hz & _ & Ez). apply H1. rewrite <- E, <- Ez. apply in_map. auto. }
        specialize (G _ _ _ x ND P). lia.
      * rewrite (vals_placed (s_opts s) (positionals items) more x), app_nil_r in L; auto.
        apply vals_two in L as (a & b & c & E). exists a, b, c, x, y. auto.
    + injection H as ->. apply placed_fail in P as ->. auto.
  - injection H as ->. apply collect_fail in C as [->|(-> & Q)]; auto.
Qed.

Lemma general_not g w : general g -> In w g -> w = lit "--verbose" \/ w = lit "--quiet".
Proof. unfold general. rewrite Forall_forall. intuition. Qed.
Lemma main_cases argv :
  (exists c o p r, command_line argv c o p /\ manual T Y spot f stdin coin c o p r) \/
  main T Y spot f stdin coin argv = Fail FExit \/
  (main T Y spot f stdin coin argv = Fail FUndefined /\ outside argv).
Proof.
  destruct (parse_cases f argv) as [(g & G & [(c & s & rest & -> & L)|[(E & _)|[E|(E & b & rest & -> & S & N)]]])|[(E & a & b & c & n & -> & HI)|(E & w & HI & W)]].
  - pose proof (parse_lookup f g c s rest G L) as E. destruct (lookup_sane c s L) as [ND SN].
    destruct (parse_sub f s rest) as [A|e] eqn:P.
    + left. pose proof P as P0. unfold parse_sub in P0. apply bind_ok in P0 as ([given pos] & C & _).
      apply collect_inv in C as (items & -> & -> & -> & F & FP); auto.
      assert (P' : parsed f s (options items) (positionals items) = Ok A).
      { rewrite <- (parse_sub_items f s items ND SN F FP). exact P. }
      destruct (accepted_manual c s items A L F P') as (o & r & CP & M).
      exists c, o, (positionals items), r. split; auto. exists g, items. auto.
    + right. unfold main. rewrite E. cbn [bind].
      apply parse_sub_fail in P as [->|(-> & Q)]; auto. right. split; auto. unfold outside.
      destruct Q as [(pre & w & post & -> & [Q|(k & Hk & ->)])|[(w & HW & Q)|(a & b & d & x & y & -> & HI & T')]].
      * left. exists w. split; auto. rewrite !in_app_iff. cbn. auto.
      * right. right. exists (g ++ map lit c ++ pre), k, post. split; [rewrite !app_assoc; reflexivity|]. split; auto.
        assert (LC : exists n, In n c /\ lit n <> lit "--verbose" /\ lit n <> lit "--quiet" /\ lit n <> lit "run").
        { apply lookup_cases in L. each_sub L.
          all: first [solve [eexists; split; [left; reflexivity|split; [|split]; intros N; apply lit_inj in N; discriminate N]]
                     |solve [eexists; split; [right; left; reflexivity|split; [|split]; intros N; apply lit_inj in N; discriminate N]]]. }
        destruct LC as (n & Hn & N1 & N2 & N3).
        assert (HI : In (lit n) (g ++ map lit c ++ pre)) by (rewrite !in_app_iff; right; left; apply in_map; auto).
        split.
        -- intros G'. destruct (general_not _ _ G' HI); auto.
        -- intros (g' & G' & E' & _). rewrite E' in HI. apply in_app_iff in HI as [HI|[HI|[]]]; [|congruence].
           destruct (general_not _ _ G' HI); auto.
      * left. exists w. split; auto. rewrite !in_app_iff. auto.
      * right. left. exists (g ++ map lit c ++ a), b, d, (o_name x). split.
        { rewrite <- !app_assoc. reflexivity. }
        apply lookup_cases in L. each_sub L.
        all: cbn in HI; repeat (destruct HI as [<-|HI]); try destruct HI; try discriminate T'; cbn; tauto.
  - right. left. unfold main. rewrite E. reflexivity.
  - right. left. unfold main. rewrite E. reflexivity.
  - right. right. split; [unfold main; rewrite E; reflexivity|]. unfold outside. right. right.
    apply is_sub_name_iff in S as (k & Hk & ->). exists (g ++ [lit "run"]), k, rest. split; [rewrite <- app_assoc; reflexivity|].
    split; auto. split.
    + intros G'. destruct (general_not _ (lit "run") G'); [rewrite in_app_iff; cbn; auto|discriminate|discriminate].
    + intros (g' & _ & _ & HR). rewrite find_sub_lit in N. cbn in HR.
      repeat (destruct HR as [<-|HR]; [discriminate N|]). destruct HR.
  - right. right. split; [unfold main; rewrite E; reflexivity|]. right. left. exists a, b, c, n. split; auto. cbn in *. tauto.
  - right. right. split; [unfold main; rewrite E; reflexivity|]. left. exists w. auto.
Qed.

Lemma manual_entries c o p r : manual T Y spot f stdin coin c o p r ->
  exists s, lookup c = Some s /\ Forall (entry_ok (s_opts s)) o.
Proof.
  intros H. destruct H.
  - exists genkey. split; [reflexivity|]. apply entry_okb_ok. reflexivity.
  - exists genbkey. split; [reflexivity|]. apply entry_okb_ok. reflexivity.
  - exists enc. split; [reflexivity|]. apply entry_okb_ok. reflexivity.
  - exists dec. split; [reflexivity|]. apply entry_okb_ok. reflexivity.
  - exists (offline false). split; [reflexivity|]. apply entry_okb_ok. destruct d; reflexivity.
  - exists (reverse false). split; [cbn in H; destruct H as [<-|[<-|[]]]; reflexivity|]. apply entry_okb_ok. destruct d, r; reflexivity.
  - exists (block false). split; [cbn in H; destruct H as [<-|[<-|[<-|[]]]]; reflexivity|]. apply entry_okb_ok. destruct d; reflexivity.
  - exists (flut false). split; [cbn in H; destruct H as [<-|[<-|[]]]; reflexivity|]. apply entry_okb_ok. destruct d; reflexivity.
  - exists (plain false). split; [reflexivity|]. apply entry_okb_ok. reflexivity.
  - exists ltl2spec. split; [reflexivity|]. apply entry_okb_ok. destruct all; reflexivity.
  - exists spec2spec. split; [reflexivity|]. apply entry_okb_ok. destruct m, r, n; reflexivity.
  - exists spec2dot. split; [reflexivity|]. apply entry_okb_ok. reflexivity.
  - exists spec2att. split; [reflexivity|]. apply entry_okb_ok. reflexivity.
  - exists att2spec. split; [reflexivity|]. apply entry_okb_ok. reflexivity.
Qed.
Lemma unregistered c o p r g items n rest : manual T Y spot f stdin coin c o p r -> general g ->
  incl (options items) o -> Forall plain_word (positionals items) -> In n ["--out-dir"; "--sanitize-result"]%string ->
  main T Y spot f stdin coin (g ++ map lit c ++ words items ++ lit n :: rest) = Fail FExit.
Proof.
  intros M G I FP Hn. destruct (manual_entries _ _ _ _ M) as (s & L & F). unfold main.
  rewrite (parse_lookup f g c s) by auto. destruct (lookup_sane c s L) as [ND SN]. unfold parse_sub.
  rewrite collect_items; auto.
  2:{ rewrite Forall_forall in *. auto. }
  replace (collect (s_opts s) (lit n :: rest)) with (@Fail (list (text * text) * list text) FExit); [reflexivity|].
  apply lookup_cases in L. cbn in Hn.
  destruct Hn as [<-|[<-|[]]]; each_sub L; reflexivity.
Qed.
End M.
