(** Proofs about JoinedModel.v. *)
From Coq Require Import String.
From Coq Require Import List Arith Bool NArith Ascii Permutation Lia Wf_nat.
Import ListNotations.
From Verif Require Import Base BaseFacts GraphModel TextModel CliModel DotModel TorusModel CmdModel LtlModel MainModel MainSpec MainFacts MainClaims
  JoinedModel JoinedSpec.
Local Open Scope list_scope.

(** * Words *)
Lemma cut_eq_some t n v : cut_eq t = Some (n, v) -> t = n ++ "="%char :: v /\ ~ In "="%char n.
Proof.
  revert n. induction t as [|c t IH]; intros n H; [discriminate|]. cbn [cut_eq] in H.
  destruct (Ascii.eqb_spec c "=") as [->|N]; [injection H as <- <-; split; auto|].
  destruct (cut_eq t) as [[m u]|]; [|discriminate]. injection H as <- <-. destruct (IH m eq_refl) as [-> H].
  split; auto. cbn. intros [|]; auto.
Qed.
Lemma cut_eq_app n v : ~ In "="%char n -> cut_eq (n ++ "="%char :: v) = Some (n, v).
Proof.
  induction n as [|c n IH]; intros H; [reflexivity|]. cbn [app cut_eq].
  destruct (Ascii.eqb_spec c "=") as [->|N]; [exfalso; apply H; left; auto|]. rewrite IH; auto. intros K. apply H. right. auto.
Qed.
Lemma letter_iff c : letter c = true <-> c <> "-"%char /\ 33 < nat_of_ascii c.
Proof.
  unfold letter. rewrite andb_true_iff, negb_true_iff, Nat.ltb_lt. destruct (Ascii.eqb_spec c "-"); intuition congruence.
Qed.
Lemma joined_some w n v : joined w = Some (n, v) ->
  w = n ++ "="%char :: v /\ v <> [] /\ ~ In "="%char n /\ exists c m, n = "-"%char :: "-"%char :: c :: m /\ letter c = true.
Proof.
  unfold joined. destruct w as [|a [|b [|c w]]]; try discriminate.
  destruct (_ && _) eqn:Q; [|discriminate]. apply andb_true_iff in Q as [Q Q4]. apply andb_true_iff in Q as [Q Q3].
  apply andb_true_iff in Q as [Q1 Q2]. apply Ascii.eqb_eq in Q1, Q2. subst a b. apply negb_true_iff in Q4.
  destruct (cut_eq _) as [[n' v']|] eqn:C; [|discriminate]. intros H. assert (v' <> [] /\ n' = n /\ v' = v) as (NV & -> & ->).
  { destruct v'; [discriminate|]. injection H as <- <-. split; [discriminate|auto]. }
  destruct (cut_eq_some _ _ _ C) as [E NI]. split; auto. split; auto. split; auto. cbn [cut_eq] in C.
  change (Ascii.eqb "-" "=") with false in C. cbv iota in C. rewrite Q4 in C. destruct (cut_eq w) as [[m u]|]; [|discriminate].
  injection C as <- <-. exists c, m. auto.
Qed.
Lemma joined_app c m v : letter c = true -> ~ In "="%char (c :: m) -> v <> [] ->
  joined (("-"%char :: "-"%char :: c :: m) ++ "="%char :: v) = Some ("-"%char :: "-"%char :: c :: m, v).
Proof.
  intros L NI NV. cbn [app joined]. change (Ascii.eqb "-" "-") with true. rewrite L.
  destruct (Ascii.eqb_spec c "=") as [->|N]; [exfalso; apply NI; left; auto|]. cbn [andb negb].
  change ("-"%char :: "-"%char :: c :: m ++ "="%char :: v) with (("-"%char :: "-"%char :: c :: m) ++ "="%char :: v).
  rewrite cut_eq_app; [destruct v; congruence|]. cbn [In] in *. intros [K|[K|K]]; try discriminate; auto.
Qed.
Lemma name_value_joined fl w : name_value fl w -> exists n v, joined w = Some (n, v) /\ forall x, In x fl -> n <> lit x.
Proof.
  intros (c & n & v & -> & NI & NV & C1 & C2 & F). exists (lit "--" ++ c :: n), v. split; auto.
  rewrite app_assoc. apply joined_app; auto. apply letter_iff. auto.
Qed.
Lemma joined_word w n v : joined w = Some (n, v) -> dashed w = true /\ odd_word w = true.
Proof.
  intros H. apply joined_some in H as (-> & _ & _ & c & m & -> & _). split; [reflexivity|].
  unfold odd_word. apply orb_true_iff. left. apply existsb_exists. exists "="%char. split; [|reflexivity].
  rewrite in_app_iff. right. left. auto.
Qed.

(** Every option of the program has a name that begins with two dashes and a letter; every flag is in the list. *)
Definition long (fl : list string) (opts : list opt) : bool :=
  forallb (fun o => (positional o || match joined (lit (o_name o) ++ lit "=x") with Some (n, _) => is_name n (o_name o) | None => false end)
    && match o_target o with ToFlag _ => existsb (String.eqb (o_name o)) fl | _ => true end) opts.
Lemma lookup_long c s : lookup c = Some s -> long flags (s_opts s) = true.
Proof. intros H. apply lookup_cases in H. each_sub H. all: reflexivity. Qed.
Lemma long_joined fl opts o v : long fl opts = true -> In o opts -> positional o = false -> v <> [] ->
  joined (lit (o_name o) ++ "="%char :: v) = Some (lit (o_name o), v).
Proof.
  intros L HI HP NV. unfold long in L. rewrite forallb_forall in L. specialize (L o HI). rewrite HP in L. cbn [orb] in L.
  apply andb_true_iff in L as [L _].
  destruct (joined (lit (o_name o) ++ lit "=x")) as [[n u]|] eqn:J; [|discriminate]. apply is_name_iff in L. subst n.
  apply joined_some in J as (_ & _ & NI & c & m & E & LC). rewrite E in *. apply joined_app; auto.
  intros K. apply NI. right. right. auto.
Qed.
Lemma long_flag fl opts o y : long fl opts = true -> In o opts -> o_target o = ToFlag y -> In (o_name o) fl.
Proof.
  intros L HI T. unfold long in L. rewrite forallb_forall in L. specialize (L o HI). rewrite T in L.
  apply andb_true_iff in L as [_ L]. apply existsb_exists in L as (x & Hx & E). apply String.eqb_eq in E. congruence.
Qed.

Section Collect.
Context (fl : list string) (opts : list opt) (ND : NoDup (map o_name opts)) (SN : sane opts = true) (LG : long fl opts = true).

Lemma collect_joined_items items w rest : written_as items w ->
  Forall (entry_ok opts) (options items) -> Forall plain_word (positionals items) ->
  collect_joined opts (w ++ rest) =
    (do '(given, pos) <- collect_joined opts rest; Ok (given_of (options items) ++ given, positionals items ++ pos)).
Proof.
  assert (R : forall o, In o opts -> positional o = false -> dashed (lit (o_name o)) = true /\ odd_word (lit (o_name o)) = false).
  { intros o HI HP. unfold positional in HP. apply negb_false_iff in HP. split; auto.
    unfold sane in SN. rewrite forallb_forall in SN. specialize (SN o HI). unfold positional in SN. rewrite HP in SN.
    cbn in SN. apply negb_true_iff in SN. auto. }
  intros W. induction W as [|n v items w W IH|n v items w NV W IH|n items w W IH|v items w W IH]; intros FO FP;
    cbn [options positionals flat_map app] in *.
  - destruct (collect_joined opts rest) as [[]|]; reflexivity.
  - inversion FO as [|? ? (o & HI & E & HP & HT) FO']; subst. cbn [fst snd] in *. subst n. destruct (R o HI HP) as [D Od].
    cbn [collect_joined]. rewrite D, Od, find_opt, IH by auto.
    destruct (o_target o); [destruct HT| |]; destruct (collect_joined opts rest) as [[]|]; reflexivity.
  - inversion FO as [|? ? (o & HI & E & HP & HT) FO']; subst. cbn [fst snd] in *. subst n.
    pose proof (long_joined fl opts o v LG HI HP NV) as J. destruct (joined_word _ _ _ J) as [D Od].
    cbn [collect_joined]. rewrite D, Od, J, find_opt, IH by auto.
    destruct (o_target o); [destruct HT| |]; destruct (collect_joined opts rest) as [[]|]; reflexivity.
  - inversion FO as [|? ? (o & HI & E & HP & HT) FO']; subst. cbn [fst snd] in *. subst n. destruct (R o HI HP) as [D Od].
    cbn [collect_joined]. rewrite D, Od, find_opt, IH by auto.
    destruct (o_target o); [|destruct HT..]; destruct (collect_joined opts rest) as [[]|]; reflexivity.
  - inversion FP as [|? ? P FP']; subst. apply plain_word_iff in P as [P1 P2].
    cbn [collect_joined]. rewrite P1, P2, IH by auto. destruct (collect_joined opts rest) as [[]|]; reflexivity.
Qed.

Lemma collect_joined_inv argv given pos : collect_joined opts argv = Ok (given, pos) ->
  exists items, written_as items argv /\ given = given_of (options items) /\ pos = positionals items /\
    Forall (entry_ok opts) (options items) /\ Forall plain_word pos.
Proof.
  revert given pos. induction argv as [argv IH] using (induction_ltof1 _ (@length _)). unfold ltof in IH.
  intros given pos H. destruct argv as [|a rest]; cbn [collect_joined] in H.
  - injection H as <- <-. exists []. repeat split; constructor.
  - destruct (dashed a) eqn:D.
    + destruct (odd_word a) eqn:Od.
      { destruct (joined a) as [[n v]|] eqn:J; [|discriminate]. apply joined_some in J as (-> & NV & _ & c & m & EN & LC).
        destruct (find _ opts) as [o|] eqn:F; [|discriminate]. apply find_some in F as [HI E]. apply is_name_iff in E.
        assert (HP : positional o = false) by (unfold positional; rewrite <- E, EN; reflexivity).
        assert (H' : match o_target o with ToFlag _ => False | _ => True end /\
          (do '(given, pos) <- collect_joined opts rest; Ok ((n, v) :: given, pos)) = Ok (given, pos)).
        { destruct (o_target o); [discriminate|auto|auto]. }
        clear H. destruct H' as [HT H]. apply bind_ok in H as ([g p] & H1 & [= <- <-]).
        apply IH in H1 as (items & W & -> & -> & F1 & F2); [|cbn; lia].
        exists (Opt (o_name o) v :: items). cbn [options positionals flat_map app given_of map fst snd value_of].
        rewrite <- E. repeat split; auto.
        - rewrite E. constructor; auto.
        - constructor; auto. exists o. cbn. repeat split; auto. }
      destruct (find _ opts) as [o|] eqn:F; [|discriminate]. apply find_some in F as [HI E]. apply is_name_iff in E.
      assert (HP : positional o = false) by (unfold positional; rewrite <- E, D; reflexivity).
      destruct (o_target o) eqn:HT.
      * apply bind_ok in H as ([g p] & H1 & [= <- <-]).
        apply IH in H1 as (items & W & -> & -> & F1 & F2); [|cbn; lia].
        exists (Flag (o_name o) :: items). cbn [options positionals flat_map app given_of map fst snd value_of].
        rewrite <- E. repeat split; auto.
        -- rewrite E. constructor; auto.
        -- constructor; auto. exists o. cbn. rewrite HT. repeat split; auto.
      * destruct rest as [|v rest']; [discriminate|]. apply bind_ok in H as ([g p] & H1 & [= <- <-]).
        apply IH in H1 as (items & W & -> & -> & F1 & F2); [|cbn; lia].
        exists (Opt (o_name o) v :: items). cbn [options positionals flat_map app given_of map fst snd value_of].
        rewrite <- E. repeat split; auto.
        -- rewrite E. constructor; auto.
        -- constructor; auto. exists o. cbn. rewrite HT. repeat split; auto.
      * destruct rest as [|v rest']; [discriminate|]. apply bind_ok in H as ([g p] & H1 & [= <- <-]).
        apply IH in H1 as (items & W & -> & -> & F1 & F2); [|cbn; lia].
        exists (Opt (o_name o) v :: items). cbn [options positionals flat_map app given_of map fst snd value_of].
        rewrite <- E. repeat split; auto.
        -- rewrite E. constructor; auto.
        -- constructor; auto. exists o. cbn. rewrite HT. repeat split; auto.
    + destruct (is_sub_name a) eqn:S; [discriminate|].
      apply bind_ok in H as ([g p] & H1 & [= <- <-]).
      apply IH in H1 as (items & W & -> & -> & F1 & F2); [|cbn; lia].
      exists (Pos a :: items). cbn [options positionals flat_map app]. repeat split; auto.
      * constructor; auto.
      * constructor; auto. apply plain_word_iff. auto.
Qed.

Lemma collect_joined_fail argv x : collect_joined opts argv = Fail x ->
  x = FExit \/ (x = FUndefined /\ exists pre w post, argv = pre ++ w :: post /\
    ((strange w /\ ~ name_value fl w) \/ exists c, In c commands /\ w = lit c)).
Proof.
  revert x. induction argv as [argv IH] using (induction_ltof1 _ (@length _)). unfold ltof in IH.
  intros x H. destruct argv as [|a rest]; cbn [collect_joined] in H; [discriminate|].
  assert (R : forall front r, a :: rest = front ++ r -> length r < length (a :: rest) -> collect_joined opts r = Fail x ->
    x = FExit \/ (x = FUndefined /\ exists pre w post, a :: rest = pre ++ w :: post /\
      ((strange w /\ ~ name_value fl w) \/ exists c, In c commands /\ w = lit c))).
  { intros front r E L H'. apply IH in H' as [->|(-> & pre & w & post & -> & Q)]; auto. right. split; auto.
    exists (front ++ pre), w, post. rewrite E, app_assoc. auto. }
  destruct (dashed a) eqn:D.
  - destruct (odd_word a) eqn:Od.
    { pose proof (odd_word_strange a D Od) as ST. destruct (joined a) as [[n v]|] eqn:J.
      - destruct (find _ opts) as [o|] eqn:F; [|injection H as <-; auto]. apply find_some in F as [HI E]. apply is_name_iff in E.
        destruct (o_target o) eqn:HT.
        + injection H as <-. right. split; auto. exists [], a, rest. split; auto. left. split; auto.
          intros NV. apply name_value_joined in NV as (n' & v' & J' & NF). rewrite J in J'. injection J' as <- <-.
          apply (NF (o_name o)); auto. eapply long_flag; eauto.
        + destruct (collect_joined opts rest) as [[]|e] eqn:C; cbn in H; [discriminate|]. injection H as ->.
          apply (R [a] rest); auto.
        + destruct (collect_joined opts rest) as [[]|e] eqn:C; cbn in H; [discriminate|]. injection H as ->.
          apply (R [a] rest); auto.
      - injection H as <-. right. split; auto. exists [], a, rest. split; auto. left. split; auto.
        intros NV. apply name_value_joined in NV as (n' & v' & J' & _). congruence. }
    destruct (find _ opts) as [o|] eqn:F; [|injection H as <-; auto].
    destruct (o_target o) eqn:HT.
    + destruct (collect_joined opts rest) as [[]|e] eqn:C; cbn in H; [discriminate|]. injection H as ->.
      apply (R [a] rest); auto.
    + destruct rest as [|v rest']; [injection H as <-; auto|].
      destruct (collect_joined opts rest') as [[]|e] eqn:C; cbn in H; [discriminate|]. injection H as ->.
      apply (R [a; v] rest'); auto. cbn; lia.
    + destruct rest as [|v rest']; [injection H as <-; auto|].
      destruct (collect_joined opts rest') as [[]|e] eqn:C; cbn in H; [discriminate|]. injection H as ->.
      apply (R [a; v] rest'); auto. cbn; lia.
  - destruct (is_sub_name a) eqn:S.
    { injection H as <-. right. split; auto. exists [], a, rest. split; auto. right. apply is_sub_name_iff in S. auto. }
    destruct (collect_joined opts rest) as [[]|e] eqn:C; cbn in H; [discriminate|]. injection H as ->.
    apply (R [a] rest); auto.
Qed.

(* nothing changes for the words that MainModel.v reads *)
Lemma collect_joined_same argv : collect opts argv <> Fail FUndefined -> collect_joined opts argv = collect opts argv.
Proof.
  clear. induction argv as [argv IH] using (induction_ltof1 _ (@length _)). unfold ltof in IH.
  destruct argv as [|a rest]; [reflexivity|]. cbn [collect collect_joined].
  assert (R : forall B (k : list (text * text) * list text -> res B) r, length r < length (a :: rest) ->
    bind (collect opts r) k <> Fail FUndefined -> bind (collect_joined opts r) k = bind (collect opts r) k).
  { intros B k r L H. rewrite IH; auto. intros E. rewrite E in H. apply H. reflexivity. }
  destruct (dashed a).
  - destruct (odd_word a); [congruence|]. destruct (find _ opts) as [o|]; auto. destruct (o_target o).
    + apply R. auto.
    + destruct rest; auto. apply R. cbn. lia.
    + destruct rest; auto. apply R. cbn. lia.
  - destruct (is_sub_name a); [congruence|]. apply R. auto.
Qed.
End Collect.

(** * Subcommands *)
Lemma written_words items : written_as items (words items).
Proof. induction items as [|[n v|n|v] items IH]; cbn [words flat_map app]; constructor; auto. Qed.

Section M.
Context (T : tfhe) (Y : crypto T) (spot : spot_lib) (f : fs) (stdin : text) (coin : nat).

Lemma parse_sub_joined_items fl s items w : NoDup (map o_name (s_opts s)) -> sane (s_opts s) = true -> long fl (s_opts s) = true ->
  written_as items w -> Forall (entry_ok (s_opts s)) (options items) -> Forall plain_word (positionals items) ->
  parse_sub_joined f s w = parsed f s (options items) (positionals items).
Proof.
  intros ND SN LG W F1 F2. rewrite <- (parse_sub_items f s items ND SN F1 F2). unfold parse_sub, parse_sub_joined.
  pose proof (collect_joined_items fl _ ND SN LG items w [] W F1 F2) as J. rewrite app_nil_r in J. rewrite J. cbn [collect_joined bind].
  pose proof (collect_items _ ND SN items [] F1 F2) as C. rewrite app_nil_r in C. rewrite C. cbn [collect bind].
  rewrite !app_nil_r. reflexivity.
Qed.
Lemma written_value items w n v : written_as items w -> In v (vals (options items) n) -> v <> [] ->
  exists u, In u w /\ (u = v \/ exists m, u = m ++ "="%char :: v).
Proof.
  intros W H NV. induction W as [|m u items w W IH|m u items w NU W IH|m items w W IH|u items w W IH]; cbn [options flat_map app vals] in H.
  - destruct H.
  - fold (options items) in H. fold (vals (options items) n) in H. cbn [fst snd value_of] in H.
    destruct (String.eqb m n); [destruct H as [<-|H]; [exists u; cbn; auto|]|]; destruct (IH H) as (x & ? & ?); exists x; cbn; auto.
  - fold (options items) in H. fold (vals (options items) n) in H. cbn [fst snd value_of] in H.
    destruct (String.eqb m n); [destruct H as [<-|H]; [exists (lit m ++ "="%char :: u); cbn; eauto|]|]; destruct (IH H) as (x & ? & ?); exists x; cbn; auto.
  - fold (options items) in H. fold (vals (options items) n) in H. cbn [fst snd value_of] in H.
    destruct (String.eqb m n); [destruct H as [<-|H]; [congruence|]|]; destruct (IH H) as (x & ? & ?); exists x; cbn; auto.
  - destruct (IH H) as (x & ? & ?); exists x; cbn; auto.
Qed.
Lemma written_pos items w v : written_as items w -> In v (positionals items) -> In v w.
Proof.
  intros W. induction W; cbn [positionals flat_map app In]; auto; fold (positionals items) in *; intuition auto.
Qed.
Lemma written_flag_one opts items w x y : NoDup (map o_name opts) -> written_as items w -> Forall (entry_ok opts) (options items) ->
  In x opts -> o_target x = ToFlag y -> vals (options items) (o_name x) <> [] -> exists a b, w = a ++ lit (o_name x) :: b.
Proof.
  intros ND W F HI HT. induction W as [|m u items w W IH|m u items w NU W IH|m items w W IH|u items w W IH];
    cbn [options flat_map app vals] in F |- *; try (fold (options items) in F |- *); try (fold (vals (options items) (o_name x))); cbn [fst snd value_of].
  - congruence.
  - apply Forall_cons_iff in F as [(o & Ho & E & HP & HT') F]. cbn [fst snd] in *.
    destruct (String.eqb_spec m (o_name x)) as [->|_].
    + exfalso. rewrite (name_inj opts o x) in HT' by auto. rewrite HT in HT'. auto.
    + intros H. destruct (IH F H) as (a & b & ->). exists (lit m :: u :: a), b. reflexivity.
  - apply Forall_cons_iff in F as [(o & Ho & E & HP & HT') F]. cbn [fst snd] in *.
    destruct (String.eqb_spec m (o_name x)) as [->|_].
    + exfalso. rewrite (name_inj opts o x) in HT' by auto. rewrite HT in HT'. auto.
    + intros H. destruct (IH F H) as (a & b & ->). exists ((lit m ++ "="%char :: u) :: a), b. reflexivity.
  - apply Forall_cons_iff in F as [_ F]. destruct (String.eqb_spec m (o_name x)) as [->|_].
    + intros _. exists [], w. reflexivity.
    + intros H. destruct (IH F H) as (a & b & ->). exists (lit m :: a), b. reflexivity.
  - intros H. destruct (IH F H) as (a & b & ->). exists (u :: a), b. reflexivity.
Qed.
Lemma written_flag_two opts items w x y : NoDup (map o_name opts) -> written_as items w -> Forall (entry_ok opts) (options items) ->
  In x opts -> o_target x = ToFlag y -> 2 <= length (vals (options items) (o_name x)) ->
  exists a b c, w = a ++ lit (o_name x) :: b ++ lit (o_name x) :: c.
Proof.
  intros ND W F HI HT. induction W as [|m u items w W IH|m u items w NU W IH|m items w W IH|u items w W IH];
    cbn [options flat_map app vals] in F |- *; try (fold (options items) in F |- *); try (fold (vals (options items) (o_name x))); cbn [fst snd value_of].
  - cbn. lia.
  - apply Forall_cons_iff in F as [(o & Ho & E & HP & HT') F]. cbn [fst snd] in *.
    destruct (String.eqb_spec m (o_name x)) as [->|_].
    + exfalso. rewrite (name_inj opts o x) in HT' by auto. rewrite HT in HT'. auto.
    + intros H. destruct (IH F H) as (a & b & c & ->). exists (lit m :: u :: a), b, c. reflexivity.
  - apply Forall_cons_iff in F as [(o & Ho & E & HP & HT') F]. cbn [fst snd] in *.
    destruct (String.eqb_spec m (o_name x)) as [->|_].
    + exfalso. rewrite (name_inj opts o x) in HT' by auto. rewrite HT in HT'. auto.
    + intros H. destruct (IH F H) as (a & b & c & ->). exists ((lit m ++ "="%char :: u) :: a), b, c. reflexivity.
  - apply Forall_cons_iff in F as [_ F]. destruct (String.eqb_spec m (o_name x)) as [->|_].
    + intros H. cbn [length] in H. destruct (written_flag_one opts items w x y ND W F HI HT) as (b & c & ->).
      { intros E. rewrite E in H. cbn in H. lia. }
      exists [], b, c. reflexivity.
    + intros H. destruct (IH F H) as (a & b & c & ->). exists (lit m :: a), b, c. reflexivity.
  - intros H. destruct (IH F H) as (a & b & c & ->). exists (u :: a), b, c. reflexivity.
Qed.
Lemma placed_incl opts : forall p more, placed opts p = Ok more -> forall n v, In v (vals more n) -> In v p.
Proof.
  induction opts as [|x opts IH]; intros p more H n v; cbn in H.
  - destruct p; [injection H as <-; intros []|discriminate].
  - destruct (positional x); [|eauto]. destruct p as [|u p]; [injection H as <-; intros []|].
    apply bind_ok in H as (r & H & [= <-]). cbn [vals flat_map]. fold (vals r n). cbn [fst snd value_of].
    destruct (String.eqb _ n); cbn; [|right; eauto]. intros [|]; [left; auto|right; eauto].
Qed.
Lemma placed_once opts p more n : NoDup (map o_name opts) -> placed opts p = Ok more -> length (vals more n) <= 1.
Proof.
  intros ND P. apply vals_nodup. revert p more P. induction opts as [|o opts IH]; intros p more P; cbn in P.
  - destruct p; [injection P as <-; constructor|discriminate].
  - cbn in ND. inversion ND; subst. destruct (positional o) eqn:PO; [|eauto].
    destruct p; [injection P as <-; constructor|]. apply bind_ok in P as (r & P & [= <-]). cbn. constructor; [|eauto].
    intros HI. apply in_map_iff in HI as (e & E & He). apply placed_names in P. rewrite Forall_forall in P.
    destruct (P e He) as (z & Hz & _ & Ez). apply H1. rewrite <- E, <- Ez. apply in_map. auto.
Qed.

Lemma parse_sub_joined_fail fl s argv e : NoDup (map o_name (s_opts s)) -> sane (s_opts s) = true -> long fl (s_opts s) = true ->
  parse_sub_joined f s argv = Fail e ->
  e = FExit \/
  (e = FUndefined /\
   ((exists pre w post, argv = pre ++ w :: post /\ ((strange w /\ ~ name_value fl w) \/ exists c, In c commands /\ w = lit c)) \/
    (exists w, In w argv /\ (strange_number w \/ exists n v, w = n ++ "="%char :: v /\ strange_number v)) \/
    (exists a b c n, argv = a ++ lit n :: b ++ lit n :: c /\ In n fl))).
Proof.
  intros ND SN LG H. unfold parse_sub_joined in H. destruct (collect_joined (s_opts s) argv) as [[given pos]|e'] eqn:C; cbn [bind] in H.
  - apply (collect_joined_inv fl) in C as (items & W & -> & -> & F & FP); auto.
    rewrite distribute_placed in H. destruct (placed _ _) as [more|e'] eqn:P; cbn [bind] in H.
    + rewrite <- given_of_app in H.
      erewrite foldM_ext in H by (intros; apply store_store1).
      apply (foldM_stores_fail f (s_opts s) (fun x => vals (options items ++ more) (o_name x)))
        in H as [->|(-> & x & HI & [(L & y & T')|(v & EV & SV)])]; auto.
      2:{ right. split; auto. right. left.
          assert (NV : v <> []) by (intros ->; destruct SV as [[(c & [] & _)|SV] _]; discriminate).
          assert (HV : In v (vals (options items ++ more) (o_name x))) by (rewrite EV; left; reflexivity).
          rewrite vals_app, in_app_iff in HV. destruct HV as [HV|HV].
          - destruct (written_value items argv _ v W HV NV) as (u & HU & [->|(m & ->)]); [exists v; auto|].
            exists (m ++ "="%char :: v). split; auto. right. eauto.
          - exists v. split; auto. eapply written_pos; eauto. eapply placed_incl; eauto. }
      right. split; auto. right. right. rewrite vals_app in L.
      destruct (positional x) eqn:PX.
      * exfalso. rewrite (vals_positional (s_opts s) (options items) x) in L; auto. cbn in L.
        pose proof (placed_once _ _ _ (o_name x) ND P). lia.
      * rewrite (vals_placed (s_opts s) (positionals items) more x), app_nil_r in L; auto.
        destruct (written_flag_two (s_opts s) items argv x y ND W F HI T' L) as (a & b & c & E).
        exists a, b, c, (o_name x). split; auto. eapply long_flag; eauto.
    + injection H as ->. apply placed_fail in P as ->. auto.
  - injection H as ->. apply (collect_joined_fail fl) in C as [->|(-> & Q)]; auto.
Qed.

(** * The whole command line *)
Lemma parse_joined_seen seen rest : begins_general rest = false -> parse_joined_from seen f rest = parse_joined f rest.
Proof. unfold parse_joined. destruct rest as [|a rest]; cbn [parse_joined_from begins_general]; [|intros ->]; reflexivity. Qed.
Lemma parse_joined_general_from g rest : begins_general rest = false -> forall seen, Forall (fun w => w = lit "--verbose" \/ w = lit "--quiet") g ->
  NoDup (rev g ++ seen) -> parse_joined_from seen f (g ++ rest) = parse_joined f rest.
Proof.
  intros B. induction g as [|a g IH]; intros seen F ND; [apply parse_joined_seen; auto|].
  inversion F as [|? ? H F']; subst. apply general_is in H. cbn [app parse_joined_from]. rewrite H.
  destruct (existsb (path_eqb a) seen) eqn:S.
  - exfalso. apply seen_iff in S. cbn [rev] in ND. rewrite <- app_assoc in ND. cbn [app] in ND. apply NoDup_remove_2 in ND.
    apply ND. rewrite in_app_iff. auto.
  - apply IH; auto. cbn [rev] in ND. rewrite <- app_assoc in ND. exact ND.
Qed.
Lemma parse_joined_lookup g c s rest : general g -> lookup c = Some s ->
  parse_joined f (g ++ map lit c ++ rest) = parse_sub_joined f s rest.
Proof.
  intros [G1 G2] H. apply lookup_cases in H. each_sub H.
  all: unfold parse_joined at 1; rewrite parse_joined_general_from by
    first [exact G1|rewrite app_nil_r; apply NoDup_rev; exact G2|cbn [map app begins_general]; rewrite !is_name_lit; reflexivity].
  all: unfold parse_joined; cbn [map app parse_joined_from]; rewrite !is_name_lit, !find_sub_lit; reflexivity.
Qed.
Lemma no_command_fault a : no_command a = FExit \/ (no_command a = FUndefined /\ strange a /\ ~ name_value flags a).
Proof.
  unfold no_command. destruct (dashed a && odd_word a) eqn:Q; auto. apply andb_true_iff in Q as [D Od].
  pose proof (odd_word_strange a D Od) as ST. destruct (joined a) as [[n v]|] eqn:J.
  - destruct (is_name n "--verbose" || is_name n "--quiet") eqn:V; auto. right. split; auto. split; auto.
    intros NV. apply name_value_joined in NV as (n' & v' & J' & NF). rewrite J in J'. injection J' as <- <-.
    apply orb_true_iff in V as [V|V]; apply is_name_iff in V; eapply NF; eauto; cbn; auto.
  - right. split; auto. split; auto. intros NV. apply name_value_joined in NV as (n' & v' & J' & _). congruence.
Qed.
Lemma parse_joined_cases_from argv : forall seen, NoDup seen ->
  (exists g, Forall (fun w => w = lit "--verbose" \/ w = lit "--quiet") g /\ NoDup (rev g ++ seen) /\
  ((exists c s rest, argv = g ++ map lit c ++ rest /\ lookup c = Some s) \/
   parse_joined_from seen f argv = Ok (args0 UNSPECIFIED) \/
   parse_joined_from seen f argv = Fail FExit \/
   (parse_joined_from seen f argv = Fail FUndefined /\ exists b rest, argv = g ++ lit "run" :: b :: rest /\ is_sub_name b = true /\ find_sub run_subs b = None))) \/
  (parse_joined_from seen f argv = Fail FUndefined /\ exists pre w post, argv = pre ++ w :: post /\ (w = lit "--verbose" \/ w = lit "--quiet") /\ In w (rev pre ++ seen)) \/
  (parse_joined_from seen f argv = Fail FUndefined /\ exists w, In w argv /\ strange w /\ ~ name_value flags w).
Proof.
  induction argv as [|a argv IH]; intros seen ND.
  - left. exists []. split; [constructor|]. split; [exact ND|]. right. left. auto.
  - destruct (is_name a "--verbose" || is_name a "--quiet") eqn:V.
    + cbn [parse_joined_from]. rewrite V. destruct (existsb (path_eqb a) seen) eqn:S.
      { right. left. split; auto. exists [], a, argv. apply seen_iff in S. apply general_is in V. auto. }
      assert (ND' : NoDup (a :: seen)).
      { constructor; auto. rewrite <- seen_iff. congruence. }
      destruct (IH (a :: seen) ND') as [(g & G & NG & H)|[(E & pre & w & post & -> & W & HI)|(E & w & HI & W)]].
      * left. exists (a :: g). split; [constructor; auto; apply general_is; auto|].
        split; [cbn [rev]; rewrite <- app_assoc; exact NG|].
        destruct H as [(c & s & rest & -> & L)|[E|[E|(E & b & rest & -> & Q)]]].
        -- left. exists c, s, rest. auto.
        -- right. left. auto.
        -- right. right. left. auto.
        -- right. right. right. split; auto. exists b, rest. auto.
      * right. left. split; auto. exists (a :: pre), w, post. split; auto. split; auto.
        cbn [rev]. rewrite <- app_assoc. exact HI.
      * right. right. split; auto. exists w. cbn. auto.
    + cbn [parse_joined_from app]. rewrite V. destruct (is_name a "run") eqn:R.
      * left. exists []. split; [constructor|]. split; [exact ND|].
        apply is_name_iff in R as ->. destruct argv as [|b rest]; [right; left; auto|].
        destruct (find_sub run_subs b) as [s|] eqn:F.
        -- left. pose proof F as F'. apply find_sub_some in F as (n & -> & HI & Hn).
           exists ["run"%string; n], s, rest. split; auto. rewrite find_sub_lit in F'. cbn [lookup]. rewrite String.eqb_refl. auto.
        -- destruct (is_sub_name b) eqn:S; [|auto]. right. right. right. split; auto. exists b, rest. auto.
      * destruct (find_sub subs a) as [s|] eqn:F.
        -- left. exists []. split; [constructor|]. split; [exact ND|].
           left. pose proof F as F'. apply find_sub_some in F as (n & -> & HI & Hn).
           exists [n], s, argv. split; auto. rewrite find_sub_lit in F'. auto.
        -- destruct (no_command_fault a) as [E|(E & ST)]; rewrite E.
           ++ left. exists []. split; [constructor|]. split; [exact ND|]. auto.
           ++ right. right. split; auto. exists a. cbn. auto.
Qed.

Notation main := (main T Y spot f stdin coin).
Notation main_joined := (main_joined T Y spot f stdin coin).
Notation manual := (manual T Y spot f stdin coin).

Lemma joined_manual argv c o p r : joined_line argv c o p -> manual c o p r -> main_joined argv = r.
Proof.
  intros (g & items & w & G & W & -> & HP & HQ & FP) M.
  assert (C : command_line (g ++ map lit c ++ words items) c o p) by (exists g, items; auto).
  rewrite <- (manual_main T Y spot f stdin coin _ c o p r C M).
  destruct (manual_entries T Y spot f stdin coin c o p r M) as (s & L & F). destruct (lookup_sane c s L) as [ND SN].
  unfold JoinedModel.main_joined, MainModel.main. f_equal.
  rewrite (parse_joined_lookup g c s), (parse_lookup f g c s) by auto.
  assert (F' : Forall (entry_ok (s_opts s)) (options items)) by (eapply Permutation_Forall; [apply Permutation_sym; exact HP|exact F]).
  subst p. rewrite (parse_sub_joined_items flags s items w) by eauto using lookup_long. rewrite (parse_sub_items f s items) by auto. reflexivity.
Qed.

Lemma parse_joined_same argv : parse f argv <> Fail FUndefined -> parse_joined f argv = parse f argv.
Proof.
  assert (S : forall s rest, parse_sub f s rest <> Fail FUndefined -> parse_sub_joined f s rest = parse_sub f s rest).
  { intros s rest H. unfold parse_sub_joined, parse_sub in *. rewrite collect_joined_same; auto.
    intros E. rewrite E in H. apply H. reflexivity. }
  unfold parse_joined, parse. generalize (@nil text). induction argv as [|a argv IH]; intros seen; cbn [parse_from parse_joined_from]; auto.
  destruct (is_name a "--verbose" || is_name a "--quiet").
  - destruct (existsb _ seen); [congruence|]. apply IH.
  - destruct (is_name a "run").
    + destruct argv as [|b rest]; auto. destruct (find_sub run_subs b) as [s|]; auto.
    + destruct (find_sub subs a) as [s|]; auto. unfold no_command. destruct (dashed a && odd_word a); congruence.
Qed.
Lemma joined_same argv : main argv <> Fail FUndefined -> main_joined argv = main argv.
Proof.
  intros H. unfold JoinedModel.main_joined, MainModel.main in *. rewrite parse_joined_same; auto.
  intros E. rewrite E in H. apply H. reflexivity.
Qed.

Lemma joined_cases argv :
  (exists c o p r, joined_line argv c o p /\ manual c o p r) \/
  main_joined argv = Fail FExit \/
  (main_joined argv = Fail FUndefined /\ still_outside argv).
Proof.
  destruct (parse_joined_cases_from argv [] (NoDup_nil _)) as
    [(g & G1 & G2 & [(c & s & rest & -> & L)|[E|[E|(E & b & rest & -> & S & N)]]])|[(E & pre & w & post & -> & W & HI)|(E & w & HI & W)]].
  - assert (G : general g) by (split; auto; rewrite app_nil_r in G2; rewrite <- (rev_involutive g); apply NoDup_rev; auto).
    pose proof (parse_joined_lookup g c s rest G L) as E. destruct (lookup_sane c s L) as [ND SN]. pose proof (lookup_long c s L) as LG.
    destruct (parse_sub_joined f s rest) as [A|e] eqn:P.
    + left. pose proof P as P0. unfold parse_sub_joined in P0. apply bind_ok in P0 as ([given pos] & C & _).
      apply (collect_joined_inv flags) in C as (items & W & -> & -> & F & FP); auto.
      assert (P' : parsed f s (options items) (positionals items) = Ok A).
      { rewrite <- (parse_sub_joined_items flags s items rest ND SN LG W F FP). exact P. }
      destruct (accepted_manual T Y spot f stdin coin c s items A L F P') as (o & r & CP & M).
      exists c, o, (positionals items), r. split; auto. exists g, items, rest. auto 7.
    + right. unfold JoinedModel.main_joined. rewrite E. cbn [bind].
      apply (parse_sub_joined_fail flags) in P as [->|(-> & Q)]; auto. right. split; auto. unfold still_outside.
      destruct Q as [(pre & w & post & -> & [Q|(k & Hk & ->)])|[(w & HW & Q)|(a & b & d & n & -> & Hn)]].
      * left. exists w. split; auto. rewrite !in_app_iff. cbn. auto.
      * right. right. right. exists (g ++ map lit c ++ pre), k, post. split; [rewrite !app_assoc; reflexivity|]. split; auto.
        assert (LC : exists n, In n c /\ lit n <> lit "--verbose" /\ lit n <> lit "--quiet" /\ lit n <> lit "run").
        { apply lookup_cases in L. each_sub L.
          all: first [solve [eexists; split; [left; reflexivity|split; [|split]; intros N; apply lit_inj in N; discriminate N]]
                     |solve [eexists; split; [right; left; reflexivity|split; [|split]; intros N; apply lit_inj in N; discriminate N]]]. }
        destruct LC as (n & Hn & N1 & N2 & N3).
        assert (HI : In (lit n) (g ++ map lit c ++ pre)) by (rewrite !in_app_iff; right; left; apply in_map; auto).
        split.
        -- intros G'. destruct (general_not _ _ G' HI); auto.
        -- intros (g' & G' & E' & _). rewrite E' in HI. apply in_app_iff in HI as [HI|[HI|[]]]; [|congruence].
           destruct (general_not _ _ G' HI); auto.
      * right. left. exists w. split; auto. rewrite !in_app_iff. auto.
      * right. right. left. exists (g ++ map lit c ++ a), b, d, n. split; [rewrite <- !app_assoc; reflexivity|auto].
  - right. left. unfold JoinedModel.main_joined, parse_joined. rewrite E. reflexivity.
  - right. left. unfold JoinedModel.main_joined, parse_joined. rewrite E. reflexivity.
  - right. right. split; [unfold JoinedModel.main_joined, parse_joined; rewrite E; reflexivity|]. unfold still_outside. right. right. right.
    apply is_sub_name_iff in S as (k & Hk & ->). exists (g ++ [lit "run"]), k, rest. split; [rewrite <- app_assoc; reflexivity|].
    split; auto. split.
    + intros G'. destruct (general_not _ (lit "run") G'); [rewrite in_app_iff; cbn; auto|discriminate|discriminate].
    + intros (g' & _ & _ & HR). rewrite find_sub_lit in N. cbn in HR.
      repeat (destruct HR as [<-|HR]; [discriminate N|]). destruct HR.
  - right. right. split; [unfold JoinedModel.main_joined, parse_joined; rewrite E; reflexivity|]. unfold still_outside. right. right. left.
    rewrite app_nil_r in HI. apply in_rev in HI. apply in_split in HI as (a & b & ->). rewrite <- app_assoc. cbn [app].
    destruct W as [-> | ->]; [exists a, b, post, "--verbose"%string|exists a, b, post, "--quiet"%string]; cbn; auto.
  - right. right. split; [unfold JoinedModel.main_joined, parse_joined; rewrite E; reflexivity|]. left. exists w. auto.
Qed.

Lemma joined_unregistered c o p r g items w n v rest : manual c o p r -> general g -> written_as items w ->
  incl (options items) o -> Forall plain_word (positionals items) -> In n ["--out-dir"; "--sanitize-result"]%string -> v <> [] ->
  main_joined (g ++ map lit c ++ w ++ (lit n ++ "="%char :: v) :: rest) = Fail FExit.
Proof.
  intros M G W I FP Hn NV. destruct (manual_entries T Y spot f stdin coin c o p r M) as (s & L & F).
  unfold JoinedModel.main_joined. rewrite (parse_joined_lookup g c s) by auto. destruct (lookup_sane c s L) as [ND SN]. unfold parse_sub_joined.
  rewrite (collect_joined_items flags _ ND SN (lookup_long c s L) items w); auto.
  2:{ rewrite Forall_forall in *. auto. }
  assert (K : collect_joined (s_opts s) ((lit n ++ "="%char :: v) :: rest) = Fail FExit); [|rewrite K; reflexivity].
  assert (J : joined (lit n ++ "="%char :: v) = Some (lit n, v)).
  { cbn in Hn. destruct Hn as [<-|[<-|[]]]; apply joined_app; auto; cbn; intuition discriminate. }
  destruct (joined_word _ _ _ J) as [D Od]. cbn [collect_joined]. rewrite D, Od, J.
  replace (find (fun o0 => is_name (lit n) (o_name o0)) (s_opts s)) with (@None opt); [reflexivity|].
  apply lookup_cases in L. cbn in Hn. destruct Hn as [<-|[<-|[]]]; each_sub L; reflexivity.
Qed.
End M.
