(** Facts about the command line (MainModel.v). *)
From Coq Require Import String.
From Coq Require Import List Arith Bool NArith Ascii Permutation Lia DecimalN.
From Coq Require Import ZifyBool ZifyNat ZifyN.
Import ListNotations.
From Verif Require Import Base BaseFacts GraphModel TextModel TextSpec TextFacts TextClaims CliModel DotModel TorusModel CmdModel CmdFacts
  LtlModel MainModel MainSpec.
Local Open Scope list_scope.

(** * Words *)
Lemma lit_inj a b : lit a = lit b -> a = b.
Proof.
  intros H. rewrite <- (string_of_list_ascii_of_string a), <- (string_of_list_ascii_of_string b). unfold lit in H. congruence.
Qed.
Lemma is_name_iff w s : is_name w s = true <-> w = lit s.
Proof. apply path_eqb_iff. Qed.
Lemma is_name_lit a b : is_name (lit a) b = String.eqb a b.
Proof.
  apply eq_true_iff_eq. rewrite is_name_iff, String.eqb_eq. split; [apply lit_inj|congruence].
Qed.

Lemma is_sub_name_iff w : is_sub_name w = true <-> exists c, In c commands /\ w = lit c.
Proof.
  unfold is_sub_name, find_sub. cbn [subs run_subs app find].
  cbn [s_names genkey genbkey enc dec ltl2spec spec2spec spec2dot spec2att att2spec offline reverse block flut plain existsb].
  unfold commands. split.
  - intros H.
    repeat match type of H with
    | context [is_name w ?s] => destruct (is_name w s) eqn:E;
        [apply is_name_iff in E; exists s; split; [cbn; tauto|exact E]|clear E; cbn [orb] in H]
    end. discriminate.
  - intros (c & Hc & ->). cbn in Hc.
    repeat (destruct Hc as [<-|Hc]; [rewrite !is_name_lit; reflexivity|]). destruct Hc.
Qed.

Lemma dashed_iff w : dashed w = true <-> exists w', w = "-"%char :: w' /\ w' <> [].
Proof.
  unfold dashed. destruct w as [|a [|b w]].
  - split; [discriminate|]. intros (? & ? & ?). discriminate.
  - split; [discriminate|]. intros (w' & [= E1 E2] & ?). congruence.
  - rewrite Ascii.eqb_eq. split; [intros ->; eexists; split; [reflexivity|discriminate]|]. intros (? & [= E1 E2] & ?). exact E1.
Qed.
Lemma plain_word_iff w : plain_word w <-> dashed w = false /\ is_sub_name w = false.
Proof.
  unfold plain_word. rewrite <- !not_true_iff_false, dashed_iff, is_sub_name_iff. split.
  - intros [H1 H2]. split.
    + intros (w' & -> & N). destruct H1 as [H|H]; [injection H as ->; apply N; reflexivity|apply H; reflexivity].
    + intros (c & Hc & E). apply (H2 c); auto.
  - intros [H1 H2]. split.
    + destruct w as [|a w]; [right; discriminate|]. destruct (ascii_dec a "-") as [->|N].
      * destruct w; [left; reflexivity|]. exfalso. apply H1. eexists. split; [reflexivity|discriminate].
      * right. cbn. congruence.
    + intros c Hc E. apply H2. eauto.
Qed.
Lemma odd_word_strange w : dashed w = true -> odd_word w = true -> strange w.
Proof.
  intros D O. apply dashed_iff in D as (w' & -> & N). exists w'. split; auto. split; auto.
  unfold odd_word in O. apply orb_true_iff in O as [O|O].
  - left. apply existsb_exists in O as (c & Hc & E). apply Ascii.eqb_eq in E as ->. exact Hc.
  - assert (L : forall c, negb (letter c) = true -> c = "-"%char \/ nat_of_ascii c <= 33).
    { intros c H. unfold letter in H. apply negb_true_iff, andb_false_iff in H as [H|H].
      - left. apply negb_false_iff, Ascii.eqb_eq in H. auto.
      - right. apply Nat.ltb_ge in H. auto. }
    right. destruct w' as [|b rest]; [congruence|]. destruct (Ascii.eqb b "-") eqn:E.
    + apply Ascii.eqb_eq in E as ->. destruct rest as [|c t]; [left; reflexivity|].
      right. exists c, t. right. split; auto.
    + right. exists b, rest. left. split; auto. destruct (L b O) as [->|]; auto. discriminate.
Qed.

(** * Numbers *)
Lemma digit_text t : Forall Digit t -> exists d, uint_text d = t.
Proof.
  induction 1 as [|c t D F [d E]]; [exists Decimal.Nil; reflexivity|].
  unfold Digit in D. cbn in D. subst t.
  destruct D as [<-|[<-|[<-|[<-|[<-|[<-|[<-|[<-|[<-|[<-|[]]]]]]]]]]].
  - exists (Decimal.D0 d); reflexivity. - exists (Decimal.D1 d); reflexivity. - exists (Decimal.D2 d); reflexivity.
  - exists (Decimal.D3 d); reflexivity. - exists (Decimal.D4 d); reflexivity. - exists (Decimal.D5 d); reflexivity.
  - exists (Decimal.D6 d); reflexivity. - exists (Decimal.D7 d); reflexivity. - exists (Decimal.D8 d); reflexivity.
  - exists (Decimal.D9 d); reflexivity.
Qed.
Lemma uint_text_inj d : forall e, uint_text d = uint_text e -> d = e.
Proof. induction d; intros [] H; cbn in H; try discriminate; try reflexivity; injection H as H; f_equal; auto. Qed.
Lemma show_nat_shape n : exists d, show_nat n = uint_text d /\ Decimal.unorm d = d.
Proof.
  exists (N.to_uint (N.of_nat n)). split; auto.
  rewrite <- DecimalN.Unsigned.to_of. rewrite DecimalN.Unsigned.of_to. reflexivity.
Qed.
Lemma unorm_D0 e : Decimal.unorm (Decimal.D0 e) = Decimal.D0 e -> e = Decimal.Nil.
Proof.
  unfold Decimal.unorm. cbn [Decimal.nzhead]. pose proof (DecimalFacts.nb_digits_nzhead e) as L.
  destruct (Decimal.nzhead e) eqn:E; intros H; try discriminate H.
  - injection H as <-. reflexivity.
  - exfalso. injection H as ->. cbn in L. lia.
Qed.
Lemma read_num_iff t n : read_num t = Some n <-> t = show_nat (N.to_nat n) /\ (n < 2 ^ 64)%N.
Proof.
  assert (P : forall m, (m < 2 ^ 64)%N -> read_num (show_nat (N.to_nat m)) = Some m).
  { intros m L. pose proof (show_nat_digits (N.to_nat m)) as D. pose proof (show_nat_val (N.to_nat m)) as V.
    pose proof (show_nat_ne (N.to_nat m)) as NE. destruct (show_nat_shape (N.to_nat m)) as (d & E & U).
    unfold read_num. destruct (show_nat (N.to_nat m)) as [|c rest]; [congruence|].
    replace (forallb is_digit (c :: rest)) with true.
    2:{ symmetry. apply forallb_forall. intros x Hx. rewrite Forall_forall in D. apply is_digit_Digit; auto. }
    rewrite V, Nnat.N2Nat.id. apply N.ltb_lt in L. rewrite L.
    assert (Z : negb (Ascii.eqb c "0") || match rest with [] => true | _ => false end = true).
    { destruct d; cbn in E; try discriminate; injection E as -> ->; try reflexivity.
      apply unorm_D0 in U as ->. reflexivity. }
    rewrite Z. reflexivity. }
  split; [|intros [-> L]; auto].
  unfold read_num. destruct t as [|c rest]; [discriminate|].
  destruct (forallb is_digit (c :: rest) && _) eqn:C; [|discriminate].
  apply andb_true_iff in C as [D Z].
  destruct (N.ltb_spec (digits_val (c :: rest)) (2 ^ 64)); [|discriminate]. intros [= <-]. split; auto.
  destruct (digit_text (c :: rest)) as [d E].
  { apply Forall_forall. intros x Hx. rewrite forallb_forall in D. apply is_digit_Digit. auto. }
  rewrite <- E. rewrite uint_text_val. unfold show_nat. rewrite Nnat.N2Nat.id, DecimalN.Unsigned.to_of. f_equal.
  destruct d; cbn in E; try discriminate; injection E as <- <-; try reflexivity.
  cbn in Z. destruct d; try discriminate. reflexivity.
Qed.

(** * Options *)
Definition entry_ok (opts : list opt) (e : string * option text) : Prop :=
  exists o, In o opts /\ o_name o = fst e /\ positional o = false /\
    match snd e, o_target o with None, ToFlag _ => True | None, _ => False | Some _, ToFlag _ => False | Some _, _ => True end.
Definition value_of (v : option text) : text := match v with Some t => t | None => [] end.
Definition given_of (o : list (string * option text)) : list (text * text) :=
  map (fun e => (lit (fst e), value_of (snd e))) o.
Definition sane (opts : list opt) : bool := forallb (fun o => positional o || negb (odd_word (lit (o_name o)))) opts.

Lemma find_opt opts o : NoDup (map o_name opts) -> In o opts ->
  find (fun o' => is_name (lit (o_name o)) (o_name o')) opts = Some o.
Proof.
  induction opts as [|x opts IH]; intros ND HI; [destruct HI|]. cbn [find map] in *. inversion ND; subst.
  rewrite is_name_lit. destruct (String.eqb_spec (o_name o) (o_name x)) as [E|N].
  - destruct HI as [->|HI]; auto. exfalso. apply H1. rewrite <- E. apply in_map. auto.
  - destruct HI as [->|HI]; [congruence|auto].
Qed.

Lemma words_app a b : words (a ++ b) = words a ++ words b.
Proof. apply flat_map_app. Qed.

Section Collect.
Context (opts : list opt) (ND : NoDup (map o_name opts)) (SN : sane opts = true).

(* the words of well-formed items are read as these items *)
Lemma collect_items items rest :
  Forall (entry_ok opts) (options items) -> Forall plain_word (positionals items) ->
  collect opts (words items ++ rest) =
    (do '(given, pos) <- collect opts rest; Ok (given_of (options items) ++ given, positionals items ++ pos)).
Proof.
  induction items as [|i items IH]; intros FO FP.
  - cbn. destruct (collect opts rest) as [[]|]; reflexivity.
  - assert (R : forall o, In o opts -> positional o = false -> dashed (lit (o_name o)) = true /\ odd_word (lit (o_name o)) = false).
    { intros o HI HP. unfold positional in HP. apply negb_false_iff in HP. split; auto.
      unfold sane in SN. rewrite forallb_forall in SN. specialize (SN o HI). unfold positional in SN. rewrite HP in SN.
      cbn in SN. apply negb_true_iff in SN. auto. }
    destruct i as [n v|n|v]; cbn [words options positionals flat_map app] in *.
    + inversion FO as [|? ? (o & HI & E & HP & HT) FO']; subst. cbn [fst snd] in *. subst n. destruct (R o HI HP) as [D Od].
      cbn [collect]. rewrite D, Od, find_opt by auto.
      change (flat_map _ items ++ rest) with (words items ++ rest). rewrite IH by auto.
      destruct (o_target o); [destruct HT| |]; destruct (collect opts rest) as [[]|]; reflexivity.
    + inversion FO as [|? ? (o & HI & E & HP & HT) FO']; subst. cbn [fst snd] in *. subst n. destruct (R o HI HP) as [D Od].
      cbn [collect]. rewrite D, Od, find_opt by auto.
      change (flat_map _ items ++ rest) with (words items ++ rest). rewrite IH by auto.
      destruct (o_target o); [|destruct HT..]; destruct (collect opts rest) as [[]|]; reflexivity.
    + inversion FP as [|? ? P FP']; subst. apply plain_word_iff in P as [P1 P2].
      cbn [collect]. rewrite P1, P2. change (flat_map _ items ++ rest) with (words items ++ rest). rewrite IH by auto.
      destruct (collect opts rest) as [[]|]; reflexivity.
Qed.

(* what is read comes from well-formed items *)
Lemma collect_inv argv given pos : collect opts argv = Ok (given, pos) ->
  exists items, argv = words items /\ given = given_of (options items) /\ pos = positionals items /\
    Forall (entry_ok opts) (options items) /\ Forall plain_word pos.
Proof.
  revert given pos. induction argv as [argv IH] using (induction_ltof1 _ (@length _)). unfold ltof in IH.
  intros given pos H. destruct argv as [|a rest]; cbn [collect] in H.
  - injection H as <- <-. exists []. repeat split; constructor.
  - destruct (dashed a) eqn:D.
    + destruct (odd_word a) eqn:Od; [discriminate|].
      destruct (find _ opts) as [o|] eqn:F; [|discriminate]. apply find_some in F as [HI E]. apply is_name_iff in E.
      assert (HP : positional o = false) by (unfold positional; rewrite <- E, D; reflexivity).
      assert (V : forall (r : list text), match o_target o with ToFlag _ => False | _ => True end -> length r < length (a :: rest) ->
        forall v, rest = v :: r ->
        (do '(given, pos) <- collect opts r; Ok ((a, v) :: given, pos)) = Ok (given, pos) ->
        exists items, a :: rest = words items /\ given = given_of (options items) /\ pos = positionals items /\
          Forall (entry_ok opts) (options items) /\ Forall plain_word pos).
      { intros r HT L v -> H'. apply bind_ok in H' as ([g p] & H1 & [= <- <-]).
        apply IH in H1 as (items & -> & -> & -> & F1 & F2); auto.
        exists (Opt (o_name o) v :: items). cbn [words options positionals flat_map app given_of map fst snd value_of].
        rewrite <- E. repeat split; auto. constructor; auto. exists o. cbn. repeat split; auto. }
      destruct (o_target o) eqn:HT.
      * apply bind_ok in H as ([g p] & H1 & [= <- <-]).
        apply IH in H1 as (items & -> & -> & -> & F1 & F2); [|cbn; lia].
        exists (Flag (o_name o) :: items). cbn [words options positionals flat_map app given_of map fst snd value_of].
        rewrite <- E. repeat split; auto. constructor; auto. exists o. cbn. rewrite HT. repeat split; auto.
      * destruct rest as [|v rest']; [discriminate|]. eapply V; eauto. cbn; lia.
      * destruct rest as [|v rest']; [discriminate|]. eapply V; eauto. cbn; lia.
    + destruct (is_sub_name a) eqn:S; [discriminate|].
      apply bind_ok in H as ([g p] & H1 & [= <- <-]).
      apply IH in H1 as (items & -> & -> & -> & F1 & F2); [|cbn; lia].
      exists (Pos a :: items). cbn [words options positionals flat_map app]. repeat split; auto.
      constructor; auto. apply plain_word_iff. auto.
Qed.

(* why reading fails *)
Lemma collect_fail argv x : collect opts argv = Fail x ->
  x = FExit \/ (x = FUndefined /\ exists pre w post, argv = pre ++ w :: post /\ (strange w \/ exists c, In c commands /\ w = lit c)).
Proof.
  revert x. induction argv as [argv IH] using (induction_ltof1 _ (@length _)). unfold ltof in IH.
  intros x H. destruct argv as [|a rest]; cbn [collect] in H; [discriminate|].
  assert (R : forall front r, a :: rest = front ++ r -> length r < length (a :: rest) -> collect opts r = Fail x ->
    x = FExit \/ (x = FUndefined /\ exists pre w post, a :: rest = pre ++ w :: post /\ (strange w \/ exists c, In c commands /\ w = lit c))).
  { intros front r E L H'. apply IH in H' as [->|(-> & pre & w & post & -> & Q)]; auto. right. split; auto.
    exists (front ++ pre), w, post. rewrite E, app_assoc. auto. }
  destruct (dashed a) eqn:D.
  - destruct (odd_word a) eqn:Od.
    { injection H as <-. right. split; auto. exists [], a, rest. split; auto. left. apply odd_word_strange; auto. }
    destruct (find _ opts) as [o|] eqn:F; [|injection H as <-; auto].
    destruct (o_target o) eqn:HT.
    + destruct (collect opts rest) as [[]|e] eqn:C; cbn in H; [discriminate|]. injection H as ->.
      apply (R [a] rest); auto.
    + destruct rest as [|v rest']; [injection H as <-; auto|].
      destruct (collect opts rest') as [[]|e] eqn:C; cbn in H; [discriminate|]. injection H as ->.
      apply (R [a; v] rest'); auto. cbn; lia.
    + destruct rest as [|v rest']; [injection H as <-; auto|].
      destruct (collect opts rest') as [[]|e] eqn:C; cbn in H; [discriminate|]. injection H as ->.
      apply (R [a; v] rest'); auto. cbn; lia.
  - destruct (is_sub_name a) eqn:S.
    { injection H as <-. right. split; auto. exists [], a, rest. split; auto. right. apply is_sub_name_iff in S. auto. }
    destruct (collect opts rest) as [[]|e] eqn:C; cbn in H; [discriminate|]. injection H as ->.
    apply (R [a] rest); auto.
Qed.
End Collect.

(** * Values *)
Definition vals (o : list (string * option text)) (n : string) : list text :=
  flat_map (fun e => if String.eqb (fst e) n then [value_of (snd e)] else []) o.
Lemma values_of_given o n : values_of (given_of o) n = vals o n.
Proof.
  unfold values_of, given_of, vals. induction o as [|[m v] o IH]; cbn [map filter flat_map fst snd]; auto.
  rewrite is_name_lit. destruct (String.eqb m n); cbn [map app snd]; rewrite IH; auto.
Qed.
Lemma given_of_app a b : given_of (a ++ b) = given_of a ++ given_of b.
Proof. apply map_app. Qed.
Lemma vals_app a b n : vals (a ++ b) n = vals a n ++ vals b n.
Proof. apply flat_map_app. Qed.
Lemma vals_perm a b n : Permutation a b -> Permutation (vals a n) (vals b n).
Proof. intros H. unfold vals. apply Permutation_flat_map. auto. Qed.
Lemma vals_perm_one a b n : Permutation a b -> length (vals b n) <= 1 -> vals a n = vals b n.
Proof.
  intros H L. apply (vals_perm _ _ n) in H. destruct (vals b n) as [|v [|]]; cbn in L; [| |lia].
  - apply Permutation_sym, Permutation_nil in H. auto.
  - apply Permutation_sym, Permutation_length_1_inv in H. auto.
Qed.
Lemma vals_none o n : ~ In n (map fst o) -> vals o n = [].
Proof.
  induction o as [|[m v] o IH]; cbn; auto. intros H. destruct (String.eqb_spec m n); [tauto|]. apply IH. tauto.
Qed.

Fixpoint placed (opts : list opt) (pos : list text) : res (list (string * option text)) :=
  match opts with
  | [] => match pos with [] => Ok [] | _ => Fail FExit end
  | o :: opts' =>
      if positional o then match pos with [] => Ok [] | p :: pos' => do r <- placed opts' pos'; Ok ((o_name o, Some p) :: r) end
      else placed opts' pos
  end.
Lemma distribute_placed opts pos : distribute opts pos = (do l <- placed opts pos; Ok (given_of l)).
Proof.
  revert pos. induction opts as [|o opts IH]; intros pos; cbn [distribute placed].
  - destruct pos; reflexivity.
  - destruct (positional o).
    + destruct pos; [reflexivity|]. rewrite IH. destruct (placed opts pos); reflexivity.
    + apply IH.
Qed.

Definition store1 (f : fs) (A : Args) (o : opt) (vs : list text) : res Args :=
  match vs with
  | [] => if o_required o then Fail FExit else Ok A
  | [v] =>
      match o_target o with
      | ToFlag x => Ok (mkArgs (a_type A) (fun y => if flag_eq_dec y x then true else a_flag A y) (a_text A) (a_num A))
      | ToText x =>
          match o_check o, f v with
          | ExistingFile, None => Fail FExit
          | _, _ => Ok (mkArgs (a_type A) (a_flag A) (fun y => if text_eq_dec y x then Some v else a_text A y) (a_num A))
          end
      | ToNum x =>
          match read_num v with
          | None => if odd_number v then Fail FUndefined else Fail FExit
          | Some n =>
              match o_check o, n with
              | PositiveNumber, 0%N => Fail FExit
              | _, _ => Ok (mkArgs (a_type A) (a_flag A) (a_text A) (fun y => if num_eq_dec y x then Some (N.to_nat n) else a_num A y))
              end
          end
      end
  | _ => match o_target o with ToFlag _ => Fail FUndefined | _ => Fail FExit end
  end.
Lemma store_store1 f o A x : store f (given_of o) A x = store1 f A x (vals o (o_name x)).
Proof. unfold store, store1. rewrite values_of_given. reflexivity. Qed.

Definition parsed (f : fs) (s : sub) (o : list (string * option text)) (p : list text) : res Args :=
  do more <- placed (s_opts s) p;
  foldM (fun A x => store1 f A x (vals (o ++ more) (o_name x))) (s_opts s) (args0 (s_type s)).

Lemma parse_sub_items f s items : NoDup (map o_name (s_opts s)) -> sane (s_opts s) = true ->
  Forall (entry_ok (s_opts s)) (options items) -> Forall plain_word (positionals items) ->
  parse_sub f s (words items) = parsed f s (options items) (positionals items).
Proof.
  intros ND SN F1 F2. unfold parse_sub, parsed.
  pose proof (collect_items _ ND SN items [] F1 F2) as C. rewrite app_nil_r in C. rewrite C. cbn [collect bind].
  rewrite !app_nil_r, distribute_placed. destruct (placed _ _) as [more|]; cbn [bind]; auto.
  rewrite <- given_of_app. apply foldM_ext. intros. apply store_store1.
Qed.
Lemma parsed_perm f s o o' p : Permutation o o' -> (forall n more, placed (s_opts s) p = Ok more -> length (vals (o' ++ more) n) <= 1) ->
  parsed f s o p = parsed f s o' p.
Proof.
  intros HP L. unfold parsed. destruct (placed _ _) as [more|] eqn:E; cbn [bind]; auto.
  apply foldM_ext. intros. rewrite (vals_perm_one (o ++ more) (o' ++ more)); auto. apply Permutation_app_tail. auto.
Qed.

(** * Subcommands *)
Definition lookup (c : list string) : option sub :=
  let find_name l n := find (fun s => existsb (String.eqb n) (s_names s)) l in
  match c with
  | [a] => find_name subs a
  | [r; b] => if String.eqb r "run" then find_name run_subs b else None
  | _ => None
  end.
Lemma find_sub_lit l n : find_sub l (lit n) = find (fun s => existsb (String.eqb n) (s_names s)) l.
Proof.
  unfold find_sub. induction l as [|s l IH]; cbn [find]; auto. rewrite IH.
  replace (existsb (is_name (lit n)) (s_names s)) with (existsb (String.eqb n) (s_names s)); auto.
  induction (s_names s); cbn; auto. rewrite is_name_lit. congruence.
Qed.
Lemma find_sub_some l w s : find_sub l w = Some s -> exists n, w = lit n /\ In s l /\ In n (s_names s).
Proof.
  intros H. apply find_some in H as [HI E]. apply existsb_exists in E as (n & Hn & E). apply is_name_iff in E. eauto.
Qed.
Lemma lookup_cases c s : lookup c = Some s ->
  In (c, s) [(["genkey"], genkey); (["genbkey"], genbkey); (["enc"], enc); (["dec"], dec); (["ltl2spec"], ltl2spec);
    (["spec2spec"], spec2spec); (["spec2dot"], spec2dot); (["spec2att"], spec2att); (["att2spec"], att2spec);
    (["run"; "offline"], offline false); (["run"; "reverse"], reverse false); (["run"; "reversed"], reverse false);
    (["run"; "block"], block false); (["run"; "bbs"], block false); (["run"; "block-backstream"], block false);
    (["run"; "flut"], flut false); (["run"; "qtrlwe2"], flut false); (["run"; "plain"], plain false)]%string.
Proof.
  intros H. destruct c as [|a [|b [|]]]; cbn [lookup] in H; try discriminate.
  - cbn in H.
    repeat match type of H with context [String.eqb a ?x] =>
      destruct (String.eqb_spec a x) as [->|?]; [cbn in H; injection H as <-; cbn; tauto|cbn [orb] in H] end. discriminate.
  - destruct (String.eqb_spec a "run") as [->|]; [|discriminate]. cbn in H.
    repeat match type of H with context [String.eqb b ?x] =>
      destruct (String.eqb_spec b x) as [->|?]; [cbn in H; injection H as <-; cbn; tauto|cbn [orb] in H] end. discriminate.
Qed.
Ltac each_sub H := cbn [In] in H; repeat (destruct H as [[= <- <-]|H]); try destruct H.
Lemma lookup_sane c s : lookup c = Some s -> NoDup (map o_name (s_opts s)) /\ sane (s_opts s) = true.
Proof.
  intros H. apply lookup_cases in H. each_sub H.
  all: split; [cbn; repeat constructor; cbn; intuition discriminate|reflexivity].
Qed.

Definition begins_general (argv : list text) : bool :=
  match argv with a :: _ => is_name a "--verbose" || is_name a "--quiet" | [] => false end.
Lemma parse_seen seen f rest : begins_general rest = false -> parse_from seen f rest = parse f rest.
Proof. unfold parse. destruct rest as [|a rest]; cbn [parse_from begins_general]; [|intros ->]; reflexivity. Qed.
Lemma general_is w : w = lit "--verbose" \/ w = lit "--quiet" <-> is_name w "--verbose" || is_name w "--quiet" = true.
Proof. rewrite orb_true_iff, !is_name_iff. reflexivity. Qed.
Lemma seen_iff w seen : existsb (path_eqb w) seen = true <-> In w seen.
Proof.
  rewrite existsb_exists. split; [intros (x & HI & E); apply path_eqb_iff in E as ->; auto|].
  intros HI. exists w. split; auto. apply path_eqb_iff. reflexivity.
Qed.
Lemma parse_general_from f g rest : begins_general rest = false -> forall seen, Forall (fun w => w = lit "--verbose" \/ w = lit "--quiet") g ->
  NoDup (rev g ++ seen) -> parse_from seen f (g ++ rest) = parse f rest.
Proof.
  intros B. induction g as [|w g IH]; intros seen F ND; [apply parse_seen; auto|].
  inversion F as [|? ? H F']; subst. apply general_is in H. cbn [app parse_from]. rewrite H.
  cbn [rev] in ND. rewrite <- app_assoc in ND. cbn [app] in ND.
  replace (existsb (path_eqb w) seen) with false.
  - apply IH; auto.
  - symmetry. apply not_true_iff_false. rewrite seen_iff. intros HI. apply NoDup_remove_2 in ND. apply ND. apply in_app_iff. auto.
Qed.
Lemma parse_general f g rest : general g -> begins_general rest = false -> parse f (g ++ rest) = parse f rest.
Proof.
  intros [F ND] B. apply parse_general_from; auto. rewrite app_nil_r. apply NoDup_rev. auto.
Qed.
Lemma parse_lookup f g c s rest : general g -> lookup c = Some s ->
  parse f (g ++ map lit c ++ rest) = parse_sub f s rest.
Proof.
  intros G H. apply lookup_cases in H. each_sub H.
  all: rewrite parse_general by (auto; cbn [map app begins_general]; rewrite !is_name_lit; reflexivity).
  all: unfold parse; cbn [map app parse_from]; rewrite !is_name_lit, !find_sub_lit; reflexivity.
Qed.
(* every command line is the general flags and then a command, nothing, or an error *)
Lemma parse_cases_from f argv : forall seen, NoDup seen ->
  (exists g, Forall (fun w => w = lit "--verbose" \/ w = lit "--quiet") g /\ NoDup (rev g ++ seen) /\
  ((exists c s rest, argv = g ++ map lit c ++ rest /\ lookup c = Some s) \/
   (parse_from seen f argv = Ok (args0 UNSPECIFIED) /\ (argv = g \/ argv = g ++ [lit "run"])) \/
   parse_from seen f argv = Fail FExit \/
   (parse_from seen f argv = Fail FUndefined /\ exists b rest, argv = g ++ lit "run" :: b :: rest /\ is_sub_name b = true /\ find_sub run_subs b = None))) \/
  (parse_from seen f argv = Fail FUndefined /\ exists pre w post, argv = pre ++ w :: post /\ (w = lit "--verbose" \/ w = lit "--quiet") /\ In w (rev pre ++ seen)) \/
  (parse_from seen f argv = Fail FUndefined /\ exists w, In w argv /\ strange w).
Proof.
  induction argv as [|a argv IH]; intros seen ND.
  - left. exists []. split; [constructor|]. split; [exact ND|]. right. left. auto.
  - destruct (is_name a "--verbose" || is_name a "--quiet") eqn:V.
    + cbn [parse_from]. rewrite V. destruct (existsb (path_eqb a) seen) eqn:S.
      { right. left. split; auto. exists [], a, argv. apply seen_iff in S. apply general_is in V. auto. }
      assert (ND' : NoDup (a :: seen)).
      { constructor; auto. rewrite <- seen_iff. congruence. }
      destruct (IH (a :: seen) ND') as [(g & G & NG & H)|[(E & pre & w & post & -> & W & HI)|(E & w & HI & W)]].
      * left. exists (a :: g). split; [constructor; auto; apply general_is; auto|].
        split; [cbn [rev]; rewrite <- app_assoc; exact NG|].
        destruct H as [(c & s & rest & -> & L)|[(E & [-> | ->])|[E|(E & b & rest & -> & Q)]]].
        -- left. exists c, s, rest. auto.
        -- right. left. auto.
        -- right. left. auto.
        -- right. right. left. auto.
        -- right. right. right. split; auto. exists b, rest. auto.
      * right. left. split; auto. exists (a :: pre), w, post. split; auto. split; auto.
        cbn [rev]. rewrite <- app_assoc. exact HI.
      * right. right. split; auto. exists w. cbn. auto.
    + cbn [parse_from app]. rewrite V.
      destruct (negb (is_name a "run") && match find_sub subs a with Some _ => false | None => dashed a && odd_word a end) eqn:Q.
      { apply andb_true_iff in Q as [R Q]. apply negb_true_iff in R. rewrite R. destruct (find_sub subs a); [discriminate|]. rewrite Q.
        right. right. split; auto. exists a. apply andb_true_iff in Q as [D Od]. split; [left; auto|]. apply odd_word_strange; auto. }
      left. exists []. split; [constructor|]. split; [exact ND|].
      destruct (is_name a "run") eqn:R.
      * apply is_name_iff in R as ->. destruct argv as [|b rest]; [right; left; auto|].
        destruct (find_sub run_subs b) as [s|] eqn:F.
        -- left. pose proof F as F'. apply find_sub_some in F as (n & -> & HI & Hn).
           exists ["run"%string; n], s, rest. split; auto. rewrite find_sub_lit in F'. cbn [lookup]. rewrite String.eqb_refl. auto.
        -- destruct (is_sub_name b) eqn:S; [|auto]. right. right. right. split; auto. exists b, rest. auto.
      * cbn [negb andb] in Q. destruct (find_sub subs a) as [s|] eqn:F; [|rewrite Q; auto].
        left. pose proof F as F'. apply find_sub_some in F as (n & -> & HI & Hn).
        exists [n], s, argv. split; auto. rewrite find_sub_lit in F'. auto.
Qed.
Lemma parse_cases f argv : (exists g, general g /\
  ((exists c s rest, argv = g ++ map lit c ++ rest /\ lookup c = Some s) \/
   (parse f argv = Ok (args0 UNSPECIFIED) /\ (argv = g \/ argv = g ++ [lit "run"])) \/
   parse f argv = Fail FExit \/
   (parse f argv = Fail FUndefined /\ exists b rest, argv = g ++ lit "run" :: b :: rest /\ is_sub_name b = true /\ find_sub run_subs b = None))) \/
  (parse f argv = Fail FUndefined /\ exists a b c n, argv = a ++ lit n :: b ++ lit n :: c /\ In n ["--verbose"; "--quiet"]%string) \/
  (parse f argv = Fail FUndefined /\ exists w, In w argv /\ strange w).
Proof.
  destruct (parse_cases_from f argv [] (NoDup_nil _)) as [(g & G & NG & H)|[(E & pre & w & post & -> & W & HI)|H]]; [| |auto].
  - left. exists g. split; auto. split; auto. rewrite app_nil_r in NG. rewrite <- (rev_involutive g). apply NoDup_rev. auto.
  - right. left. split; auto. rewrite app_nil_r in HI. apply in_rev in HI. apply in_split in HI as (a & b & ->).
    rewrite <- app_assoc. cbn [app]. destruct W as [-> | ->]; [exists a, b, post, "--verbose"%string|exists a, b, post, "--quiet"%string]; cbn; auto.
Qed.

(** * What a stored option says *)
Definition stored_ok (f : fs) (x : opt) (vs : list text) : Prop :=
  match vs with
  | [] => o_required x = false
  | [v] =>
      match o_target x, o_check x with
      | ToFlag _, _ => True
      | ToText _, ExistingFile => readable f v
      | ToText _, _ => True
      | ToNum _, PositiveNumber => exists n, positive v n
      | ToNum _, _ => exists n, number v n
      end
  | _ => False
  end.
Lemma number_iff v n : number v n <-> exists m, read_num v = Some m /\ n = N.to_nat m.
Proof.
  unfold number. split.
  - intros [-> L]. exists (N.of_nat n). rewrite read_num_iff, Nnat.Nat2N.id. auto.
  - intros (m & E & ->). apply read_num_iff in E as [-> L]. rewrite Nnat.N2Nat.id. auto.
Qed.
Lemma store1_ok f A x vs A' : store1 f A x vs = Ok A' -> stored_ok f x vs.
Proof.
  unfold store1, stored_ok. destruct vs as [|v [|]].
  - destruct (o_required x); congruence.
  - destruct (o_target x); auto.
    + destruct (o_check x); auto. unfold readable. destruct (f v); [discriminate|]. discriminate.
    + destruct (read_num v) as [n|] eqn:R; [|destruct (odd_number v); discriminate].
      destruct (o_check x); [| |destruct n; [discriminate|]]; intros _.
      * exists (N.to_nat n). apply number_iff. eauto.
      * exists (N.to_nat n). apply number_iff. eauto.
      * exists (N.to_nat (N.pos p)). split; [apply number_iff; eauto|lia].
  - destruct (o_target x); discriminate.
Qed.
Lemma odd_number_strange v : odd_number v = true -> read_num v = None -> strange_number v.
Proof.
  intros O R. split.
  - apply orb_true_iff in O as [O|O]; [left|right; apply is_name_iff; auto].
    apply existsb_exists in O as (c & HI & D). exists c. split; auto. unfold is_digit in D. unfold nat_of_ascii.
    apply andb_true_iff in D as [D1 D2]. apply N.leb_le in D1, D2. lia.
  - intros n H. apply number_iff in H as (m & E & _). congruence.
Qed.
Lemma store1_fail f A x vs e : store1 f A x vs = Fail e ->
  e = FExit \/ (e = FUndefined /\ ((2 <= length vs /\ exists y, o_target x = ToFlag y) \/ exists v, vs = [v] /\ strange_number v)).
Proof.
  unfold store1. destruct vs as [|v [|]].
  - destruct (o_required x); [intros [= <-]; auto|discriminate].
  - destruct (o_target x); [discriminate| |].
    + destruct (o_check x), (f v); try discriminate; intros [= <-]; auto.
    + destruct (read_num v) as [[|]|] eqn:R; [destruct (o_check x); try discriminate; intros [= <-]; auto..|].
      destruct (odd_number v) eqn:O; intros [= <-]; auto. right. split; auto. right. exists v. split; auto. apply odd_number_strange; auto.
  - destruct (o_target x); intros [= <-]; auto. right. cbn. split; auto. left. split; [lia|eauto].
Qed.
Lemma foldM_stores f l (V : opt -> list text) : forall A A',
  foldM (fun A x => store1 f A x (V x)) l A = Ok A' -> Forall (fun x => stored_ok f x (V x)) l.
Proof.
  induction l as [|x l IH]; intros A A' H; [constructor|]. cbn in H. apply bind_ok in H as (A1 & H1 & H2).
  constructor; eauto using store1_ok.
Qed.
Lemma foldM_stores_fail f l (V : opt -> list text) : forall A e,
  foldM (fun A x => store1 f A x (V x)) l A = Fail e ->
  e = FExit \/ (e = FUndefined /\ exists x, In x l /\
    ((2 <= length (V x) /\ exists y, o_target x = ToFlag y) \/ exists v, V x = [v] /\ strange_number v)).
Proof.
  induction l as [|x l IH]; intros A e H; [discriminate|]. cbn in H.
  destruct (store1 f A x (V x)) as [A1|e1] eqn:S; cbn in H.
  - apply IH in H as [->|(-> & x' & ? & ?)]; auto. right. split; auto. exists x'. cbn. auto.
  - injection H as ->. apply store1_fail in S as [->|(-> & ?)]; auto. right. split; auto. exists x. cbn. auto.
Qed.

Lemma placed_names opts : forall p more, placed opts p = Ok more ->
  Forall (fun e => exists x, In x opts /\ positional x = true /\ o_name x = fst e) more.
Proof.
  induction opts as [|x opts IH]; intros p more H; cbn in H.
  - destruct p; [injection H as <-; constructor|discriminate].
  - destruct (positional x) eqn:P.
    + destruct p as [|v p]; [injection H as <-; constructor|].
      apply bind_ok in H as (r & H & [= <-]). constructor; [exists x; cbn; auto|].
      apply IH in H. eapply Forall_impl; [|exact H]. cbn. intros e (y & ? & ? & ?). exists y. auto.
    + apply IH in H. eapply Forall_impl; [|exact H]. cbn. intros e (y & ? & ? & ?). exists y. auto.
Qed.
Lemma placed_fail opts : forall p e, placed opts p = Fail e -> e = FExit.
Proof.
  induction opts as [|x opts IH]; intros p e H; cbn in H.
  - destruct p; congruence.
  - destruct (positional x); [|eauto]. destruct p; [discriminate|].
    destruct (placed opts p) eqn:E; cbn in H; [discriminate|]. injection H as ->. eauto.
Qed.
Lemma name_inj (opts : list opt) x y : NoDup (map o_name opts) -> In x opts -> In y opts -> o_name x = o_name y -> x = y.
Proof.
  intros ND Hx Hy E. pose proof (find_opt opts x ND Hx) as F1. pose proof (find_opt opts y ND Hy) as F2.
  rewrite E in F1. congruence.
Qed.

(* the options, sorted as they are registered *)
Definition canon (opts : list opt) (o : list (string * option text)) : list (string * option text) :=
  flat_map (fun x => if positional x then [] else
    map (fun v => (o_name x, match o_target x with ToFlag _ => None | _ => Some v end)) (vals o (o_name x))) opts.
Lemma canon_nil opts : canon opts [] = [].
Proof. unfold canon. induction opts; cbn; auto. destruct (positional a); auto. Qed.
Lemma canon_cons opts e o : NoDup (map o_name opts) -> entry_ok opts e -> Permutation (canon opts (e :: o)) (e :: canon opts o).
Proof.
  intros ND (x & HI & E & P & T).
  apply in_split in HI as (l1 & l2 & ->). unfold canon. rewrite !flat_map_app. cbn [flat_map]. rewrite P.
  assert (Q : forall l, ~ In (o_name x) (map o_name l) ->
    flat_map (fun y => if positional y then [] else map (fun v => (o_name y, match o_target y with ToFlag _ => None | _ => Some v end)) (vals (e :: o) (o_name y))) l
    = flat_map (fun y => if positional y then [] else map (fun v => (o_name y, match o_target y with ToFlag _ => None | _ => Some v end)) (vals o (o_name y))) l).
  { induction l as [|y l IH]; intros N; cbn [flat_map]; auto. cbn [map In] in N. rewrite IH by tauto. f_equal.
    cbn [vals flat_map]. fold (vals o (o_name y)). rewrite <- E. destruct (String.eqb_spec (o_name x) (o_name y)); [|reflexivity].
    exfalso. apply N. left. congruence. }
  rewrite map_app in ND. cbn in ND. apply NoDup_remove_2 in ND. rewrite in_app_iff in ND.
  rewrite !Q by tauto. cbn [vals flat_map]. fold (vals o (o_name x)). rewrite <- E, String.eqb_refl. cbn [app map].
  apply Permutation_sym. eapply Permutation_trans; [|apply Permutation_middle].
  destruct e as [n v]. cbn [fst snd] in *. subst n. 
  replace (match o_target x with ToFlag _ => None | _ => Some (value_of v) end) with v; auto.
  destruct v, (o_target x); cbn; tauto || auto.
Qed.
Lemma canon_perm opts o : NoDup (map o_name opts) -> Forall (entry_ok opts) o -> Permutation o (canon opts o).
Proof.
  intros ND. induction 1 as [|e o HE F IH]; [rewrite canon_nil; constructor|].
  eapply Permutation_trans; [|apply Permutation_sym, canon_cons; auto]. constructor. auto.
Qed.

Lemma vals_positional opts o x : NoDup (map o_name opts) -> Forall (entry_ok opts) o -> In x opts -> positional x = true ->
  vals o (o_name x) = [].
Proof.
  intros ND F HI P. apply vals_none. intros H. apply in_map_iff in H as (e & E & He). rewrite Forall_forall in F.
  destruct (F e He) as (y & Hy & E' & P' & _). rewrite (name_inj opts x y) in P by (auto; congruence). congruence.
Qed.
Lemma vals_placed opts p more x : NoDup (map o_name opts) -> placed opts p = Ok more -> In x opts -> positional x = false ->
  vals more (o_name x) = [].
Proof.
  intros ND F HI P. apply vals_none. intros H. apply in_map_iff in H as (e & E & He). apply placed_names in F.
  rewrite Forall_forall in F. destruct (F e He) as (y & Hy & P' & E'). rewrite (name_inj opts x y) in P by (auto; congruence). congruence.
Qed.

(** * The manual, from left to right *)
Lemma vals_nodup o n : NoDup (map fst o) -> length (vals o n) <= 1.
Proof.
  induction o as [|[m v] o IH]; cbn; intros ND; [lia|]. inversion ND; subst.
  destruct (String.eqb_spec m n) as [->|]; [|apply IH; auto]. fold (vals o n). rewrite (vals_none o n) by auto. cbn. lia.
Qed.
Lemma command_parse f argv c o p s : command_line argv c o p -> lookup c = Some s ->
  Forall (entry_ok (s_opts s)) o -> (forall more, placed (s_opts s) p = Ok more -> NoDup (map fst (o ++ more))) ->
  parse f argv = parsed f s o p.
Proof.
  intros (g & items & G & -> & HP & <- & FP) L F ND. rewrite (parse_lookup f g c s) by auto.
  destruct (lookup_sane c s L) as [N S]. rewrite parse_sub_items; auto.
  - apply parsed_perm; auto. intros n more E. apply vals_nodup. auto.
  - eapply Permutation_Forall; [apply Permutation_sym; exact HP|exact F].
Qed.
Lemma number_read t n : number t n -> read_num t = Some (N.of_nat n).
Proof. intros H. apply number_iff in H as (m & E & ->). rewrite E. f_equal. lia. Qed.
Lemma positive_read t n : positive t n -> exists q, read_num t = Some (Npos q) /\ N.to_nat (Npos q) = n.
Proof.
  intros [H P]. apply number_read in H. destruct n as [|n]; [lia|]. exists (Pos.of_succ_nat n). split; [exact H|lia].
Qed.
Definition entry_okb (opts : list opt) (e : string * option text) : bool :=
  existsb (fun x => String.eqb (o_name x) (fst e) && negb (positional x) &&
    match snd e, o_target x with None, ToFlag _ => true | None, _ => false | Some _, ToFlag _ => false | Some _, _ => true end) opts.
Lemma entry_okb_ok opts o : forallb (entry_okb opts) o = true -> Forall (entry_ok opts) o.
Proof.
  intros H. apply Forall_forall. intros e He. rewrite forallb_forall in H. apply H in He. clear H.
  apply existsb_exists in He as (x & Hx & E). exists x. split; auto.
  apply andb_true_iff in E as [E E3]. apply andb_true_iff in E as [E1 E2]. apply String.eqb_eq in E1. apply negb_true_iff in E2.
  split; auto. split; auto. destruct (snd e), (o_target x); auto; discriminate.
Qed.
