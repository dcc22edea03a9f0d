(** C87: the command line of the program counter.  The manual is in CtestCliSpec.v. *)
From Coq Require Import String.
From Coq Require Import List Arith Bool NArith Ascii Lia Wf_nat.
Import ListNotations.
From Verif Require Import Base BaseFacts GraphModel TextModel DotModel CliModel TorusModel CmdModel MainModel MainSpec MainFacts
  JoinedModel JoinedSpec JoinedFacts CrashModel CtestModel CtestCliModel CtestCliSpec.
Local Open Scope list_scope.

Lemma threads_read t n : threads t n -> cpu_number t = Ok n.
Proof.
  intros (E & P & B). unfold cpu_number.
  assert (R : read_num t = Some (N.of_nat n)).
  { apply read_num_iff. rewrite Nnat.Nat2N.id. split; auto. eapply N.lt_trans; [exact B|reflexivity]. }
  rewrite R. replace ((0 <? N.of_nat n)%N) with true by (symmetry; apply N.ltb_lt; lia).
  apply N.ltb_lt in B. rewrite B. cbn [andb]. rewrite Nnat.Nat2N.id. reflexivity.
Qed.
Lemma cpu_number_cases v : (exists n, threads v n /\ cpu_number v = Ok n) \/ cpu_number v = Fail FExit \/
  (cpu_number v = Fail FUndefined /\ strange_threads v).
Proof.
  unfold cpu_number. destruct (read_num v) as [n|] eqn:R.
  - apply read_num_iff in R as [E B]. destruct ((0 <? n)%N && (n <? 2 ^ 31)%N) eqn:Q.
    + apply andb_true_iff in Q as [Q1 Q2]. apply N.ltb_lt in Q1, Q2. left. exists (N.to_nat n). split; auto. split; auto. split; [lia|].
      rewrite Nnat.N2Nat.id. exact Q2.
    + right. right. split; auto. split.
      * left. destruct (show_nat_shape (N.to_nat n)) as (d & S & U).
        assert (D : read_num v = Some n) by (apply read_num_iff; auto). unfold read_num in D. destruct v as [|c v]; [discriminate|].
        destruct (forallb is_digit (c :: v) && _) eqn:FD; [|discriminate]. apply andb_true_iff in FD as [FD _].
        cbn [forallb] in FD. apply andb_true_iff in FD as [DC _]. exists c. split; [left; auto|].
        unfold is_digit in DC. apply andb_true_iff in DC as [D1 D2]. apply N.leb_le in D1, D2. unfold nat_of_ascii. lia.
      * intros m (Em & Pm & Bm). assert (X : read_num v = Some (N.of_nat m)).
        { apply read_num_iff. rewrite Nnat.Nat2N.id. split; auto. eapply N.lt_trans; [exact Bm|reflexivity]. }
        assert (X' : read_num v = Some n) by (apply read_num_iff; auto). assert (n = N.of_nat m) as -> by congruence.
        apply andb_false_iff in Q as [Q|Q]; apply N.ltb_ge in Q; lia.
  - destruct (odd_number v) eqn:O; auto. right. right. split; auto. split.
    + apply (proj1 (odd_number_strange v O R)).
    + intros m (Em & Pm & Bm). assert (X : read_num v = Some (N.of_nat m)); [|congruence].
      apply read_num_iff. rewrite Nnat.Nat2N.id. split; auto. eapply N.lt_trans; [exact Bm|reflexivity].
Qed.
Lemma joined_cpu t : t <> [] -> joined (lit "--cpu=" ++ t) = Some (lit "--cpu", t).
Proof.
  intros NT. change (lit "--cpu=" ++ t) with (("-"%char :: "-"%char :: "c"%char :: lit "pu") ++ "="%char :: t).
  apply joined_app; auto. cbn. intuition discriminate.
Qed.
(* the words behind the values *)
Lemma cpu_values_ok argv vs : cpu_values argv = Ok vs ->
  match vs with
  | [] => argv = []
  | [v] => argv = [lit "--cpu"; v] \/ argv = [lit "--cpu=" ++ v]
  | _ => True
  end /\ (vs = [] -> argv = []).
Proof.
  revert vs. induction argv as [argv IH] using (induction_ltof1 _ (@length _)). unfold ltof in IH. intros vs H.
  destruct argv as [|a rest]; cbn [cpu_values] in H; [injection H as <-; auto|].
  assert (K : forall v r front, a :: rest = front ++ r -> length r < length (a :: rest) -> (front = [lit "--cpu"; v] \/ front = [lit "--cpu=" ++ v]) ->
    (do l <- cpu_values r; Ok (v :: l)) = Ok vs ->
    match vs with [] => a :: rest = [] | [v] => a :: rest = [lit "--cpu"; v] \/ a :: rest = [lit "--cpu=" ++ v] | _ => True end /\ (vs = [] -> a :: rest = [])).
  { intros v r front E L HF HB. apply bind_ok in HB as (l & HB & [= <-]). apply IH in HB as [_ HB]; auto. split; [|discriminate].
    destruct l as [|x l]; auto. rewrite (HB eq_refl), app_nil_r in E. rewrite E. destruct HF as [-> | ->]; auto. }
  destruct (dashed a) eqn:D; cbn [negb] in H; [|discriminate].
  destruct (odd_word a) eqn:Od.
  - destruct (joined a) as [[n v]|] eqn:J; [|discriminate]. destruct (is_name n "--cpu") eqn:N; [|discriminate].
    apply is_name_iff in N. subst n. apply joined_some in J as (-> & _). apply (K v rest [lit "--cpu=" ++ v]); auto.
  - destruct (is_name a "--cpu") eqn:N; [|discriminate]. apply is_name_iff in N. subst a.
    destruct rest as [|v rest']; [discriminate|]. apply (K v rest' [lit "--cpu"; v]); auto. cbn; lia.
Qed.
Lemma cpu_values_fail argv e : cpu_values argv = Fail e ->
  e = FExit \/ (e = FUndefined /\ exists w, In w argv /\ strange w /\ ~ name_value [] w).
Proof.
  revert e. induction argv as [argv IH] using (induction_ltof1 _ (@length _)). unfold ltof in IH. intros e H.
  destruct argv as [|a rest]; cbn [cpu_values] in H; [discriminate|].
  assert (K : forall v r, incl r (a :: rest) -> length r < length (a :: rest) -> (do l <- cpu_values r; Ok (v :: l)) = Fail e ->
    e = FExit \/ (e = FUndefined /\ exists w, In w (a :: rest) /\ strange w /\ ~ name_value [] w)).
  { intros v r I L HB. destruct (cpu_values r) as [l|e'] eqn:C; cbn in HB; [discriminate|]. injection HB as ->.
    apply IH in C as [->|(-> & w & HI & Q)]; auto. right. split; auto. exists w. auto. }
  destruct (dashed a) eqn:D; cbn [negb] in H; [|injection H as <-; auto].
  destruct (odd_word a) eqn:Od.
  - destruct (joined a) as [[n v]|] eqn:J.
    + destruct (is_name n "--cpu"); [|injection H as <-; auto]. apply (K v rest); auto. intros x Hx. right. auto.
    + injection H as <-. right. split; auto. exists a. split; [left; auto|]. split; [apply odd_word_strange; auto|].
      intros NV. apply name_value_joined in NV as (n & v & J' & _). congruence.
  - destruct (is_name a "--cpu"); [|injection H as <-; auto].
    destruct rest as [|v rest']; [injection H as <-; auto|]. apply (K v rest'); auto; [intros x Hx; right; right; auto|cbn; lia].
Qed.
Lemma show_nat_nonempty n : show_nat n <> [].
Proof.
  intros E. assert (R : read_num (show_nat 0) = Some 0%N) by reflexivity. destruct (show_nat_shape n) as (d & S & U). rewrite E in S.
  destruct d; try discriminate.
Qed.
Lemma parse_line argv c : counter_line argv c -> ctest_parse argv = Ok c.
Proof.
  unfold ctest_parse. intros [|t n H|t n H].
  - reflexivity.
  - cbn [cpu_values]. change (dashed (lit "--cpu")) with true. change (odd_word (lit "--cpu")) with false.
    change (is_name (lit "--cpu") "--cpu") with true. cbn [negb bind cpu_values]. rewrite (threads_read t n H). reflexivity.
  - assert (NT : t <> []) by (destruct H as (-> & _); apply show_nat_nonempty).
    pose proof (joined_cpu t NT) as J. destruct (joined_word _ _ _ J) as [D Od].
    cbn [cpu_values]. rewrite D, Od, J. cbn [negb]. change (is_name (lit "--cpu") "--cpu") with true. cbn [bind cpu_values].
    rewrite (threads_read t n H). reflexivity.
Qed.
Lemma parse_total argv : (exists c, counter_line argv c /\ ctest_parse argv = Ok c) \/ ctest_parse argv = Fail FExit \/
  (ctest_parse argv = Fail FUndefined /\ counter_outside argv).
Proof.
  unfold ctest_parse. destruct (cpu_values argv) as [vs|e] eqn:C; cbn [bind].
  - apply cpu_values_ok in C as [C _]. destruct vs as [|v [|]]; auto.
    + subst argv. left. exists None. split; [constructor|reflexivity].
    + destruct (cpu_number_cases v) as [(n & HT & ->)|[->|(-> & ST)]]; cbn [bind]; auto.
      * left. exists (Some n). split; auto. destruct C as [-> | ->]; constructor; auto.
      * right. right. split; auto. destruct C as [-> | ->].
        -- exists v. split; [right; left; auto|]. auto.
        -- exists (lit "--cpu=" ++ v). split; [left; auto|]. right. right. exists v. auto.
  - apply cpu_values_fail in C as [->|(-> & w & HI & Q)]; auto. right. right. split; auto. exists w. auto.
Qed.

Section Keys.
Context {SK BK : Type} (save_sk : SK -> list N) (save_bk : BK -> list N)
        (read_sk : list N -> option SK) (read_bk : list N -> option BK).
Notation counter := (ctest_main save_sk save_bk read_sk read_bk).
Notation keys := (main_keys save_sk save_bk read_sk read_bk).

(** ** C87: the program takes nothing but --cpu with a number, and reads or makes its keys as in C61. *)
Theorem C87_manual argv c f sk bk : counter_line argv c -> counter f sk bk argv = (do k <- keys f sk bk; Ok (c, k)).
Proof. intros H. unfold ctest_main. rewrite (parse_line argv c H). reflexivity. Qed.
(** The number makes no difference to the keys and the files. *)
Theorem C87_any_number argv argv' c c' f sk bk : counter_line argv c -> counter_line argv' c' ->
  (do r <- counter f sk bk argv; Ok (snd r)) = (do r <- counter f sk bk argv'; Ok (snd r)).
Proof. intros H H'. rewrite (C87_manual argv c), (C87_manual argv' c') by auto. destruct (keys f sk bk); reflexivity. Qed.
(** Every other command line is refused whatever the files are: no key is read, made or written. *)
Theorem C87_total argv :
  (exists c, counter_line argv c) \/
  (forall f sk bk, counter f sk bk argv = Fail FExit) \/
  ((forall f sk bk, counter f sk bk argv = Fail FUndefined) /\ counter_outside argv).
Proof.
  destruct (parse_total argv) as [(c & H & _)|[E|(E & O)]]; [left; eauto| |].
  - right. left. intros. unfold ctest_main. rewrite E. reflexivity.
  - right. right. split; auto. intros. unfold ctest_main. rewrite E. reflexivity.
Qed.
End Keys.

(** Keys are lists of numbers; a key is good if it is not empty. *)
Definition ex_read (b : list N) : option (list N) := match b with [] => None | _ => Some b end.
Definition ex_counter := ctest_main (fun k : list N => k) (fun k : list N => k) ex_read ex_read.
Definition ex_keys : fs := fun n => if is_name n "_skey" then Some [7%N] else if is_name n "_bkey" then Some [8%N; 9%N] else None.
Example C87_nonvacuous :
  counter_line (map lit ["--cpu"; "4"]%string) (Some 4) /\ counter_line (map lit ["--cpu=4"]%string) (Some 4) /\
  (forall w, In w [[]; ["--cpu"; "4"]; ["--cpu=4"]]%string ->
     exists c f', ex_counter ex_keys [1%N] [2%N] (map lit w) = Ok (c, ([7%N], [8%N; 9%N], f')) /\ f' = ex_keys) /\
  (exists f', ex_counter (fun _ => None) [1%N] [2%N] [lit "--cpu=4"] = Ok (Some 4, ([1%N], [2%N], f')) /\ f' (lit "_skey") = Some [1%N]).
Proof.
  assert (T : threads (lit "4") 4) by (split; [reflexivity|split; [lia|reflexivity]]).
  split; [constructor; auto|]. split; [apply (cl_one (lit "4") 4); auto|]. split.
  - intros w [<-|[<-|[<-|[]]]]; eexists; eexists; split; vm_compute; reflexivity.
  - eexists. split; vm_compute; reflexivity.
Qed.
Example C87_refused :
  let run w := ex_counter ex_keys [1%N] [2%N] (map lit w) in
  run ["4"]%string = Fail FExit /\ run ["--cpus=4"]%string = Fail FExit /\ run ["--cpu"]%string = Fail FExit /\
  run ["--cpu=4"; "--cpu"; "4"]%string = Fail FExit /\ run ["--cpu=many"]%string = Fail FExit /\
  run ["--cpu=0"]%string = Fail FUndefined /\ run ["--cpu=-1"]%string = Fail FUndefined /\ run ["--cpu="]%string = Fail FUndefined.
Proof. repeat split; vm_compute; reflexivity. Qed.

Print Assumptions C87_manual.
Print Assumptions C87_any_number.
Print Assumptions C87_total.
