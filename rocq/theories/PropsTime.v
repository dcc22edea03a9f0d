(** C44: the timing summary. *)
From Coq Require Import String.
From Coq Require Import List Arith Bool NArith ZArith Ascii Permutation Lia.
Import ListNotations.
From Verif Require Import Base BaseFacts TextModel TimeModel.
Local Open Scope list_scope.

(** * Specification *)
(** What has been recorded since the last clear. *)
Fixpoint current (calls : list timer_call) : list sample :=
  match calls with
  | [] => []
  | Clear :: cs => current cs
  | Record t n d :: cs => if existsb (fun c => match c with Clear => true | _ => false end) cs
                          then current cs else mkSample t n d :: current cs
  end.
Definition target_eq_dec (a b : target) : {a = b} + {a <> b}.
Proof. decide equality. Defined.
(** Totals over the samples of one kind. *)
Fixpoint total_count (t : target) (l : list sample) : N :=
  match l with [] => 0 | s :: l' => ((if target_eq_dec t (s_target s) then s_count s else 0) + total_count t l')%N end.
Fixpoint total_time (t : target) (l : list sample) : Z :=
  match l with [] => 0 | s :: l' => ((if target_eq_dec t (s_target s) then s_time s else 0) + total_time t l')%Z end.
Definition recorded (t : target) (l : list sample) : Prop := exists s, In s l /\ s_target s = t.
Definition decimal (z : Z) : text := uint_text (N.to_uint (Z.to_N z)).
Definition csv (t : target) (count : N) (time : Z) : text :=
  list_ascii_of_string (match t with
    | CircuitBootstrapping => "time_recorder-circuit_bootstrapping,"
    | Bootstrapping => "time_recorder-bootstrapping,"
    | Cmux => "time_recorder-cmux," end)%string
  ++ decimal (Z.of_N count) ++ [","%char] ++ decimal time ++ [ascii_of_nat 10].

(** * Proofs *)
Lemma target_eqb_iff a b : target_eqb a b = true <-> a = b.
Proof. destruct a, b; cbn; split; congruence. Qed.
Lemma total_time_app t a b : total_time t (a ++ b) = (total_time t a + total_time t b)%Z.
Proof. induction a; cbn; lia. Qed.
Lemma total_count_app t a b : total_count t (a ++ b) = (total_count t a + total_count t b)%N.
Proof. induction a; cbn; lia. Qed.
Lemma total_time_nonneg t l : Forall (fun s => 0 <= s_time s)%Z l -> (0 <= total_time t l)%Z.
Proof. induction 1; cbn; [lia|]. destruct (target_eq_dec t (s_target x)); lia. Qed.

Lemma steps_current calls : forall l,
  fold_left timer_step calls l =
  (if existsb (fun c => match c with Clear => true | _ => false end) calls then [] else l) ++ current calls.
Proof.
  induction calls as [|[t n d|] cs IH]; intros l; cbn [fold_left existsb current timer_step orb].
  - rewrite app_nil_r. reflexivity.
  - rewrite IH. destruct existsb; auto. rewrite <- app_assoc. reflexivity.
  - rewrite IH. destruct existsb; reflexivity.
Qed.

(** The summary of the samples [l]. *)
Definition sums (l : list sample) (m : list (target * sample)) : Prop :=
  NoDup (map fst m) /\ (forall t, In t (map fst m) <-> recorded t l) /\
  forall t e, In (t, e) m -> s_count e = (total_count t l mod 2 ^ 64)%N /\ s_time e = total_time t l.

Lemma summarize_keys s : forall m m', summarize s m = Ok m' ->
  map fst m' = map fst m ++ (if existsb (fun e => target_eqb (fst e) (s_target s)) m then [] else [s_target s]).
Proof.
  induction m as [|[t e] m IH]; intros m' H; cbn [summarize] in H.
  - injection H as <-. reflexivity.
  - cbn [existsb fst map]. destruct (target_eqb t (s_target s)) eqn:E.
    + apply bind_ok in H as (d & _ & [= <-]). cbn. rewrite app_nil_r. reflexivity.
    + apply bind_ok in H as (r & H & [= <-]). cbn [map fst orb]. rewrite (IH _ H). reflexivity.
Qed.
Lemma summarize_in s : forall m m', summarize s m = Ok m' -> NoDup (map fst m) -> forall t e, In (t, e) m' ->
  (t <> s_target s /\ In (t, e) m) \/
  (t = s_target s /\ ~ In t (map fst m) /\ e = s) \/
  (t = s_target s /\ exists e0, In (t, e0) m /\ s_count e = add_size (s_count e0) (s_count s) /\ s_time e = (s_time e0 + s_time s)%Z).
Proof.
  induction m as [|[t0 e0] m IH]; intros m' H ND t e I; cbn [summarize] in H.
  - injection H as <-. destruct I as [[= <- <-]|[]]. right. left. cbn. auto.
  - cbn [map fst] in ND. apply NoDup_cons_iff in ND as (NI & ND).
    destruct (target_eqb t0 (s_target s)) eqn:E.
    + apply target_eqb_iff in E. apply bind_ok in H as (d & Hd & [= <-]). unfold add_time in Hd.
      destruct (andb _ _); [|discriminate]. injection Hd as <-. destruct I as [[= <- <-]|I].
      * right. right. split; auto. exists e0. cbn. auto.
      * left. split; [|cbn; auto]. intros ->. apply NI. rewrite E. apply (in_map fst) in I. exact I.
    + apply bind_ok in H as (r & H & [= <-]). destruct I as [[= <- <-]|I].
      * left. split; [|cbn; auto]. intros K. apply target_eqb_iff in K. congruence.
      * destruct (IH _ H ND t e I) as [(A & B)|[(A & B & C)|(A & e1 & B & C)]].
        -- left. cbn. auto.
        -- right. left. split; auto. split; auto. cbn. intros [K|K]; auto. rewrite K, A in E.
           assert (target_eqb (s_target s) (s_target s) = true) by (apply target_eqb_iff; auto). congruence.
        -- right. right. split; auto. exists e1. cbn. auto.
Qed.
Lemma summarize_def s l m : sums l m -> (0 <= s_time s)%Z -> Forall (fun s => 0 <= s_time s)%Z l ->
  (total_time (s_target s) l + s_time s < 2 ^ 63)%Z -> exists m', summarize s m = Ok m'.
Proof.
  intros (ND & K & V) HS HP HB.
  assert (V' : forall t e, In (t, e) m -> s_time e = total_time t l) by (intros; apply V; auto). clear V K ND.
  induction m as [|[t e] m IH]; cbn [summarize]; eauto.
  destruct (target_eqb t (s_target s)) eqn:E.
  - apply target_eqb_iff in E as ->. unfold add_time. rewrite (V' _ _ (or_introl eq_refl)).
    pose proof (total_time_nonneg (s_target s) l HP).
    destruct (Z.leb_spec (-2 ^ 63) (total_time (s_target s) l + s_time s)); [|lia].
    destruct (Z.ltb_spec (total_time (s_target s) l + s_time s) (2 ^ 63)); [|lia]. cbn. eauto.
  - destruct IH as (m' & ->); [intros; apply V'; cbn; auto|]. cbn. eauto.
Qed.
Lemma total_unrecorded t l : ~ recorded t l -> total_count t l = 0%N /\ total_time t l = 0%Z.
Proof.
  induction l as [|s l IH]; intros H; cbn; auto. destruct (target_eq_dec t (s_target s)) as [->|N].
  - exfalso. apply H. exists s. cbn. auto.
  - apply IH. intros (s' & I & E). apply H. exists s'. cbn. auto.
Qed.
Lemma summarize_sums s l m m' : (s_count s < 2 ^ 64)%N -> sums l m -> summarize s m = Ok m' -> sums (l ++ [s]) m'.
Proof.
  intros HC (ND & K & V) H. pose proof (summarize_keys s m m' H) as EK. split; [|split].
  - rewrite EK. destruct existsb eqn:E; [rewrite app_nil_r; auto|].
    apply NoDup_rev in ND. rewrite <- (rev_involutive (map fst m ++ _)). apply NoDup_rev. rewrite rev_app_distr. cbn.
    constructor; auto. rewrite <- in_rev. intros I. apply in_map_iff in I as ([t e] & E1 & I). cbn in E1. subst t.
    assert (existsb (fun e => target_eqb (fst e) (s_target s)) m = true); [|congruence].
    apply existsb_exists. eexists. split; [exact I|]. apply target_eqb_iff. reflexivity.
  - intros t. rewrite EK, in_app_iff, K. split.
    + intros [(s' & I & E)|I].
      * exists s'. rewrite in_app_iff. auto.
      * destruct existsb; [destruct I|]. destruct I as [<-|[]]. exists s. rewrite in_app_iff. cbn. auto.
    + intros (s' & I & E). rewrite in_app_iff in I. destruct I as [I|[<-|[]]]; [left; exists s'; auto|].
      destruct existsb eqn:EX; [left|right; cbn; auto]. apply existsb_exists in EX as ([t' e] & I & EQ).
      apply target_eqb_iff in EQ. cbn in EQ. apply K. apply (in_map fst) in I. cbn in I. rewrite <- E, <- EQ. exact I.
  - intros t e I. rewrite total_count_app, total_time_app. cbn [total_count total_time].
    destruct (summarize_in s m m' H ND t e I) as [(A & B)|[(A & B & ->)|(A & e0 & B & C & D)]].
    + destruct (target_eq_dec t (s_target s)); [congruence|]. rewrite !N.add_0_r, !Z.add_0_r. auto.
    + rewrite K in B. destruct (total_unrecorded t l B) as (-> & ->). destruct (target_eq_dec t (s_target s)); [|congruence].
      rewrite N.add_0_r, Z.add_0_r, N.add_0_l, Z.add_0_l. split; auto. symmetry. apply N.mod_small. exact HC.
    + destruct (target_eq_dec t (s_target s)); [|congruence]. rewrite N.add_0_r, Z.add_0_r.
      destruct (V _ _ B) as (E1 & E2). rewrite C, D, E1, E2. split; auto. unfold add_size.
      rewrite N.add_mod_idemp_l by discriminate. reflexivity.
Qed.

Lemma total_time_prefix t a b : Forall (fun s => 0 <= s_time s)%Z b -> (total_time t a <= total_time t (a ++ b))%Z.
Proof. intros H. rewrite total_time_app. pose proof (total_time_nonneg t b H). lia. Qed.

Lemma summary_ok : forall b a m, Forall (fun s => s_count s < 2 ^ 64)%N b -> Forall (fun s => 0 <= s_time s)%Z (a ++ b) ->
  (forall t, total_time t (a ++ b) < 2 ^ 63)%Z -> sums a m ->
  exists m', foldM (fun m s => summarize s m) b m = Ok m' /\ sums (a ++ b) m'.
Proof.
  induction b as [|s b IH]; intros a m HC HT HB HS; cbn [foldM].
  - exists m. rewrite app_nil_r. auto.
  - apply Forall_cons_iff in HC as (C1 & C2). pose proof HT as HT'. apply Forall_app in HT' as (T1 & T2).
    apply Forall_cons_iff in T2 as (T2 & T3).
    destruct (summarize_def s a m HS T2 T1) as (m1 & E1).
    { specialize (HB (s_target s)). change (s :: b) with ([s] ++ b) in HB. rewrite app_assoc in HB.
      pose proof (total_time_prefix (s_target s) (a ++ [s]) b T3) as P. rewrite (total_time_app _ a) in P. cbn [total_time] in P.
      destruct (target_eq_dec (s_target s) (s_target s)); [lia|congruence]. }
    rewrite E1. cbn [bind]. change (s :: b) with ([s] ++ b) in *. rewrite app_assoc in *.
    apply IH; auto. eapply summarize_sums; eauto.
Qed.

(** ** The theorem: after any sequence of calls the summary is defined, and whatever the order of
    the hash table, there is one line for every kind recorded since the last clear, with the totals. *)
Theorem C44_summary calls :
  let l := current calls in
  (forall s, In s l -> (s_count s < 2 ^ 64)%N /\ (0 <= s_time s)%Z) -> (forall t, total_time t l < 2 ^ 63)%Z ->
  (exists out, dumpCSV (fold_left timer_step calls []) (Ok out)) /\
  forall r, dumpCSV (fold_left timer_step calls []) r ->
  exists order, NoDup order /\ (forall t, In t order <-> recorded t l) /\
    r = Ok (concat (map (fun t => csv t (total_count t l mod 2 ^ 64) (total_time t l)) order)).
Proof.
  intros l HV HB. rewrite steps_current. 
  match goal with |- context [(if ?c then [] else []) ++ _] =>
    replace ((if c then [] else []) ++ current calls) with l by (destruct c; reflexivity) end.
  destruct (summary_ok l [] []) as (m & E & ND & K & V).
  { apply Forall_forall. apply HV. } { cbn. apply Forall_forall. apply HV. } { exact HB. }
  { split; [constructor|]. split; [|intros ? ? []]. intros t. cbn. split; [intros []|intros (? & [] & _)]. }
  cbn [app] in K, V. unfold dumpCSV. rewrite E. split; [exists (concat (map csv_line m)), m; auto|].
  intros r (order & P & ->). exists (map fst order). split; [|split].
  - eapply Permutation_NoDup; [|exact ND]. apply Permutation_map, P.
  - intros t. rewrite <- K. split; apply Permutation_in; [apply Permutation_sym|]; apply Permutation_map, P.
  - rewrite map_map. do 2 f_equal. apply map_ext_in. intros (t & e) I. cbn [fst].
    destruct (V t e) as (E1 & E2). { eapply Permutation_in; [apply Permutation_sym, P|exact I]. }
    unfold csv_line, csv, decimal, show_Z, c_nl. cbn [fst snd]. rewrite E1, E2, N2Z.id.
    assert (0 <= total_time t l)%Z by (apply total_time_nonneg, Forall_forall, HV).
    destruct (Z.ltb_spec (total_time t l) 0); [lia|].
    unfold target_name. destruct t; reflexivity.
Qed.

Example C44_witness :
  let calls := [Record Cmux 9 9; Clear; Record Cmux 5 100; Record Bootstrapping 1 20; Record Cmux 7 11] in
  (forall s, In s (current calls) -> (s_count s < 2 ^ 64)%N /\ (0 <= s_time s)%Z) /\
  (forall t, total_time t (current calls) < 2 ^ 63)%Z /\
  dumpCSV (fold_left timer_step calls []) (Ok (list_ascii_of_string
    ("time_recorder-bootstrapping,1,20" ++ String "010" "time_recorder-cmux,12,111" ++ String "010" ""))).
Proof.
  cbn zeta. split; [|split].
  - cbn. intros s H. repeat (destruct H as [<-|H]; [cbn; lia|]). destruct H.
  - intros []; reflexivity.
  - unfold dumpCSV. cbn. eexists. split; [apply perm_swap|reflexivity].
Qed.
Print Assumptions C44_summary.
