(** C69: the test program test0 and the test script as a whole. *)
From Coq Require Import String.
From Coq Require Import List Arith Bool NArith ZArith Ascii Lia.
Import ListNotations.
From Verif Require Import Base BaseFacts GraphModel TextModel CliModel DotModel StreamModel InputSpec PropsInput TorusModel TfheSpec RunnerSpec
  ParModel ClientModel ClientFacts CmdModel CmdSpec CmdFacts PropsCmd LtlModel MainModel MainSpec ScriptModel ScriptSpec PropsScript Test0Model Test0Spec.
From Verif Require Conformance.
Local Open Scope list_scope.

Lemma words_eqb_refl c : words_eqb c c = true.
Proof. unfold words_eqb. destruct (list_eq_dec _ _ _); congruence. Qed.
Lemma path_eqb_iff a b : path_eqb a b = true <-> a = b.
Proof. unfold path_eqb. destruct (list_eq_dec ascii_dec a b); split; congruence. Qed.
Lemma prints_iff g s t : expected_dump s = Ok t -> (prints g s = Ok tt <-> (do g <- g; dump g) = Ok t).
Proof.
  intros E. unfold prints. destruct g as [g|e]; cbn [bind]; [|split; discriminate].
  destruct (dump g) as [d|e]; cbn [bind]; [|split; discriminate]. rewrite E. cbn [bind]. unfold assert_.
  destruct (path_eqb d t) eqn:P.
  - apply path_eqb_iff in P. split; congruence.
  - split; [discriminate|]. intros [= ->]. rewrite (proj2 (path_eqb_iff t t) eq_refl) in P. discriminate.
Qed.
Lemma seq_iff (a b : res unit) : (do _ <- a; b) = Ok tt <-> a = Ok tt /\ b = Ok tt.
Proof. destruct a as [[]|]; cbn [bind]; split; try tauto; try discriminate; intros []; congruence. Qed.

Lemma monitor_dump (spot : spot_lib) fml n t :
  (do g <- (do M <- ltl_to_monitor spot fml n; from_ltl_formula M n false); dump g) = Ok t <->
  parses spot fml = true /\ do_ltl2spec (spot fml n) n false = Ok t.
Proof.
  unfold ltl_to_monitor, do_ltl2spec. destruct (parses spot fml); cbn [assert_ bind]; [tauto|]. split; [discriminate|]. intros [H _]. discriminate H.
Qed.
Lemma test_monitor_iff spot : test_monitor spot = Ok tt <-> spot_as_expected spot.
Proof.
  unfold test_monitor. cbv zeta. rewrite !seq_iff.
  repeat match goal with |- context [prints ?g ?s = Ok tt] =>
    let t := eval vm_compute in (expected_dump s) in
    match t with Ok ?t => rewrite (prints_iff g s t eq_refl) end end.
  unfold spot_as_expected, expectations. split.
  - intros (H1 & H2 & H3 & H4) fml n t H. repeat (destruct H as [[= <- <- <-]|H]; [apply monitor_dump; assumption|]). destruct H.
  - intros H. split; [|split; [|split]].
    + apply monitor_dump. exact (H _ _ _ (or_introl eq_refl)).
    + apply monitor_dump. exact (H _ _ _ (or_intror (or_introl eq_refl))).
    + apply monitor_dump. exact (H _ _ _ (or_intror (or_intror (or_introl eq_refl)))).
    + apply monitor_dump. exact (H _ _ _ (or_intror (or_intror (or_intror (or_introl eq_refl))))).
Qed.

Section Test0.
Context (T : tfhe) (s1 : list Z) (bit : trgsw T -> bool -> Prop) (Y : crypto T) (spot : spot_lib).
Hypothesis YO : crypto_ok T Y s1 bit.

Lemma serializer_ok org : is_ctxt (c_words T Y) org -> test_serializer_deserializer T Y org = Ok tt.
Proof.
  intros H. unfold test_serializer_deserializer.
  assert (S : seek (c_words T Y) 0 DBeg (mkIs (save org) 0 false) = mkIs (save org) 0 false) by reflexivity.
  rewrite S. destruct (C22_serialisation (c_words T Y) org [] [] false H) as (L & _).
  cbn [app length Nat.add] in L. rewrite app_nil_r in L. rewrite L. cbn [bind]. rewrite words_eqb_refl. reflexivity.
Qed.
Lemma stream_ok kd f a b x y : is_ctxt (c_words T Y) a -> is_ctxt (c_words T Y) b ->
  f (lit "_test_in") = Some (save a ++ save b) -> delivery kd [a; b] = [x; y] ->
  run_ends T Y (Ok (stream_test kd f x y)) f (Ok f).
Proof.
  intros HA HB HF HD. cbn [run_ends stream_test cmd_input cmd_kind]. rewrite HF. intros junk HJ.
  assert (EQ : save a ++ save b = concat (map save [a; b])) by (cbn; rewrite app_nil_r; reflexivity). rewrite EQ.
  assert (HC : Forall (is_ctxt (c_words T Y)) [a; b]) by auto.
  assert (HL : (Z.of_nat (length [a; b] * block_size (c_words T Y)) < two64)%Z).
  { pose proof (y_block _ _ _ _ YO) as K. unfold block_size, two64. change (2 ^ 64)%Z with (2 * 2 ^ 63)%Z. cbn [length].
    rewrite Nat2Z.inj_mul. lia. }
  destruct (stream_client kd (c_words T Y) [a; b] (y_words _ _ _ _ YO) (y_block _ _ _ _ YO) HC HL
              (cmd_body (stream_test kd f x y)) (Ok f) junk HJ) as (s & E & EW).
  { rewrite HD. unfold stream_test, says, gives. cbn. rewrite words_eqb_refl. cbn. rewrite words_eqb_refl. cbn. reflexivity. }
  rewrite E. exact EW.
Qed.
Lemma input_stream_ok f c0 c1 (Q : res fs -> Prop) : is_ctxt (c_words T Y) c0 -> is_ctxt (c_words T Y) c1 ->
  Q (Ok (write f (lit "_test_in") (save c0 ++ save c1))) -> input_stream_ends T Y f c0 c1 Q.
Proof.
  intros H0 H1 HQ. unfold input_stream_ends. cbv zeta. set (f1 := write f (lit "_test_in") (save c0 ++ save c1)) in *.
  assert (W : f1 (lit "_test_in") = Some (save c0 ++ save c1)) by apply write_same.
  exists (Ok f1). split; [apply (stream_ok Reversed f1 c0 c1); auto|].
  exists (Ok f1). split; [apply (stream_ok Forward f1 c0 c1); auto|exact HQ].
Qed.

(** ** C69: whatever the keys, the random choices and the order in which threads proceed, test0 ends.
    The tests of the encryption and the streams never fail.  Success changes no file but _test_in. *)
Theorem C69_encrypted_part f :
  test0_ends T Y spot f (fun r =>
    ((exists f', r = Ok f') <-> graph_tests spot f = Ok tt) /\
    forall f', r = Ok f' -> forall p, p <> lit "_test_in" -> f' p = f p).
Proof.
  intros org c0 c1 HO H0 H1. destruct (graph_tests spot f) as [[]|e] eqn:G; cbn [bind].
  - rewrite serializer_ok by auto. apply input_stream_ok; auto. split; [split; eauto|].
    intros f' [= <-] p NP. apply write_other. auto.
  - split; [split; [intros (f' & [=])|discriminate]|discriminate].
Qed.

(** test0 has the specifications it reads. *)
Definition specs_installed (f : fs) : Prop := forall p b, In (p, b) (("test/01.spec"%string, map N_of_ascii spec_01) :: more_files) -> f (lit p) = Some b.
Lemma from_installed f p spec : specs_installed f ->
  In (p, map N_of_ascii spec) (("test/01.spec"%string, map N_of_ascii spec_01) :: more_files) -> from_file f (lit p) = from_istream spec.
Proof. intros IN H. unfold from_file, open_file. rewrite (IN _ _ H). cbn [bind]. rewrite ascii_N_text. reflexivity. Qed.

Lemma shipped_graph_tests f : specs_installed f -> (graph_tests spot f = Ok tt <-> spot_as_expected spot).
Proof.
  intros IN. unfold graph_tests. rewrite !seq_iff, test_monitor_iff.
  assert (F : forall p spec, In (p, map N_of_ascii spec) (("test/01.spec"%string, map N_of_ascii spec_01) :: more_files) ->
    spec_file f p = from_istream spec) by (intros; apply from_installed; auto).
  assert (D : test_graph_dump f = Ok tt).
  { unfold test_graph_dump.
    rewrite (F "test/02.spec"%string spec_02), (F "test/03.spec"%string spec_03), (F "test/04.spec"%string spec_04), (F "test/06.spec"%string spec_06), (F "test/07.spec"%string spec_07), (F "test/08.spec"%string spec_08), (F "test/09.spec"%string spec_09)
      by (repeat (first [apply in_eq | apply in_cons])). vm_compute. reflexivity. }
  assert (R : test_graph_reversed f = Ok tt).
  { unfold test_graph_reversed.
    rewrite (F "test/01.spec"%string spec_01), (F "test/02.spec"%string spec_02)
      by (repeat (first [apply in_eq | apply in_cons])). vm_compute. reflexivity. }
  assert (M : test_graph_minimized f = Ok tt).
  { unfold test_graph_minimized.
    rewrite (F "test/02.spec"%string spec_02), (F "test/03.spec"%string spec_03), (F "test/04.spec"%string spec_04), (F "test/05.spec"%string spec_05)
      by (repeat (first [apply in_eq | apply in_cons])). vm_compute. reflexivity. }
  assert (N : test_negated f = Ok tt).
  { unfold test_negated. cbv zeta.
    rewrite (F "test/02.spec"%string spec_02), (F "test/03.spec"%string spec_03), (F "test/04.spec"%string spec_04), (F "test/06.spec"%string spec_06), (F "test/07.spec"%string spec_07), (F "test/08.spec"%string spec_08), (F "test/09.spec"%string spec_09)
      by (repeat (first [apply in_eq | apply in_cons])). vm_compute. reflexivity. }
  tauto.
Qed.

Lemma test0_mono f (Q Q' : res fs -> Prop) : (forall r, Q r -> Q' r) -> test0_ends T Y spot f Q -> test0_ends T Y spot f Q'.
Proof.
  intros H K org c0 c1 HO H0 H1. specialize (K org c0 c1 HO H0 H1). destruct (bind _ _) as [u|e]; auto.
  destruct K as (r & R & K). exists r. split; auto. destruct r as [f2|e]; auto. destruct K as (r & R2 & K). eauto.
Qed.
(** With the specifications in test/, test0 succeeds if and only if ltl2spec prints the expected automata. *)
Theorem C69_test0 f : specs_installed f ->
  test0_ends T Y spot f (fun r =>
    ((exists f', r = Ok f') <-> spot_as_expected spot) /\
    forall f', r = Ok f' -> forall p, p <> lit "_test_in" -> f' p = f p).
Proof.
  intros IN. eapply test0_mono; [|apply C69_encrypted_part]. intros r (H1 & H2). split; auto.
  rewrite H1. apply shipped_graph_tests. exact IN.
Qed.
End Test0.

(** ** C69: test_homfa.sh as a whole, with the files in test/. *)
Section Whole.
Context (T : tfhe) (s0 s1 : list Z) (bit : trgsw T -> bool -> Prop) (E : noise) (Y : crypto T) (spot : spot_lib).
Hypothesis OK : tfhe_ok T s0 s1 bit E.
Hypothesis NN : noise_nonneg E.
Hypothesis YO : crypto_ok T Y s1 bit.

Lemma att_ok f : f (lit "test/01.spec") = Some (map N_of_ascii spec_01) -> att_check f = Ok tt.
Proof. intros H. unfold att_check, open_file. rewrite H. cbn [bind]. rewrite ascii_N_text. vm_compute. reflexivity. Qed.

Theorem C69_script f : installed f -> specs_installed f -> budgets T Y E -> keys_ready Y f ->
  whole_script_ends T Y spot f checks (fun r => (exists f', r = Ok f') <-> spot_as_expected spot).
Proof.
  intros IN IS BU KR. unfold whole_script_ends. eapply test0_mono; [|exact (C69_test0 T s1 bit Y spot YO f IS)].
  intros [f1|e] (H1 & H2).
  - specialize (H2 f1 eq_refl).
    assert (IN1 : installed f1).
    { intros p b H. rewrite H2; [auto|]. unfold test_files in H. repeat (destruct H as [[= <- <-]|H]; [discriminate|]). destruct H. }
    rewrite att_ok by (rewrite H2 by discriminate; apply IN; cbn; auto).
    assert (KR1 : keys_ready Y f1).
    { unfold keys_ready, keys_at in *. rewrite !H2 by discriminate. exact KR. }
    eapply script_ends_mono; [|exact (C62_shipped T s0 s1 bit E Y spot OK NN YO f1 IN1 BU KR1)].
    intros r R. split; [intros _; apply H1; eauto|auto].
  - split; [intros (f' & [=])|]. intros S. apply H1 in S as (f' & [=]).
Qed.
End Whole.

(** * The hypotheses are met *)
(** Monitors for the four formulas. *)
Definition t0_spot : spot_lib := mkSpot (fun fml n =>
  if path_eqb fml (lit "!F(p0 & Xp1)") then Conformance.mon1
  else if path_eqb fml (lit "G(p0 -> p1 W p2)") then Conformance.mon2
  else if path_eqb fml (lit "G(p3 & p4)") then Conformance.mon4 else Conformance.mon3) (fun fml => existsb (path_eqb fml) (map lit ["!F(p0 & Xp1)"; "G(p0 -> p1 W p2)"; "G(p3 | p4 | (p0 & p1 & p2))"; "G(p3 & p4)"]%string)).
Example C69_spot : spot_as_expected t0_spot.
Proof. intros fml n t H. unfold expectations in H. repeat (destruct H as [[= <- <- <-]|H]; [split; vm_compute; reflexivity|]). destruct H. Qed.
Definition t0_f : fs := fold_right (fun '(p, b) f => write f (lit p) b) big_f more_files.
Example C69_hyps : crypto_ok big_T big_Y big_s1 (fun c b => c = b) /\ installed t0_f /\ specs_installed t0_f /\
  budgets big_T big_Y (toy_noise 1) /\ keys_ready big_Y t0_f.
Proof.
  destruct C62_hyps as (_ & _ & H3 & H4 & H5 & _). split; auto. split; [|split; [|split; auto]].
  - intros p b H. unfold test_files in H. repeat (destruct H as [[= <- <-]|H]; [reflexivity|]). destruct H.
  - intros p b H. unfold more_files in H. repeat (destruct H as [[= <- <-]|H]; [reflexivity|]). destruct H.
  - left. split; reflexivity.
Qed.
(** The script as it is succeeds; with another automaton from Spot it fails. *)
Example C69_nonvacuous : whole_script_ends big_T big_Y t0_spot t0_f checks (fun r => exists f', r = Ok f').
Proof.
  destruct C62_hyps as (H1 & H2 & _). destruct C69_hyps as (H3 & H4 & H5 & H6 & H7).
  pose proof (C69_script big_T _ _ _ _ big_Y t0_spot H1 H2 H3 t0_f H4 H5 H6 H7) as K.
  unfold whole_script_ends in *. eapply test0_mono; [|exact K]. intros [f1|e].
  - destruct (att_check f1); [apply script_ends_mono|]; intros r; try (intros R); apply R || apply r; exact C69_spot.
  - intros R. apply R. exact C69_spot.
Qed.
Example C69_other : ~ spot_as_expected (mkSpot (fun _ _ => Conformance.mon1) (fun _ => true)) /\
  test0_ends big_T big_Y (mkSpot (fun _ _ => Conformance.mon1) (fun _ => true)) t0_f (fun r => exists e, r = Fail e).
Proof.
  assert (N : ~ spot_as_expected (mkSpot (fun _ _ => Conformance.mon1) (fun _ => true))).
  { intros H. assert (K := H "G(p3 & p4)"%string 5 _ (or_intror (or_intror (or_intror (or_introl eq_refl))))).
    destruct K as [_ K]. vm_compute in K. discriminate. }
  split; [exact N|]. destruct C69_hyps as (H3 & H4 & H5 & H6 & H7).
  eapply test0_mono; [|exact (C69_test0 big_T _ _ big_Y (mkSpot (fun _ _ => Conformance.mon1) (fun _ => true)) H3 t0_f H5)].
  intros [f'|e] (A & _); [|eauto]. exfalso. apply N, A. eauto.
Qed.

Print Assumptions C69_encrypted_part.
Print Assumptions C69_test0.
Print Assumptions C69_script.
