(** Proofs about test_homfa.sh. *)
From Coq Require Import String.
From Coq Require Import List Arith Bool NArith ZArith Ascii Permutation Lia.
Import ListNotations.
From Verif Require Import Base BaseFacts GraphModel Spec GraphFacts GraphOps TextModel PropsText CliModel DotModel TorusModel TfheSpec RunnerSpec
  BitsModel StreamModel InputSpec PropsInput CmdModel CmdSpec CmdFacts PropsCmd LtlModel MainModel MainSpec PropsMain BenchSpec PropsBench ScriptModel ScriptSpec.
Local Open Scope list_scope.

Ltac split_at a r k :=
  lazymatch r with
  | a :: ?t => k constr:(@nil (string * option text)) t
  | ?x :: ?t => split_at a t ltac:(fun l1 l2 => k constr:(x :: l1) l2)
  end.
Ltac perm := cbn;
  lazymatch goal with
  | |- Permutation [] [] => apply perm_nil
  | |- Permutation (?a :: ?l) ?r => split_at a r ltac:(fun l1 l2 => apply (Permutation_cons_app l1 l2 a)); perm
  end.
Ltac line items := exists [], items; split; [split; constructor|]; split; [reflexivity|]; split; [perm|]; split; [reflexivity|constructor].

Lemma p8000 : positive (lit "8000") (N.to_nat 8000).
Proof. split; [split|]; [vm_compute; reflexivity|rewrite N2Nat.id; reflexivity|lia]. Qed.
Lemma p15 : positive (lit "15") 15.
Proof. split; [split|]; [reflexivity|reflexivity|lia]. Qed.
Lemma p8 : positive (lit "8") 8.
Proof. split; [split|]; [reflexivity|reflexivity|lia]. Qed.
Lemma p1 : positive (lit "1") 1.
Proof. split; [split|]; [reflexivity|reflexivity|lia]. Qed.

Lemma enc_line ap input : command_line (enc_args ap input) ["enc"%string]
  [("--ap", Some ap); ("--key", Some (lit "_test_sk")); ("--in", Some input); ("--out", Some (lit "_test_in"))]%string [].
Proof. line [Opt "--ap" ap; Opt "--key" (lit "_test_sk"); Opt "--in" input; Opt "--out" (lit "_test_in")]. Qed.
Lemma dec_line : command_line dec_args ["dec"%string] [("--key", Some (lit "_test_sk")); ("--in", Some (lit "_test_out"))]%string [].
Proof. line [Opt "--key" (lit "_test_sk"); Opt "--in" (lit "_test_out")]. Qed.
Definition common_items (spec : text) := [Opt "--bkey" (lit "_test_bk"); Opt "--spec" spec; Opt "--in" (lit "_test_in"); Opt "--out" (lit "_test_out")].
Notation run_common spec := (common (lit "_test_bk") (lit "_test_out") spec (lit "_test_in") None).
Lemma offline_line spec : command_line (run_args "offline" spec ["--bootstrapping-freq"; "8000"]%string) ["run"; "offline"]%string
  (run_common spec ++ [("--bootstrapping-freq"%string, Some (lit "8000"))]) [].
Proof. line (common_items spec ++ [Opt "--bootstrapping-freq" (lit "8000")]). Qed.
Lemma reversed_line spec : command_line (run_args "reversed" spec ["--out-freq"; "15"; "--bootstrapping-freq"; "8000"]%string) ["run"; "reversed"]%string
  (run_common spec ++ [("--out-freq"%string, Some (lit "15")); ("--bootstrapping-freq"%string, Some (lit "8000"))] ++ flagged "--spec-reversed" false) [].
Proof. line (common_items spec ++ [Opt "--out-freq" (lit "15"); Opt "--bootstrapping-freq" (lit "8000")]). Qed.
Lemma mirrored_line spec : command_line (run_args "reversed" spec ["--spec-reversed"; "--out-freq"; "15"; "--bootstrapping-freq"; "8000"]%string) ["run"; "reversed"]%string
  (run_common spec ++ [("--out-freq"%string, Some (lit "15")); ("--bootstrapping-freq"%string, Some (lit "8000"))] ++ flagged "--spec-reversed" true) [].
Proof. line (common_items spec ++ [Flag "--spec-reversed"; Opt "--out-freq" (lit "15"); Opt "--bootstrapping-freq" (lit "8000")]). Qed.
Lemma flut_line spec : command_line
  (run_args "flut" spec ["--out-freq"; "15"; "--max-second-lut-depth"; "8"; "--queue-size"; "15"; "--bootstrapping-freq"; "1"]%string) ["run"; "flut"]%string
  (run_common spec ++ [("--out-freq"%string, Some (lit "15")); ("--queue-size"%string, Some (lit "15"));
     ("--max-second-lut-depth"%string, Some (lit "8")); ("--bootstrapping-freq"%string, Some (lit "1"))]) [].
Proof.
  line (common_items spec ++ [Opt "--out-freq" (lit "15"); Opt "--max-second-lut-depth" (lit "8"); Opt "--queue-size" (lit "15"); Opt "--bootstrapping-freq" (lit "1")]).
Qed.
Lemma block_line spec : command_line (run_args "block" spec ["--out-freq"; "15"; "--queue-size"; "15"]%string) ["run"; "block"]%string
  (run_common spec ++ [("--out-freq"%string, Some (lit "15")); ("--queue-size"%string, Some (lit "15"))]) [].
Proof. line (common_items spec ++ [Opt "--out-freq" (lit "15"); Opt "--queue-size" (lit "15")]). Qed.
Lemma plain_line ap spec input :
  command_line (args ["run"; "plain"; "--ap"]%string ++ [ap] ++ args ["--spec"]%string ++ [spec] ++ args ["--in"]%string ++ [input])
  ["run"; "plain"]%string [("--ap", Some ap); ("--spec", Some spec); ("--in", Some input)]%string [].
Proof. line [Opt "--ap" ap; Opt "--spec" spec; Opt "--in" input]. Qed.

Section Script.
Context (T : tfhe) (s0 s1 : list Z) (bit : trgsw T -> bool -> Prop) (E : noise) (Y : crypto T) (spot : spot_lib).
Hypothesis OK : tfhe_ok T s0 s1 bit E.
Hypothesis NN : noise_nonneg E.
Hypothesis YO : crypto_ok T Y s1 bit.
Notation words := (c_words T Y).
Notation sk := (lit "_test_sk").
Notation bk := (lit "_test_bk").
Notation cipher := (lit "_test_in").
Notation output := (lit "_test_out").

Lemma encrypted_commands f ap n spec input argv run ro v (R : fs -> res command) (Q : res (fs * text) -> Prop) :
  keys_at Y f sk bk -> positive ap n -> readable f input -> readable f spec ->
  ~ In spec scratch -> ~ In input scratch ->
  (forall coin, exists f1 f2,
     do_enc T Y f sk input cipher n coin = Ok f1 /\ run_ends T Y (R f1) f1 (Ok f2) /\ do_dec T Y f2 sk output = Ok (answer v) /\
     (forall p, p <> cipher -> p <> output -> f2 p = f p)) ->
  (forall f3, exists c, R f3 = Ok c) ->
  (forall f3 stdin coin, readable f3 bk -> readable f3 spec -> readable f3 cipher -> manual T Y spot f3 stdin coin run ro [] (runs (R f3))) ->
  command_line argv run ro [] ->
  (forall f', kept f f' -> Q (Ok (f', answer v))) ->
  commands_end T Y spot f [enc_args ap input; argv; dec_args] [] Q.
Proof.
  intros ((sb & K1 & K1') & (bb & K2 & K2')) HA RI RS NS NI HR HC HM CL HQ coin.
  destruct (HR coin) as (f1 & f2 & E1 & E2 & E3 & FR).
  destruct (enc_frame _ _ _ _ _ _ _ _ _ E1) as [F1 F2].
  destruct (dec_readable _ _ _ _ _ _ E3) as [D1 D2].
  destruct (HC f1) as (c & EC). rewrite EC in E2.
  erewrite C51_manual; [|apply enc_line|apply (man_enc T Y spot f [] coin sk input cipher ap n); auto].
  2:{ unfold readable. congruence. }
  rewrite E1. cbn [writes bind]. intros coin1.
  erewrite C51_manual; [|exact CL|apply HM].
  2:{ unfold readable. rewrite F2, K2; discriminate. }
  2:{ unfold readable. rewrite F2; auto. intros ->. apply NS. cbn. auto. }
  2:{ exact F1. }
  rewrite EC. cbn [runs bind]. exists (Ok f2). split; [exact E2|]. intros coin2.
  erewrite C51_manual; [|apply dec_line|apply (man_dec T Y spot f2 [] coin2 sk output); auto].
  rewrite E3. cbn [prints bind]. cbn [commands_end]. apply HQ. exact FR.
Qed.

Lemma workload_bytes f spec input n g w : workload f spec input n g w -> exists bytes, f input = Some bytes /\ length w = nbits n bytes /\
  (forall S (func : S -> bool -> res S) s, each_input_bit bytes n func s = foldM func w s) /\
  (w = [] -> bytes = []) /\ readable f input /\ readable f spec.
Proof.
  intros (EF & SZ & AP & vals & blocks & HP & EI & ->). exists (concat blocks). split; [exact EI|].
  split; [apply packed_bits; auto|]. split; [intros; apply C20_input_decoding; auto|]. split.
  - inversion HP as [|v b vs bs (P1 & P2 & _) F]; subst; auto. cbn. destruct v; [cbn in AP; lia|discriminate].
  - unfold readable. unfold from_file, open_file in EF. split; [congruence|]. destruct (f spec); discriminate.
Qed.
Lemma foldM_run g w : forall q, foldM (fun q b => next_state g q b) w q = run_from g q w.
Proof. induction w as [|b w IH]; intros q; cbn; [reflexivity|]. destruct (next_state g q b); cbn; auto. Qed.
Lemma workload_plain f spec input n g w v : workload f spec input n g w -> accepts g w = Ok v -> run_plain f spec input n = Ok (answer v).
Proof.
  intros HW HA. destruct (workload_bytes _ _ _ _ _ _ HW) as (bytes & EI & _ & EB & _). destruct HW as (EF & _).
  unfold run_plain. rewrite EF. cbn [bind]. unfold open_file. rewrite EI. cbn [bind]. rewrite EB, foldM_run.
  unfold accepts in HA. apply bind_ok in HA as (q & -> & HA). cbn [bind]. rewrite HA. destruct v; reflexivity.
Qed.
Lemma flushes_le {C} qs (l : list C) : forall n p i m, In m (flushes qs n p (asked None i l)) -> m <= n + p + length l.
Proof.
  induction l as [|c l IH]; intros n p i m; cbn [flushes asked length].
  - destruct (_ =? _); [intros []|]. intros [<-|[]]; lia.
  - destruct (_ <? _).
    + intros H. apply IH in H. lia.
    + intros [<-|H]; [lia|]. apply IH in H. lia.
Qed.

Lemma one_check f t v (Q : res (fs * text) -> Prop) : keys_at Y f sk bk -> verdict T Y E f t v ->
  (forall f', kept f f' -> Q (Ok (f', answer v))) ->
  commands_end T Y spot f (enc_run_dec (t_mode t) (t_ap t) (t_spec t) (t_in t)) [] Q.
Proof.
  intros KA (n & g & w & HN & HW & NS & NI & HA & HF) HQ. destruct t as [ex m ap spec input]. cbn [t_ap t_spec t_in t_mode] in *.
  destruct (workload_bytes _ _ _ _ _ _ HW) as (bytes & EI & LW & EB & EM & RI & RS).
  assert (A0 : 0 < n) by apply HN.
  assert (NC : ~ In cipher [sk; bk; spec; input]).
  { cbn. intros [H|[H|[H|[H|[]]]]]; try discriminate; [apply NS|apply NI]; subst; cbn; auto. }
  assert (ND : output <> sk) by discriminate.
  pose proof HW as (EF & SZ & _).
  destruct m; cbn [enc_run_dec reading fits] in *; rewrite ?LW in HF.
  - destruct HF as (HM & H31 & H64).
    eapply (encrypted_commands f ap n spec input _ _ _ v (fun f3 => do_run_offline T Y f3 spec cipher output (N.to_nat 8000) bk false)); auto.
    4: apply offline_line.
    + intros coin. eapply (C35_offline T s0 s1 bit E Y OK NN YO); eauto; try lia. eapply workload_plain; eauto.
    + intros f3. eexists. reflexivity.
    + intros f3 stdin coin R1 R2 R3. apply man_offline; [repeat split; auto|apply p8000].
  - destruct HF as (HM & H64).
    eapply (encrypted_commands f ap n spec input _ _ _ v (fun f3 => do_run_reverse T Y f3 spec cipher (Some output) None 15 (N.to_nat 8000) false bk false)); auto.
    4: apply reversed_line.
    + intros coin. eapply (C35_reverse T s0 s1 bit E Y OK NN YO); eauto; try lia. eapply workload_plain; eauto.
    + intros f3. eexists. reflexivity.
    + intros f3 stdin coin R1 R2 R3. apply man_reverse; [cbn; auto|repeat split; auto|apply p15|apply p8000].
  - destruct HF as (HM & H64).
    eapply (encrypted_commands f ap n spec input _ _ _ v (fun f3 => do_run_reverse T Y f3 spec cipher (Some output) None 15 (N.to_nat 8000) true bk false)); auto.
    4: apply mirrored_line.
    + intros coin. assert (WG : wf_graph g) by (eapply from_file_wf; eauto).
      destruct (reversed_correct g WG) as (g' & _ & W' & A & _).
      eapply (mirrored_run T s0 s1 bit E Y OK NN YO) with (g := g') (g2 := g); eauto.
      * intros u. destruct (A (rev u)) as (b & A1 & A2). rewrite rev_involutive in A2. congruence.
      * destruct (A (rev w)) as (b & A1 & A2). rewrite rev_involutive in A2. congruence.
      * lia.
    + intros f3. eexists. reflexivity.
    + intros f3 stdin coin R1 R2 R3. apply man_reverse; [cbn; auto|repeat split; auto|apply p15|apply p8000].
  - destruct HF as (HM & HT & H64 & HD).
    eapply (encrypted_commands f ap n spec input _ _ _ v (fun f3 => do_run_flut T Y f3 spec cipher (Some output) None 15 15 1 bk (Some 8) None false)); auto.
    4: apply flut_line.
    + intros coin. eapply (C35_flut T s0 s1 bit E Y OK NN YO); eauto; try lia.
      * now apply FlutFacts.depth_fits.
      * intros m k Hm Hk. apply (HD m k); auto. apply flushes_le in Hm. rewrite repeat_length in Hm. lia.
      * eapply workload_plain; eauto.
    + intros f3. eexists. reflexivity.
    + intros f3 stdin coin R1 R2 R3. apply man_flut; [cbn; auto|repeat split; auto|apply p15|apply p15|apply p8|apply p1].
  - intros coin. erewrite C51_manual; [|apply plain_line|apply (man_plain T Y spot f [] coin spec input ap n); auto].
    rewrite (workload_plain _ _ _ _ _ _ _ HW HA). cbn [prints bind commands_end app]. apply HQ. intros p _ _. reflexivity.
  - destruct HF as (HM & HL1 & HL2 & HE & H64).
    eapply (encrypted_commands f ap n spec input _ _ _ v (fun f3 => do_run_block T Y f3 spec cipher output 15 bk false)); auto.
    4: apply block_line.
    + intros coin. eapply (C35_block T s0 s1 bit E Y OK NN YO); eauto.
      * intros ->. apply HE. destruct w as [|x w]; auto. change (nbits n []) with (0 / ((n + 7) / 8) * n) in LW.
        destruct ((n + 7) / 8); [discriminate|]. rewrite Nat.div_0_l in LW; discriminate.
      * eapply workload_plain; eauto.
    + intros f3. eexists. reflexivity.
    + intros f3 stdin coin R1 R2 R3. apply (man_block T Y spot f3 stdin coin "block" bk output spec cipher None (lit "15") 15 (lit "15") 15); [cbn; auto|repeat split; auto|apply p15|apply p15].
Qed.

Lemma verdict_kept f f' t v : kept f f' -> verdict T Y E f t v -> verdict T Y E f' t v.
Proof.
  intros K (n & g & w & HN & (EF & SZ & AP & vals & blocks & HP & EI & EW) & NS & NI & HA & HF).
  assert (K' : forall p, ~ In p scratch -> f' p = f p).
  { intros p NP. apply K; intros ->; apply NP; cbn; auto. }
  exists n, g, w. split; auto. split; [|auto]. split; [rewrite (from_file_eq _ f); auto|]. split; auto. split; auto.
  exists vals, blocks. rewrite K'; auto.
Qed.
Lemma keys_kept f f' : kept f f' -> keys_at Y f sk bk -> keys_at Y f' sk bk.
Proof. intros K KA. unfold keys_at. rewrite !K by discriminate. exact KA. Qed.

Lemma checks_run l : forall f vs, keys_at Y f sk bk -> Forall2 (verdict T Y E f) l vs ->
  forall Q : res fs -> Prop,
  (forall f', map t_expect l = vs -> kept f f' -> Q (Ok f')) ->
  (map t_expect l <> vs -> Q (Fail FExit)) ->
  checks_end T Y spot f l Q.
Proof.
  induction l as [|t l IH]; intros f vs KA HV Q Q1 Q2; inversion HV as [|t' v l' vs' H1 H2]; subst; cbn [checks_end].
  - apply Q1; auto. intros p _ _. reflexivity.
  - apply (one_check f t v _ KA H1). intros f' K.
    replace (if t_expect t then [c_1] else [c_0]) with (answer (t_expect t)) by (destruct (t_expect t); reflexivity).
    replace (path_eqb (answer v) (answer (t_expect t))) with (Bool.eqb v (t_expect t))
      by (destruct v, (t_expect t); reflexivity).
    destruct (Bool.eqb_spec v (t_expect t)) as [->|NE].
    + apply (IH f' vs').
      * eapply keys_kept; eauto.
      * clear - H2 K. induction H2; constructor; auto. eapply verdict_kept; eauto.
      * intros f'' EQ K'. apply Q1; [cbn; congruence|]. intros p P1 P2. rewrite K', K; auto.
      * intros NE. apply Q2. cbn. congruence.
    + apply Q2. cbn. congruence.
Qed.
End Script.
