(** C66: what the verdicts say about the formula.  LTL and the contract of Spot are in LtlSemantics.v. *)
From Coq Require Import String.
From Coq Require Import List Arith Bool NArith ZArith Ascii Permutation Lia.
Import ListNotations.
From Verif Require Import Base BaseFacts GraphModel Spec TextModel PropsText CliModel DotModel TorusModel TfheSpec RunnerSpec StreamModel InputSpec PropsInput
  CmdModel CmdSpec CmdFacts PropsCmd PropsRunner Quotient LtlModel LtlSpec PropsLtl MainModel MainSpec MainFacts PropsMain LtlSemantics.
Local Open Scope list_scope.

(** * Sequences *)
Lemma upto_length s k : length (upto s k) = k.
Proof. unfold upto. rewrite map_length, seq_length. reflexivity. Qed.
Lemma upto_nth s k i : i < k -> nth_error (upto s k) i = Some (s i).
Proof.
  intros H. unfold upto. rewrite nth_error_map, (nth_error_nth' _ 0) by (rewrite seq_length; auto). rewrite seq_nth by auto. reflexivity.
Qed.
Lemma app_eq_length {A} (a b c d : list A) : length a = length c -> a ++ b = c ++ d -> a = c /\ b = d.
Proof.
  revert c. induction a as [|x a IH]; intros [|y c] L E; try discriminate; auto.
  cbn in *. injection E as -> E. injection L as L. destruct (IH c L E) as [-> ->]. auto.
Qed.
Lemma upto_S s k : upto s (S k) = upto s k ++ [s k].
Proof. unfold upto. rewrite seq_S, map_app. reflexivity. Qed.
Lemma upto_add s k m : exists l, upto s (k + m) = upto s k ++ l.
Proof. unfold upto. rewrite seq_app, map_app. eauto. Qed.
Lemma upto_eq s s' k : upto s k = upto s' k -> forall i, i < k -> s i = s' i.
Proof.
  intros H i L. pose proof (upto_nth s k i L) as A. pose proof (upto_nth s' k i L) as B. rewrite H in A. congruence.
Qed.
Lemma upto_ext s s' k : (forall i, i < k -> s i = s' i) -> upto s k = upto s' k.
Proof. intros H. unfold upto. apply map_ext_in. intros i Hi. apply in_seq in Hi. apply H. lia. Qed.
Lemma upto_forall n s k : trace n s -> Forall (fun v => length v = n) (upto s k).
Proof. intros H. unfold upto. rewrite Forall_forall. intros v Hv. apply in_map_iff in Hv as (i & <- & _). auto. Qed.
Lemma upto_nil s k : 0 < k -> upto s k <> [].
Proof. destruct k; [lia|discriminate]. Qed.

Lemma concat_blocks n : 0 < n -> forall a b : list (list bool), Forall (fun v => length v = n) a -> Forall (fun v => length v = n) b ->
  concat a = concat b -> a = b.
Proof.
  intros Hn a. induction a as [|x a IH]; intros b Fa Fb E.
  - destruct b as [|y b]; auto. inversion Fb; subst. destruct y; [cbn in *; lia|discriminate E].
  - inversion Fa; subst. destruct b as [|y b].
    + destruct x; [cbn in *; lia|discriminate E].
    + inversion Fb; subst. cbn in E. apply app_eq_length in E; [|congruence]. destruct E as [-> E]. f_equal. auto.
Qed.

(** * The semantics *)
Lemma dual_not a : forall s i, holds s i (dual a) -> ~ holds s i a.
Proof.
  induction a as [| |p|a IHa|a1 IHa1 a2 IHa2|a1 IHa1 a2 IHa2|a IHa|a1 IHa1 a2 IHa2|a1 IHa1 a2 IHa2]; cbn; intros s i H.
  - auto.
  - auto.
  - exact H.
  - intros K. apply K, H.
  - intros [A B]. destruct H as [H|H]; [eapply IHa1|eapply IHa2]; eauto.
  - destruct H as [A B]. intros [H|H]; [eapply IHa1|eapply IHa2]; eauto.
  - apply IHa, H.
  - intros (j & L & B & A). destruct (H j L) as [K|(k & Lk & K)]; [eapply IHa2|eapply IHa1]; eauto.
  - destruct H as (j & L & B & A). intros K. destruct (K j L) as [H|(k & Lk & H)]; [eapply IHa2|eapply IHa1]; eauto.
Qed.
(** A violation of a safety formula is visible after finitely many valuations. *)
Definition seen (a : ltl) (s : nat -> list bool) (i : nat) : Prop :=
  exists k, forall s', (forall j, j < k -> s' j = s j) -> holds s' i a.
Lemma seen_range a s i : forall m, (forall k, i <= k < i + m -> seen a s k) ->
  exists K, forall s', (forall j, j < K -> s' j = s j) -> forall k, i <= k < i + m -> holds s' k a.
Proof.
  induction m as [|m IH]; intros H.
  - exists 0. intros. lia.
  - destruct IH as (K & IH). { intros k Hk. apply H. lia. }
    destruct (H (i + m)) as (K' & H'); [lia|]. exists (Nat.max K K'). intros s' Hs k Hk.
    destruct (Nat.eq_dec k (i + m)) as [->|N].
    + apply H'. intros j Hj. apply Hs. lia.
    + apply IH; [|lia]. intros j Hj. apply Hs. lia.
Qed.
Lemma safe_seen a : safe a -> forall s i, holds s i (dual a) -> seen (dual a) s i.
Proof.
  induction a as [| |p|a IHa|a1 IHa1 a2 IHa2|a1 IHa1 a2 IHa2|a IHa|a1 IHa1 a2 IHa2|a1 IHa1 a2 IHa2]; cbn [safe dual]; intros SA s i H; try (match type of SA with _ /\ _ => destruct SA as [S1 S2] end).
  - destruct H.
  - exists 0. cbn. auto.
  - exists (S i). intros s' Hs. cbn in *. rewrite Hs by lia. exact H.
  - destruct a; try contradiction. exists (S i). intros s' Hs. cbn in *. rewrite Hs by lia. exact H.
  - destruct H as [H|H]; [destruct (IHa1 S1 s i H) as (k & K)|destruct (IHa2 S2 s i H) as (k & K)]; exists k; cbn; auto.
  - destruct H as [H1 H2]. destruct (IHa1 S1 s i H1) as (k & K). destruct (IHa2 S2 s i H2) as (k' & K').
    exists (Nat.max k k'). intros s' Hs. cbn. split; [apply K|apply K']; intros j Hj; apply Hs; lia.
  - destruct (IHa SA s (S i) H) as (k & K). exists k. auto.
  - contradiction.
  - destruct H as (j & L & B & A). destruct (IHa2 S2 s j B) as (k & K).
    destruct (seen_range (dual a1) s i (j - i)) as (k' & K').
    { intros l Hl. apply IHa1; auto. apply A. lia. }
    exists (Nat.max k k'). intros s' Hs. cbn. exists j. split; auto. split.
    + apply K. intros l Hl. apply Hs. lia.
    + intros l Hl. apply K'; [|lia]. intros x Hx. apply Hs. lia.
Qed.

Lemma possible_prefix n a vals more : possible n a (vals ++ more) -> possible n a vals.
Proof.
  intros (s & T & E & H). exists s. split; auto. split; auto. rewrite app_length in E.
  destruct (upto_add s (length vals) (length more)) as (l & E'). rewrite E' in E.
  apply app_eq_length in E; [tauto|]. apply upto_length.
Qed.

(** * Monitors *)
Lemma run_app M : forall a q b r, monitor_run M q (a ++ b) r <-> exists p, monitor_run M q a p /\ monitor_run M p b r.
Proof.
  induction a as [|v a IH]; intros q b r; cbn.
  - split; [intros H; exists q; split; [constructor|auto]|intros (p & H & K); inversion H; subst; auto].
  - split.
    + intros H. inversion H as [|? ? c q1 ? ? HI HS HR]; subst. apply IH in HR as (p & A & B). exists p. split; auto. econstructor; eauto.
    + intros (p & A & B). inversion A; subst. econstructor; eauto. apply IH. eauto.
Qed.
Lemma whole_possible M n a vals : monitors M n a -> 0 < n -> vals <> [] -> Forall (fun v => length v = n) vals ->
  (whole M n (concat vals) <-> possible n a vals).
Proof.
  intros (_ & HM) Hn HV HF. rewrite <- (HM vals HV HF). split.
  - intros (vals' & q & F' & E & R). apply (concat_blocks n) in E; auto. subst. eauto.
  - intros (q & R). exists vals, q. auto.
Qed.

Section Verdicts.
Context (T : tfhe) (Y : crypto T) (spot : spot_lib).

(** [printed_spec fml t text]: what "ltl2spec fml t" prints, or what "spec2spec --minimized" makes of
    such a text. *)
Inductive printed_spec (fml t : text) : text -> Prop :=
| printed_ltl2spec f stdin coin argv out :
    command_line argv ["ltl2spec"%string] [] [fml; t] -> main T Y spot f stdin coin argv = Ok (Prints out) -> printed_spec fml t out
| printed_minimized f coin argv inp out : printed_spec fml t inp ->
    command_line argv ["spec2spec"%string] [("--minimized"%string, None)] [] -> main T Y spot f inp coin argv = Ok (Prints out) ->
    printed_spec fml t out.
(** The formula parses, and the automaton for it has no more states than there are ints. *)
Definition fits (fml : text) (n : nat) : Prop :=
  parses spot fml = true /\ forall g, from_ltl_formula (spot fml n) n false = Ok g -> (N.of_nat (size g) <= 2 ^ 31)%N.

(** The specification is printed ... *)
Theorem C66_printed fml t n a f stdin coin argv : monitors (spot fml n) n a -> number t n -> fits fml n ->
  command_line argv ["ltl2spec"%string] [] [fml; t] -> exists out, main T Y spot f stdin coin argv = Ok (Prints out).
Proof.
  intros (HM & _) HN (HF & HB) C. destruct (C42_ltl2spec (spot fml n) n false HM HB) as (out & g & E & _).
  exists out. erewrite C51_manual; [|exact C|apply (man_ltl2spec T Y spot f stdin coin fml t n false HN)]. rewrite HF, E. reflexivity.
Qed.
Lemma printed_graph fml t n text : monitor_ok (spot fml n) n -> number t n -> fits fml n -> printed_spec fml t text ->
  exists g, from_istream text = Ok g /\ wf_graph g /\ (N.of_nat (size g) <= 2 ^ 31)%N /\ dfa_decides g (ltl_language (spot fml n) n false).
Proof.
  intros HM HN (HF & HB) P. induction P as [f stdin coin argv out C E|f coin argv inp out P IH C E].
  - destruct (C42_ltl (spot fml n) n false HM) as (g & EG & W & DG). specialize (HB g EG).
    destruct (round_trip_wf g W HB) as (t1 & g1 & E1 & F1 & W1 & S1 & A1).
    erewrite C51_manual in E; [|exact C|apply (man_ltl2spec T Y spot f stdin coin fml t n false HN)].
    rewrite HF in E. unfold do_ltl2spec in E. rewrite EG in E. cbn [bind] in E. rewrite E1 in E. injection E as <-.
    exists g1. split; auto. split; auto. split; [lia|]. intros w. unfold dfa_accepts, dfa_rejects. rewrite A1. apply DG.
  - destruct IH as (g & EG & W & L & DG).
    destruct (minimized_correct g W) as (m & EM & WM & AM & RM & DM).
    assert (LM : size m <= size g) by (eapply minimal; eauto).
    destruct (round_trip_wf m WM) as (t2 & m2 & E2 & F2 & W2 & S2 & A2); [lia|].
    erewrite C51_manual in E; [|exact C|apply (man_spec2spec T Y spot f inp coin true false false [] (Ok inp)); reflexivity].
    cbn [bind] in E. unfold do_spec2spec in E. rewrite EG in E. cbn [bind] in E. rewrite EM in E. cbn [bind] in E. rewrite E2 in E.
    injection E as <-. exists m2. split; auto. split; auto. split; [lia|].
    intros w. unfold dfa_accepts, dfa_rejects. rewrite A2, AM. apply DG.
Qed.
(** ... and can be minimised. *)
Theorem C66_minimized fml t n a f coin argv inp : monitors (spot fml n) n a -> number t n -> fits fml n -> printed_spec fml t inp ->
  command_line argv ["spec2spec"%string] [("--minimized"%string, None)] [] -> exists out, main T Y spot f inp coin argv = Ok (Prints out).
Proof.
  intros (HM & _) HN HB P C. destruct (printed_graph fml t n inp HM HN HB P) as (g & EG & W & L & DG).
  destruct (minimized_correct g W) as (m & EM & WM & AM & RM & DM).
  assert (LM : size m <= size g) by (eapply minimal; eauto).
  destruct (round_trip_wf m WM) as (t2 & m2 & E2 & F2 & W2 & S2 & A2); [lia|].
  exists t2. erewrite C51_manual; [|exact C|apply (man_spec2spec T Y spot f inp coin true false false [] (Ok inp)); reflexivity].
  cbn [bind]. unfold do_spec2spec. rewrite EG. cbn [bind]. rewrite EM. cbn [bind]. rewrite E2. reflexivity.
Qed.

(** The files: the specification and the input with these valuations. *)
Definition placed (f : fs) (spec input : text) (n : nat) (out : text) (vals : list (list bool)) : Prop :=
  f spec = Some (map N_of_ascii out) /\ exists blocks, Forall2 (packs n) vals blocks /\ f input = Some (concat blocks).

Lemma verdict_of fml t n a out f spec input vals : monitors (spot fml n) n a -> number t n -> 0 < n -> fits fml n ->
  printed_spec fml t out -> placed f spec input n out vals -> vals <> [] ->
  exists b, (b = true <-> possible n a vals) /\ run_plain f spec input n = Ok (answer b).
Proof.
  intros HM HN H0 HB P (FS & blocks & FB & FI) HV.
  destruct (printed_graph fml t n out (proj1 HM) HN HB P) as (g & EG & W & _ & DG).
  assert (HF : Forall (fun v => length v = n) vals).
  { clear - FB. induction FB as [|v b vs bs (L & _) _ IH]; constructor; auto. }
  assert (R : forall b, accepts g (concat vals) = Ok b -> run_plain f spec input n = Ok (answer b)).
  { intros b A. unfold run_plain, from_file, open_file. rewrite FS, FI. cbn [bind]. rewrite ascii_N_text, EG. cbn [bind].
    rewrite (C20_input_decoding n vals blocks _ _ _ H0 FB). unfold accepts, run_from in A.
    apply bind_ok in A as (q & A1 & A2). rewrite A1. cbn [bind]. rewrite A2. reflexivity. }
  destruct (DG (concat vals)) as (A & B & C). cbn [ltl_language] in *. rewrite (whole_possible _ _ a) in A, B by auto.
  destruct C as [C|C].
  - exists true. split; [tauto|]. apply R, C.
  - exists false. split; [|apply R, C]. split; [discriminate|]. intros K. exfalso. apply B; auto.
Qed.

(** ** C66: the verdict is 1 if and only if the valuations so far can be continued to a model. *)
Theorem C66_verdict fml t n a out f spec input vals stdin coin argv :
  monitors (spot fml n) n a -> positive t n -> fits fml n -> printed_spec fml t out ->
  placed f spec input n out vals -> vals <> [] ->
  command_line argv ["run"; "plain"]%string [("--spec", Some spec); ("--in", Some input); ("--ap", Some t)]%string [] ->
  exists b, main T Y spot f stdin coin argv = Ok (Prints (answer b)) /\ (b = true <-> possible n a vals).
Proof.
  intros HM HN HB P PL HV C.
  destruct (verdict_of fml t n a out f spec input vals HM (proj1 HN) (proj2 HN) HB P PL HV) as (b & I & E). exists b. split; auto.
  destruct (plain_readable f spec input n (answer b) E) as [R1 R2].
  erewrite C51_manual; [|eapply command_perm; [exact C|]|apply (man_plain T Y spot f stdin coin spec input t n); eauto].
  - rewrite E. reflexivity.
  - apply Permutation_sym. apply (Permutation_middle [_; _] []).
Qed.
End Verdicts.

(** The encrypted runs print the same verdicts (the sessions of PropsMain.v: genkey, genbkey, enc, run, dec). *)
Section Encrypted.
Context (T : tfhe) (s0 s1 : list Z) (bit : trgsw T -> bool -> Prop) (E : noise) (Y : crypto T) (spot : spot_lib).
Hypothesis OK : tfhe_ok T s0 s1 bit E.
Hypothesis NN : noise_nonneg E.
Hypothesis YO : crypto_ok T Y s1 bit.
Notation words := (c_words T Y).
Context (fml ap : text) (n : nat) (a : ltl) (out : text).
Hypothesis HM : monitors (spot fml n) n a.
Hypothesis HN : positive ap n.
Hypothesis HB : fits spot fml n.
Hypothesis HP : printed_spec T Y spot fml ap out.
Context (f : fs) (sk bk spec input cipher output : text) (vals : list (list bool)) (bytes : list N).
Hypothesis ND : NoDup [sk; bk; spec; input; cipher].
Hypothesis NO : output <> sk.
Hypothesis HV : vals <> [].
Hypothesis HI : f input = Some bytes.
Hypothesis PL : placed f spec input n out vals.
Hypothesis H64 : (Z.of_nat (nbits n bytes * (words * 8)) < 2 ^ 64)%Z.
Definition right_session (run : list string) (ro : list (string * option text)) : Prop :=
  exists b, session T Y spot f sk bk spec input cipher output ap run ro (answer b) /\ (b = true <-> possible n a vals).

Theorem C66_offline t interval : positive t interval -> back_margin E interval -> (Z.of_nat (nbits n bytes) < 2 ^ 31)%Z ->
  right_session ["run"; "offline"]%string (common bk output spec cipher None ++ [("--bootstrapping-freq"%string, Some t)]).
Proof.
  intros HT MG H31. destruct (verdict_of T Y spot fml ap n a out f spec input vals) as (b & I & EV); auto; try apply HN.
  exists b. split; auto. eapply (C51_session_offline T s0 s1 bit E Y spot); eauto.
Qed.
Theorem C66_reverse name t interval t' freq : In name ["reverse"; "reversed"]%string ->
  positive t interval -> positive t' freq -> back_margin E interval ->
  right_session ["run"%string; name]
    (common bk output spec cipher None ++ [("--out-freq"%string, Some t'); ("--bootstrapping-freq"%string, Some t)]).
Proof.
  intros Hn HT HT' MG. destruct (verdict_of T Y spot fml ap n a out f spec input vals) as (b & I & EV); auto; try apply HN.
  exists b. split; auto. eapply (C51_session_reverse T s0 s1 bit E Y spot); eauto.
Qed.
Theorem C66_block name t queue_size t' freq g : In name ["block"; "bbs"; "block-backstream"]%string ->
  positive t queue_size -> positive t' freq -> from_istream out = Ok g -> block_margin g queue_size E ->
  Nat.log2 (size g) + 1 < t_n1 T -> Nat.log2 (size g) + 1 < 31 ->
  right_session ["run"%string; name]
    (common bk output spec cipher None ++ [("--out-freq"%string, Some t'); ("--queue-size"%string, Some t)]).
Proof.
  intros Hn HT HT' EG MG L1 L2. destruct (verdict_of T Y spot fml ap n a out f spec input vals) as (b & I & EV); auto; try apply HN.
  exists b. split; auto. eapply (C51_session_block T s0 s1 bit E Y spot); eauto.
  - intros ->. destruct PL as (_ & blocks & FB & FI). rewrite HI in FI. injection FI as FI.
    destruct vals as [|v vs]; [auto|]. inversion FB as [|? blk ? bs (L & Lb & _)]; subst. destruct HN as [_ H0].
    destruct blk; [cbn in Lb; lia|discriminate FI].
  - unfold from_file, open_file. destruct PL as (-> & _). cbn [bind]. rewrite ascii_N_text. exact EG.
Qed.
Theorem C66_flut name t interval tq queue_size td max_depth t' freq g : In name ["flut"; "qtrlwe2"]%string ->
  positive t interval -> positive tq queue_size -> positive td max_depth -> positive t' freq ->
  from_istream out = Ok g -> queue_size < 31 -> max_depth < 31 -> table_fits (t_n1 T) max_depth queue_size g ->
  flut_margin (size g * 2 ^ (queue_size / 2)) queue_size interval E ->
  (forall m k, In m (flushes queue_size 0 0 (asked None 0 (repeat tt (nbits n bytes)))) -> width g m k -> k < 2 ^ max_depth) ->
  right_session ["run"%string; name]
    (common bk output spec cipher None ++ [("--out-freq"%string, Some t'); ("--queue-size"%string, Some tq);
       ("--max-second-lut-depth"%string, Some td); ("--bootstrapping-freq"%string, Some t)]).
Proof.
  intros Hn HT HQ HD HT' EG LQ LD LN MG HW.
  destruct (verdict_of T Y spot fml ap n a out f spec input vals) as (b & I & EV); auto; try apply HN.
  exists b. split; auto. eapply (C51_session_flut T s0 s1 bit E Y spot); eauto.
  unfold from_file, open_file. destruct PL as (-> & _). cbn [bind]. rewrite ascii_N_text. exact EG.
Qed.
End Encrypted.

(** ** What this means for a monitored sequence *)
Section Sequence.
Context (T : tfhe) (Y : crypto T) (spot : spot_lib) (fml t : text) (n : nat) (a : ltl) (out : text).
Hypothesis HM : monitors (spot fml n) n a.
Hypothesis HN : positive t n.
Hypothesis HB : fits spot fml n.
Hypothesis HP : printed_spec T Y spot fml t out.

(** [verdict vals b]: with the printed specification and any file that holds these valuations, "run plain"
    prints b. *)
Definition verdict (vals : list (list bool)) (b : bool) : Prop :=
  forall f spec input stdin coin argv, placed f spec input n out vals ->
    command_line argv ["run"; "plain"]%string [("--spec", Some spec); ("--in", Some input); ("--ap", Some t)]%string [] ->
    main T Y spot f stdin coin argv = Ok (Prints (answer b)).
Lemma verdict_true vals : vals <> [] -> possible n a vals -> verdict vals true.
Proof.
  intros HV K f spec input stdin coin argv PL C.
  destruct (C66_verdict T Y spot fml t n a out f spec input vals stdin coin argv) as (b & E & I); auto.
  rewrite E. replace b with true by (symmetry; apply I, K). reflexivity.
Qed.
Lemma verdict_false vals : vals <> [] -> ~ possible n a vals -> verdict vals false.
Proof.
  intros HV K f spec input stdin coin argv PL C.
  destruct (C66_verdict T Y spot fml t n a out f spec input vals stdin coin argv) as (b & E & I); auto.
  rewrite E. destruct b; [|reflexivity]. exfalso. apply K, I. reflexivity.
Qed.
(** Placing the files is possible, so that a verdict is 0 or 1 but not both. *)
Lemma verdict_value vals b : vals <> [] -> Forall (fun v => length v = n) vals -> verdict vals b -> (b = true <-> possible n a vals).
Proof.
  intros HV HF K. destruct (C20_every_word_has_a_file n vals (proj2 HN) HF) as (blocks & FB).
  set (f := write (write (fun _ => None) (lit "spec") (map N_of_ascii out)) (lit "input") (concat blocks)).
  assert (PL : placed f (lit "spec") (lit "input") n out vals).
  { split; [reflexivity|]. exists blocks. split; auto. }
  pose (items := [Opt "--spec" (lit "spec"); Opt "--in" (lit "input"); Opt "--ap" t]).
  assert (C : command_line (map lit ["run"; "plain"]%string ++ MainSpec.words items) ["run"; "plain"]%string
    [("--spec", Some (lit "spec")); ("--in", Some (lit "input")); ("--ap", Some t)]%string []).
  { exists [], items. repeat split; auto; constructor. }
  specialize (K f _ _ [] 0 _ PL C).
  destruct (C66_verdict T Y spot fml t n a out f _ _ vals [] 0 _ HM HN HB HP PL HV C) as (b' & E & I).
  rewrite E in K. injection K as K. replace b with b'; auto. destruct b, b'; auto; discriminate.
Qed.

(** A verdict 0 is final: no continuation satisfies the formula, and all later verdicts are 0. *)
Theorem C66_final s k : trace n s -> 0 < k -> verdict (upto s k) false ->
  (forall s', trace n s' -> upto s' k = upto s k -> ~ holds s' 0 a) /\ forall m, k <= m -> verdict (upto s m) false.
Proof.
  intros HT Hk V. apply verdict_value in V; [|apply upto_nil; auto|apply upto_forall; auto].
  assert (NP : ~ possible n a (upto s k)) by (intros K; apply V in K; discriminate).
  split.
  - intros s' T' E' H. apply NP. exists s'. rewrite upto_length. auto.
  - intros m L. apply verdict_false; [apply upto_nil; lia|]. intros K. apply NP.
    replace m with (k + (m - k)) in K by lia. destruct (upto_add s k (m - k)) as (l & E'). rewrite E' in K.
    eapply possible_prefix; eauto.
Qed.
(** A verdict 1 says that the formula can still come true. *)
Theorem C66_open s k : trace n s -> 0 < k -> verdict (upto s k) true -> exists s', trace n s' /\ upto s' k = upto s k /\ holds s' 0 a.
Proof.
  intros HT Hk V. apply verdict_value in V; [|apply upto_nil; auto|apply upto_forall; auto].
  destruct (proj1 V eq_refl) as (s' & T' & E' & H). rewrite upto_length in E'. eauto.
Qed.
(** On a sequence that satisfies the formula every verdict is 1. *)
Theorem C66_no_false_alarm s : trace n s -> holds s 0 a -> forall k, 0 < k -> verdict (upto s k) true.
Proof.
  intros HT H k Hk. apply verdict_true; [apply upto_nil; auto|]. exists s. rewrite upto_length. auto.
Qed.
(** A violation of a safety formula is reported after finitely many valuations, and from then on. *)
Theorem C66_alarm s : safe a -> trace n s -> holds s 0 (dual a) -> exists k, 0 < k /\ forall m, k <= m -> verdict (upto s m) false.
Proof.
  intros HS HT H. destruct (safe_seen a HS s 0 H) as (k & K). exists (S k). split; [lia|]. intros m L.
  apply verdict_false; [apply upto_nil; lia|]. intros (s' & T' & E' & H'). rewrite upto_length in E'.
  eapply dual_not; [|exact H']. apply K. intros j Hj. eapply upto_eq; eauto. lia.
Qed.
End Sequence.

(** ** With --make-all-live-states-final there is a verdict after every bit *)
Lemma concat_upto_length n s : trace n s -> forall k, length (concat (upto s k)) = k * n.
Proof.
  intros HT k. induction k as [|k IH]; [reflexivity|]. rewrite upto_S, concat_app, app_length, IH. cbn [concat].
  rewrite app_nil_r, HT. lia.
Qed.
Lemma concat_length_blocks n (vals : list (list bool)) : Forall (fun v => length v = n) vals -> length (concat vals) = length vals * n.
Proof. induction 1 as [|v vs H F IH]; cbn; auto. rewrite app_length, IH, H. reflexivity. Qed.
Lemma begun_possible M n a w : monitors M n a -> 0 < n -> w <> [] ->
  (whole_or_begun M n w <-> exists s, trace n s /\ holds s 0 a /\ firstn (length w) (concat (upto s (length w))) = w).
Proof.
  intros (HM & HS) Hn HW.
  assert (K : forall vals v, Forall (fun v => length v = n) vals -> length v = n -> possible n a (vals ++ [v]) -> forall w more, w ++ more = concat (vals ++ [v]) ->
    w <> [] -> exists s, trace n s /\ holds s 0 a /\ firstn (length w) (concat (upto s (length w))) = w).
  { clear w HW. intros vals v F Lv (s & HT & E & H) w more EW HW. exists s. split; auto. split; auto.
    assert (LW : length w + length more = length (vals ++ [v]) * n).
    { rewrite <- app_length, EW. apply concat_length_blocks. apply Forall_app. auto. }
    destruct (Nat.le_ge_cases (length (vals ++ [v])) (length w)) as [L|L].
    - replace (length w) with (length (vals ++ [v]) + (length w - length (vals ++ [v]))) at 2 by lia.
      destruct (upto_add s (length (vals ++ [v])) (length w - length (vals ++ [v]))) as (l & ->). rewrite E, concat_app, <- EW, <- app_assoc.
      rewrite firstn_app, firstn_all, Nat.sub_diag. cbn. apply app_nil_r.
    - assert (exists l, concat (vals ++ [v]) = concat (upto s (length w)) ++ l) as (l & EL).
      { rewrite <- E. replace (length (vals ++ [v])) with (length w + (length (vals ++ [v]) - length w)) by lia.
        destruct (upto_add s (length w) (length (vals ++ [v]) - length w)) as (l & ->). rewrite concat_app. eauto. }
      assert (LL : length w <= length (concat (upto s (length w)))) by (rewrite (concat_upto_length n) by auto; nia).
      transitivity (firstn (length w) (concat (upto s (length w)) ++ l)).
      + rewrite firstn_app. replace (length w - length (concat (upto s (length w)))) with 0 by lia. cbn. rewrite app_nil_r. reflexivity.
      + rewrite <- EL, <- EW, firstn_app, firstn_all, Nat.sub_diag. cbn. apply app_nil_r. }
  split.
  - intros (vals & q & rest & F & -> & R & [->|(q' & c & more & HI & L & HC)]).
    + rewrite app_nil_r in *. destruct (rev vals) as [|v vs] eqn:EV.
      { apply (f_equal (@rev _)) in EV. rewrite rev_involutive in EV. subst. destruct (HW eq_refl). }
      assert (vals = rev vs ++ [v]) as -> by (rewrite <- (rev_involutive vals), EV; reflexivity).
      apply Forall_app in F as [F1 F2]. inversion F2; subst. eapply (K (rev vs) v) with (more := []); auto.
      * apply HS; eauto. { destruct (rev vs); discriminate. } apply Forall_app. auto.
      * apply app_nil_r.
    + eapply (K vals (rest ++ more)) with (more := more); auto.
      * apply HS. { destruct vals; discriminate. } { apply Forall_app. auto. }
        exists q'. apply run_app. exists q. split; auto. econstructor; eauto. constructor.
      * rewrite concat_app. cbn. rewrite app_nil_r, app_assoc. reflexivity.
  - intros (s & HT & H & EW). set (k := length w / n). set (r := length w mod n).
    pose proof (Nat.div_mod (length w) n ltac:(lia)) as DM. fold k r in DM. pose proof (Nat.mod_upper_bound (length w) n ltac:(lia)) as RB. fold r in RB.
    assert (EW' : w = concat (upto s k) ++ firstn r (s k)).
    { rewrite <- EW. assert (Hk : S k <= length w \/ r = 0 /\ k <= length w).
      { destruct r as [|r']; [right|left]; split || idtac; auto; nia. }
      assert (exists l, concat (upto s (length w)) = concat (upto s k) ++ (match r with 0 => [] | _ => s k end) ++ l) as (l & ->).
      { destruct Hk as [Hk|[-> Hk]].
        - replace (length w) with (S k + (length w - S k)) by lia. destruct (upto_add s (S k) (length w - S k)) as (l & ->).
          rewrite upto_S, !concat_app. cbn [concat]. rewrite app_nil_r. destruct r; [|rewrite <- app_assoc; eauto].
          cbn [app]. rewrite <- app_assoc. eauto.
        - replace (length w) with (k + (length w - k)) by lia. destruct (upto_add s k (length w - k)) as (l & ->).
          rewrite concat_app. cbn [app]. eauto. }
      rewrite firstn_app, (concat_upto_length n) by auto. replace (length w - k * n) with r by nia.
      rewrite firstn_all2 by (rewrite (concat_upto_length n) by auto; nia). f_equal.
      destruct r as [|r']; [reflexivity|]. rewrite firstn_app. replace (S r' - length (s k)) with 0 by (rewrite HT; lia).
      cbn [firstn]. rewrite app_nil_r. reflexivity. }
    clearbody k r. clear EW. assert (PO : forall m, possible n a (upto s m)). { intros m. exists s. rewrite upto_length. auto. }
    destruct (Nat.eq_dec r 0) as [R0|R0].
    + rewrite R0 in *. cbn [firstn] in EW'. rewrite app_nil_r in EW'.
      assert (Hk : 0 < k) by (destruct w; [congruence|cbn [length] in DM; nia]).
      destruct (proj2 (HS (upto s k) (upto_nil s k Hk) (upto_forall n s k HT)) (PO k)) as (q & R).
      exists (upto s k), q, []. rewrite app_nil_r. split; [apply upto_forall; auto|]. split; auto.
    + destruct (proj2 (HS (upto s (S k)) (upto_nil s (S k) ltac:(lia)) (upto_forall n s (S k) HT)) (PO (S k))) as (q' & R).
      rewrite upto_S in R. apply run_app in R as (q & R1 & R2). inversion R2 as [|? ? c q1 ? ? HI HC HR]; subst.
      exists (upto s k), q, (firstn r (s k)). split; [apply upto_forall; auto|]. split; auto. split; auto. right.
      exists q1, c, (skipn r (s k)). rewrite firstn_skipn. auto.
Qed.
Theorem C66_bits M n a : monitors M n a -> 0 < n -> exists g, from_ltl_formula M n true = Ok g /\
  forall w, w <> [] -> exists b, accepts g w = Ok b /\
    (b = true <-> exists s, trace n s /\ holds s 0 a /\ firstn (length w) (concat (upto s (length w))) = w).
Proof.
  intros HM Hn. destruct (C42_ltl M n true (proj1 HM)) as (g & E & W & DG). exists g. split; auto. intros w HW.
  destruct (DG w) as (A & B & C). cbn [ltl_language] in *. rewrite (begun_possible M n a w HM Hn HW) in A, B.
  destruct C as [C|C]; [exists true|exists false]; (split; [exact C|]); [tauto|].
  split; [discriminate|]. intros K. exfalso. apply B; auto.
Qed.

(** * The hypotheses are met *)
(** G(p0 -> X p1) over two propositions: state 1 waits for p1. *)
Definition w_ltl : ltl := LG (LImp (LP 0) (LX (LP 1))).
Definition w_monitor : monitor :=
  {| m_ns := 2; m_init := 0;
     m_out := fun q => match q with
                       | 0 => [(0, BN 10 BT BF); (1, BN 10 BF BT)]
                       | 1 => [(0, BN 10 (BN 11 BF BT) BF); (1, BN 10 BF (BN 11 BF BT))]
                       | _ => []
                       end;
     m_var := fun i => Some (10 + i) |}.
Lemma w_monitor_ok : monitor_ok w_monitor 2.
Proof.
  constructor.
  - cbn. lia.
  - intros [|[|q]] q' c _; cbn; intuition (try discriminate); repeat match goal with H : (_, _) = (_, _) |- _ => injection H as <- <- end; lia.
  - cbn. intros i j v _ _ [= <-] [= H]. lia.
  - intros [|[|q]] q' c _; cbn; intuition (try discriminate); repeat match goal with H : (_, _) = (_, _) |- _ => injection H as <- <- end;
      repeat first [apply ordered_true | apply ordered_false
                   | match goal with |- ordered _ _ _ (BN ?v _ _) => apply (ordered_node _ _ _ (v - 10)); [cbn; lia|reflexivity| |] end].
  - intros [|[|q]] q' c _; cbn [m_out w_monitor In]; intuition (try discriminate);
      repeat match goal with H : (_, _) = (_, _) |- _ => injection H as <- <- end.
    + exists [false; false]. split; auto. apply (sat_low _ _ _ _ _ 0); auto. constructor.
    + exists [true; false]. split; auto. apply (sat_high _ _ _ _ _ 0); auto. constructor.
    + exists [false; true]. split; auto. apply (sat_low _ _ _ _ _ 0); auto. apply (sat_high _ _ _ _ _ 1); auto. constructor.
    + exists [true; true]. split; auto. apply (sat_high _ _ _ _ _ 0); auto. apply (sat_high _ _ _ _ _ 1); auto. constructor.
Qed.
(** the valuations are answered: after p0 comes p1 (and first of all if [q]) *)
Fixpoint answered (q : bool) (vals : list (list bool)) : Prop :=
  match vals with
  | [] => True
  | v :: vs => (q = true -> nth_error v 1 = Some true) /\ answered (nth 0 v false) vs
  end.
Lemma sat_node M val v low high i : m_var M i = Some v -> (forall j, m_var M j = Some v -> j = i) ->
  sat M val (BN v low high) <-> (nth_error val i = Some false /\ sat M val low) \/ (nth_error val i = Some true /\ sat M val high).
Proof.
  intros H U. split.
  - inversion 1; subst; [left|right]; rewrite <- (U i0) by auto; auto.
  - intros [[A B]|[A B]]; [eapply sat_low|eapply sat_high]; eauto.
Qed.
Lemma sat_false M val : ~ sat M val BF.
Proof. inversion 1. Qed.
Lemma w_node0 val low high : sat w_monitor val (BN 10 low high) <->
  (nth_error val 0 = Some false /\ sat w_monitor val low) \/ (nth_error val 0 = Some true /\ sat w_monitor val high).
Proof. apply sat_node; [reflexivity|]. cbn. intros j [= ->]. lia. Qed.
Lemma w_node1 val low high : sat w_monitor val (BN 11 low high) <->
  (nth_error val 1 = Some false /\ sat w_monitor val low) \/ (nth_error val 1 = Some true /\ sat w_monitor val high).
Proof. apply sat_node; [reflexivity|]. cbn. intros j [= ->]. lia. Qed.
Lemma w_run vals : Forall (fun v => length v = 2) vals -> forall q : bool,
  (exists r, monitor_run w_monitor (if q then 1 else 0) vals r) <-> answered q vals.
Proof.
  induction 1 as [|v vs L F IH]; intros q.
  - split; [intros _; exact I|intros _; eexists; constructor].
  - destruct v as [|a [|b [|]]]; try discriminate. cbn [answered nth nth_error]. rewrite <- IH. split.
    + intros (r & R). inversion R as [|? ? c q1 ? ? HI HC HR]; subst.
      assert (K : (q = true -> Some b = Some true) /\ q1 = if a then 1 else 0).
      { destruct q; cbn in HI; destruct HI as [[= <- <-]|[[= <- <-]|[]]]; 
          rewrite w_node0, ?w_node1 in HC; cbn [nth_error] in HC; pose proof (sat_false w_monitor [a; b]) as NF;
          destruct a, b; split; auto; intros; try discriminate; intuition discriminate. }
      destruct K as [K ->]. eauto.
    + intros (K & r & R). exists r. eapply run_cons; [| |exact R].
      * instantiate (1 := if q then (if a then BN 10 BF (BN 11 BF BT) else BN 10 (BN 11 BF BT) BF) else if a then BN 10 BF BT else BN 10 BT BF).
        destruct q, a; cbn; auto.
      * destruct q; [destruct b; [|specialize (K eq_refl); discriminate]|];
          destruct a; rewrite w_node0, ?w_node1; cbn; auto 8 using sat_true.
Qed.
Lemma w_possible vals : Forall (fun v => length v = 2) vals -> (answered false vals <-> possible 2 w_ltl vals).
Proof.
  intros F. split.
  - intros A. pose (s := fun i => nth i vals [false; true]). exists s. split; [|split].
    + intros i. unfold s. destruct (nth_in_or_default i vals [false; true]) as [H|H]; [|rewrite H; reflexivity].
      rewrite Forall_forall in F. auto.
    + unfold upto, s. clear. induction vals as [|v vs IH]; [reflexivity|]. cbn [length seq map nth]. f_equal.
      rewrite <- seq_shift, map_map. exact IH.
    + assert (G : forall i vs q, Forall (fun v => length v = 2) vs -> answered q vs ->
          nth_error (nth i vs [false; true]) 0 = Some true -> nth_error (nth (S i) vs [false; true]) 1 = Some true).
      { induction i as [|i IH]; intros [|v vs] q Fv Av H; try discriminate.
        - destruct Av as [_ Av]. destruct vs as [|v' vs]; [reflexivity|]. destruct Av as [Av _]. apply Av.
          destruct v; [discriminate|]. cbn in H. injection H as ->. reflexivity.
        - cbn [nth] in *. destruct Av as [_ Av]. inversion Fv; subst. eapply IH; eauto. }
      cbn. intros j _. left. destruct (nth_error (s j) 0) as [[|]|] eqn:Ej; [right; apply (G j vals false F A Ej)| |]; left; intros X; change (nth_error (s j) 0 = Some true) in X; congruence.
  - intros (s & HT & E & H). cbn in H.
    assert (G : forall k i q, (q = true -> nth_error (s i) 1 = Some true) -> answered q (map s (seq i k))).
    { induction k as [|k IH]; intros i q Hq; cbn [seq map answered]; auto. split; auto. apply IH. intros K.
      destruct (H i (Nat.le_0_l i)) as [[N|X]|(? & _ & [])]; auto. exfalso. apply N.
      specialize (HT i). destruct (s i) as [|x l]; [discriminate|]. cbn in *. congruence. }
    rewrite <- E. apply G. discriminate.
Qed.
Example C66_monitors : monitors w_monitor 2 w_ltl /\ safe w_ltl.
Proof.
  split; [|cbn; auto]. split; [apply w_monitor_ok|]. intros vals _ F. rewrite <- w_possible by auto. apply (w_run vals F false).
Qed.
(** A liveness formula is never refuted: the monitor of F p0 accepts everything. *)
Example C66_liveness : monitors {| m_ns := 1; m_init := 0; m_out := fun q => match q with 0 => [(0, BT)] | _ => [] end; m_var := fun i => Some (10 + i) |}
  1 (LF (LP 0)).
Proof.
  split.
  - constructor; cbn; auto.
    + intros [|q] q' c L; cbn; intuition. injection H0 as <- <-. auto.
    + intros i j v _ _ [= <-] [= H]. lia.
    + intros [|q] q' c L; cbn; intuition. injection H0 as <- <-. constructor.
    + intros [|q] q' c L; cbn; intuition. injection H0 as <- <-. exists [true]. split; [auto|constructor].
  - intros vals _ F. split.
    + intros _. exists (fun i => nth i vals [true]). split; [|split].
      * intros i. destruct (nth_in_or_default i vals [true]) as [H|H]; [|rewrite H; reflexivity]. rewrite Forall_forall in F. auto.
      * unfold upto. clear. induction vals as [|v vs IH]; [reflexivity|]. cbn [length seq map nth]. f_equal. rewrite <- seq_shift, map_map. exact IH.
      * cbn. exists (length vals). split; [lia|]. split; auto. rewrite nth_overflow by lia. reflexivity.
    + intros _. exists 0. induction vals as [|v vs IH]; [constructor|]. inversion F; subst. eapply run_cons; [cbn; left; reflexivity|constructor|auto].
Qed.
Definition w_spot : spot_lib := mkSpot (fun _ _ => w_monitor) (fun t => negb (length t =? 0)).
Definition w_text : text := match do_ltl2spec w_monitor 2 false with Ok t => t | Fail _ => [] end.
Definition w_fml : text := lit "G(p0 -> X p1)".
Lemma w_fits : fits w_spot w_fml 2.
Proof.
  split; [reflexivity|]. intros g E. assert (K : match from_ltl_formula w_monitor 2 false with Ok g => N.leb (N.of_nat (size g)) (2 ^ 31) = true | Fail _ => True end) by (vm_compute; reflexivity).
  cbn [translate w_spot] in E. rewrite E in K. apply N.leb_le in K. exact K.
Qed.
Lemma w_positive : positive (lit "2") 2.
Proof. split; [split; [reflexivity|lia]|lia]. Qed.
Lemma w_printed : printed_spec ex_T ex_Y w_spot w_fml (lit "2") w_text.
Proof.
  eapply (printed_ltl2spec ex_T ex_Y w_spot w_fml (lit "2") (fun _ => None) [] 0 [lit "ltl2spec"; w_fml; lit "2"]).
  - exists [], [Pos w_fml; Pos (lit "2")]. split; [split; constructor|]. split; [reflexivity|]. split; [constructor|].
    split; [reflexivity|]. apply Forall_cons; [|apply Forall_cons; [|apply Forall_nil]].
    all: split; [right; discriminate|]; intros c H; cbn in H; repeat (destruct H as [<-|H]; [discriminate|]); destruct H.
  - vm_compute. reflexivity.
Qed.
(** p0 is answered at first, but not the second time: the verdict after three valuations is 1, after four it is 0 ... *)
Definition w_vals (k : nat) : list (list bool) := firstn k [[true; false]; [false; true]; [true; true]; [false; false]].
Definition w_f (k : nat) : fs :=
  write (write (fun _ => None) (lit "s") (map N_of_ascii w_text)) (lit "i") (firstn k [1; 2; 3; 0]%N).
Example C66_witness :
  main ex_T ex_Y w_spot (w_f 3) [] 0 (map lit ["run"; "plain"; "--spec"; "s"; "--in"; "i"; "--ap"; "2"]%string) = Ok (Prints (answer true)) /\
  main ex_T ex_Y w_spot (w_f 4) [] 0 (map lit ["run"; "plain"; "--spec"; "s"; "--in"; "i"; "--ap"; "2"]%string) = Ok (Prints (answer false)).
Proof. split; vm_compute; reflexivity. Qed.
Lemma w_placed k : k <= 4 -> placed (w_f k) (lit "s") (lit "i") 2 w_text (w_vals k).
Proof.
  intros Hk. split; [reflexivity|]. exists (firstn k [[1%N]; [2%N]; [3%N]; [0%N]]). split.
  - assert (P : forall a b c : bool, c = true -> packs 2 [a; b] [(N.b2n a + 2 * N.b2n b)%N]).
    { intros a b c _. split; auto. split; [cbn; lia|]. intros i x H. exists (N.b2n a + 2 * N.b2n b)%N.
      destruct i as [|[|i]]; [| |destruct i; discriminate]; injection H as <-; destruct a, b; auto. }
    destruct k as [|[|[|[|[|k]]]]]; [| | | | |lia]; cbn;
      repeat first [apply Forall2_nil | apply Forall2_cons]; first [apply (P true false true)|apply (P false true true)|apply (P true true true)|apply (P false false true)]; reflexivity.
  - destruct k as [|[|[|[|[|k]]]]]; [| | | | |lia]; reflexivity.
Qed.
(** ... also when the run is encrypted. *)
Example C66_offline_witness :
  right_session ex_T ex_Y w_spot (lit "2") 2 w_ltl (w_f 4) (lit "sk") (lit "bk") (lit "s") (lit "i") (lit "ci") (lit "out") (w_vals 4)
    ["run"; "offline"]%string (common (lit "bk") (lit "out") (lit "s") (lit "ci") None ++ [("--bootstrapping-freq"%string, Some (lit "2"))]).
Proof.
  destruct ex_contract as (H1 & H2). destruct ex_margins as (M1 & _).
  eapply (C66_offline ex_T _ _ _ _ ex_Y w_spot H1 H2 ex_crypto w_fml (lit "2") 2 w_ltl w_text (proj1 C66_monitors) w_positive w_fits w_printed
    (w_f 4) (lit "sk") (lit "bk") (lit "s") (lit "i") (lit "ci") (lit "out") (w_vals 4) [1; 2; 3; 0]%N) with (interval := 2); auto.
  - repeat constructor; cbn; intuition discriminate.
  - discriminate.
  - discriminate.
  - apply w_placed. lia.
  - apply w_positive.
Qed.

Print Assumptions C66_verdict.
Print Assumptions C66_offline.
Print Assumptions C66_reverse.
Print Assumptions C66_block.
Print Assumptions C66_flut.
Print Assumptions C66_final.
Print Assumptions C66_open.
Print Assumptions C66_no_false_alarm.
Print Assumptions C66_alarm.
Print Assumptions C66_bits.
