(** Proofs about killed commands. *)
From Coq Require Import List Arith Bool NArith ZArith Ascii Lia.
Import ListNotations.
From Verif Require Import Base BaseFacts GraphModel Spec GraphFacts TextModel BitsModel BitsFacts TorusModel TfheSpec
  RunnerModel RunnerSpec RunnerFacts ParModel ParFacts SchedFacts StreamModel InputSpec StreamFacts PropsInput
  ClientModel ClientFacts CmdModel CmdSpec CmdFacts CrashModel.

(** * The bits an input file yields *)
Lemma each_bit_passed {S} ap (func : S -> bool -> res S) bytes : forall rest s,
  each_input_bit_from rest ap func bytes s =
  do s' <- foldM func (bits_passed rest ap bytes) s;
  each_input_bit_from rest ap (fun t _ => Ok t) bytes s'.
Proof.
  induction bytes as [|v bytes IH]; intros rest s; cbn [each_input_bit_from bits_passed].
  - reflexivity.
  - destruct (byte_bits 8 v (if rest =? 0 then ap else rest)) as [bs rest'].
    rewrite foldM_app. destruct (foldM func bs s) as [s1|e]; cbn [bind]; [|reflexivity].
    rewrite IH. destruct (foldM func (bits_passed rest' ap bytes) s1) as [s2|e]; cbn [bind]; [|reflexivity].
    assert (X : foldM (fun (t : S) (_ : bool) => Ok t) bs s2 = Ok s2) by (clear; induction bs; cbn; auto).
    rewrite X. reflexivity.
Qed.
(** A whole file: the bits are exactly those of the input. *)
Lemma bits_passed_whole ap bytes bits :
  (forall S (func : S -> bool -> res S) s, each_input_bit bytes ap func s = foldM func bits s) ->
  bits_passed 0 ap bytes = bits.
Proof.
  intros H. specialize (H (list bool) (fun l b => Ok (l ++ [b])) []).
  assert (X : forall l a, foldM (fun (l : list bool) b => Ok (l ++ [b])) l a = Ok (a ++ l)).
  { induction l as [|b l IH]; intros a; cbn; [rewrite app_nil_r; reflexivity|]. rewrite IH, <- app_assoc. reflexivity. }
  unfold each_input_bit in H. rewrite each_bit_passed, !X in H. cbn [bind app] in H.
  assert (Z : forall l a (b : list bool), each_input_bit_from a ap (fun t _ => Ok t) l b = Ok bits -> b = bits).
  { clear. induction l as [|v l IH]; intros a b; cbn [each_input_bit_from].
    - destruct (a =? 0); cbn; congruence.
    - destruct (byte_bits 8 v (if a =? 0 then ap else a)) as [bs r].
      assert (Y : foldM (fun (t : list bool) (_ : bool) => Ok t) bs b = Ok b) by (clear; induction bs; cbn; auto).
      rewrite Y. cbn [bind]. apply IH. }
  eapply Z; eauto.
Qed.

(** * Reading an archive that is too short *)
Lemma read_words_short k swap : forall bytes, length bytes < 4 * k -> read_words k swap bytes = Fail FExit.
Proof.
  induction k as [|k IH]; intros bytes H; [lia|]. cbn [read_words].
  destruct (Nat.ltb_spec (length bytes) 4); [reflexivity|].
  rewrite IH by (rewrite skipn_length; lia). reflexivity.
Qed.
Lemma read_tlwe_short n bytes : length bytes < 1 + 4 * (n + 1) -> read_tlwe n bytes = Fail FExit.
Proof.
  intros H. destruct bytes as [|x bytes]; [reflexivity|]. cbn [read_tlwe length] in *. apply read_words_short. lia.
Qed.
Lemma archive_length n c : length (archive_tlwe n c) = 1 + 4 * (n + 1).
Proof.
  unfold archive_tlwe. cbn [length]. f_equal.
  assert (X : forall l, length (concat (map (fun i => le_bytes 4 (Z.to_N (cf c i))) l)) = 4 * length l).
  { induction l as [|i l IH]; [reflexivity|]. cbn [map concat length]. rewrite app_length, le_bytes_length, IH. lia. }
  rewrite X, seq_length. lia.
Qed.

(** * Constructors of [always] *)
Lemma always_mono {R} (P Q : R -> Prop) p : (forall d, P d -> Q d) -> forall d rem, always P d p rem -> always Q d p rem.
Proof.
  intros H. induction p as [r|k IH|k IH|X o k IH|t r p IH]; intros d rem; cbn [always]; intros [A B]; split; auto.
  - destruct rem; auto.
  - intros a Ha. specialize (B a Ha). destruct a; auto.
  - destruct B as [B1 B2]. split; auto.
Qed.
Lemma always_any {R X} (P : R -> Prop) d (o : outcomes X) (k : X -> client R) a rem :
  (forall x, o x <-> x = Ok a) -> always P d (k a) rem -> always P d (PAny o k) rem.
Proof.
  intros H A. cbn [always]. split; [eapply always_here; eauto|]. intros x Hx. apply H in Hx as ->. exact A.
Qed.
Lemma always_det {R X} (P : R -> Prop) d (m : res X) (k : X -> client R) a rem :
  m = Ok a -> always P d (k a) rem -> always P d (pdet m k) rem.
Proof. intros -> S. apply (always_any _ _ _ _ a); auto. intros x. reflexivity. Qed.
Lemma always_size {R} (P : R -> Prop) d (k : nat -> client R) rem :
  always P d (k (length rem)) rem -> always P d (PSize k) rem.
Proof. intros A. cbn [always]. split; [eapply always_here; eauto|exact A]. Qed.
Lemma always_next {R} (P : R -> Prop) d (k : list N -> client R) c rem :
  always P d (k c) rem -> always P d (PNext k) (c :: rem).
Proof. intros A. cbn [always]. split; [eapply always_here; eauto|exact A]. Qed.

Lemma can_any {R X} (P : R -> Prop) d (o : outcomes X) (k : X -> client R) a rem :
  (forall x, o x <-> x = Ok a) -> can P d (k a) rem -> can P d (PAny o k) rem.
Proof. intros H A. cbn [can]. right. exists a. split; [apply H; reflexivity|exact A]. Qed.

Section Crash.
Context (T : tfhe) (Y : crypto T) (s1 : list Z) (bit : trgsw T -> bool -> Prop).
Hypothesis YO : crypto_ok T Y s1 bit.
Notation words := (c_words T Y).
Notation N1 := (t_n1 T).

Lemma enc_output_file bits : forall coin, enc_output T Y coin bits = ct_file T Y coin bits.
Proof. unfold ct_file. induction bits as [|b bits IH]; intros coin; cbn; [reflexivity|]. rewrite IH. reflexivity. Qed.
Lemma ct_file_length coin bits : length (enc_output T Y coin bits) = length bits * block_size words.
Proof.
  rewrite enc_output_file. unfold ct_file.
  rewrite (file_length words _ (y_words _ _ _ _ YO) (encs_ctxt T Y s1 bit YO coin bits)).
  rewrite map_length, encs_length. reflexivity.
Qed.
Lemma enc_output_firstn n : forall coin bits, n <= length bits ->
  firstn (n * block_size words) (enc_output T Y coin bits) = enc_output T Y coin (firstn n bits).
Proof.
  induction n as [|n IH]; intros coin bits H; [reflexivity|].
  destruct bits as [|b bits]; cbn [length] in H; [lia|]. cbn [enc_output firstn Nat.mul].
  assert (L : length (save (c_save T Y (c_enc T Y coin b))) = block_size words).
  { pose proof (ct_file_length coin [b]) as X. cbn [enc_output length] in X. rewrite app_nil_r in X. lia. }
  rewrite firstn_app, L. rewrite firstn_all2 by lia.
  replace (block_size words + n * block_size words - block_size words) with (n * block_size words) by lia.
  rewrite IH by lia. reflexivity.
Qed.

(** * Series of writes, the last one perhaps unfinished *)
Definition stage (L : list (text * list Z)) (f d : fs) : Prop :=
  exists l1 l2, L = l1 ++ l2 /\
    (same_files (writes T l1 f) d \/
     exists p c l3 k, l2 = (p, c) :: l3 /\ same_files (write (writes T l1 f) p (firstn k (archive_tlwe N1 c))) d).
Lemma stage_now L f : stage L f f.
Proof. exists [], L. split; [reflexivity|]. left. intros p. reflexivity. Qed.
Lemma stage_part p c L f d : part_written f p (archive_tlwe N1 c) d -> stage ((p, c) :: L) f d.
Proof. intros (k & H). exists [], ((p, c) :: L). split; [reflexivity|]. right. exists p, c, L, k. split; [reflexivity|exact H]. Qed.
Lemma stage_next p c L f d : stage L (write f p (archive_tlwe N1 c)) d -> stage ((p, c) :: L) f d.
Proof.
  intros (l1 & l2 & -> & H). exists ((p, c) :: l1), l2. split; [reflexivity|]. exact H.
Qed.
Lemma always_store p c L f k rem :
  always (stage L (write f p (archive_tlwe N1 c))) (write f p (archive_tlwe N1 c)) (k (write f p (archive_tlwe N1 c))) rem ->
  always (stage ((p, c) :: L) f) f (store_file f p (archive_tlwe N1 c) k) rem.
Proof.
  intros A. unfold store_file. cbn [always]. split; [apply stage_now|]. split; [intros d' H; apply stage_part; exact H|].
  eapply always_mono; [|exact A]. intros d. apply stage_next.
Qed.

(** * The loops *)
Lemma offline_loop_always P d rem : forall s s' finish,
  foldM (offline_eval_one T) (map (c_load T Y) rem) s = Ok s' ->
  always P d (finish s') [] -> always P d (offline_loop T Y (length rem) s finish) rem.
Proof.
  induction rem as [|c rem IH]; intros s s' finish; cbn [map foldM length offline_loop].
  - intros [= ->] S. exact S.
  - intros E S. apply bind_ok in E as (t & E1 & E2). apply always_next.
    apply (always_any _ _ _ _ t); [apply backstream_any_exact; exact E1|]. eapply IH; eauto.
Qed.

Section Loop.
Context {St : Type} (feed : St -> trgsw T -> outcomes St) (ask : St -> outcomes (list Z * St))
        (feedD : St -> trgsw T -> res St) (askD : St -> res (list Z * St)).
Hypothesis HFeed : forall s c, exact (feed s c) (feedD s c).
Hypothesis HAsk : forall s, exact (ask s) (askD s).
Context (input : text) (dir : option text) (freq : nat).
Notation freq_of := (freq_of dir freq).
Notation dir_path := (dir_path dir).

Lemma monitor_loop_always rem : forall i s f finish outs s' last,
  (forall d, dir = Some d -> 0 < freq) ->
  (forall j, i < j <= i + length rem -> dir <> None -> dir_path j <> input) ->
  play feedD askD (asked freq_of i (map (c_load T Y) rem)) s = Ok (outs, s') ->
  (forall t c t' f', askD t = Ok (c, t') -> always (stage [(last, c)] f') f' (finish t f') []) ->
  exists l c, outs = l ++ [c] /\ length outs = length (reports freq_of i (length rem)) /\
    always (stage (combine (map dir_path (reports freq_of i (length rem))) l ++ [(last, c)]) f) f
      (monitor_loop T Y feed ask input dir freq finish (length rem) i s f) rem.
Proof.
  induction rem as [|c rem IH]; intros i s f finish outs s' last HD HN HP HF.
  - cbn [map asked play] in HP. apply bind_ok in HP as ([c t] & EA & HP). cbn in HP. injection HP as <- <-.
    exists [], c. split; [reflexivity|]. split.
    + unfold reports. cbn [seq length]. destruct freq_of; reflexivity.
    + cbn [monitor_loop length]. apply always_size. cbn [length Nat.eqb].
      specialize (HF s c t f EA).
      assert (X : forall ps : list text, combine ps (@nil (list Z)) = []) by (destruct ps; reflexivity).
      rewrite X. exact HF.
  - cbn [map asked play] in HP. apply bind_ok in HP as (t & EF & HP).
    cbn [length monitor_loop]. rewrite (reports_cons dir freq). unfold CmdFacts.freq_of in *.
    destruct dir as [d|] eqn:Ed.
    + pose proof (HD d eq_refl) as HD0. rewrite (mod_step freq i HD0).
      destruct (Nat.eqb_spec freq 0) as [|_]; [lia|].
      destruct (S i mod freq =? 0) eqn:EM.
      * cbn [play] in HP. apply bind_ok in HP as ([c1 t1] & EA & HP). apply bind_ok in HP as ([outs1 t2] & HP & HQ).
        injection HQ as <- <-.
        destruct (IH (S i) t1 (write f (CmdFacts.dir_path (Some d) (S i)) (archive_tlwe N1 c1)) finish outs1 t2 last) as (l & c0 & E1 & E2 & SU); auto.
        { intros j Hj. apply HN. cbn [length]. lia. }
        exists (c1 :: l), c0. split; [rewrite E1; reflexivity|]. split; [cbn [app length]; rewrite E2; reflexivity|].
        apply always_size. cbn [length Nat.eqb]. apply always_next.
        apply (always_any _ _ _ _ t); [apply HFeed; exact EF|]. apply (always_any _ _ _ _ (c1, t1)); [apply HAsk; exact EA|].
        replace (i + 1) with (S i) by lia. rewrite report_path.
        change (report_file d (S i)) with (CmdFacts.dir_path (Some d) (S i)).
        rewrite path_eqb_neq.
        2:{ apply (HN (S i)); [cbn [length]; lia|discriminate]. }
        cbn [app map combine]. apply always_store. exact SU.
      * destruct (IH (S i) t f finish outs s' last) as (l & c0 & E1 & E2 & SU); auto.
        { intros j Hj. apply HN. cbn [length]. lia. }
        exists l, c0. split; auto. split; auto.
        apply always_size. cbn [length Nat.eqb]. apply always_next.
        apply (always_any _ _ _ _ t); [apply HFeed; exact EF|]. exact SU.
    + destruct (IH (S i) t f finish outs s' last) as (l & c0 & E1 & E2 & SU); auto.
      exists l, c0. split; auto. split; auto.
      apply always_size. cbn [length Nat.eqb]. apply always_next.
      apply (always_any _ _ _ _ t); [apply HFeed; exact EF|]. exact SU.
Qed.

(** and every stage is reached by some execution *)
Lemma monitor_loop_can d0 rem : forall i s f finish outs s' last,
  (forall d, dir = Some d -> 0 < freq) ->
  (forall j, i < j <= i + length rem -> dir <> None -> dir_path j <> input) ->
  play feedD askD (asked freq_of i (map (c_load T Y) rem)) s = Ok (outs, s') ->
  (forall t c t' f', askD t = Ok (c, t') -> stage [(last, c)] f' d0 -> can (fun d => same_files d d0) f' (finish t f') []) ->
  forall l c, outs = l ++ [c] ->
    stage (combine (map dir_path (reports freq_of i (length rem))) l ++ [(last, c)]) f d0 ->
    can (fun d => same_files d d0) f (monitor_loop T Y feed ask input dir freq finish (length rem) i s f) rem.
Proof.
  induction rem as [|c rem IH]; intros i s f finish outs s' last HD HN HP HF l c0 EL SG.
  - cbn [map asked play] in HP. apply bind_ok in HP as ([c t] & EA & HP). cbn in HP. injection HP as <- <-.
    destruct l as [|x l]; [|destruct l; discriminate]. injection EL as <-.
    cbn [monitor_loop length can]. right. cbn [length Nat.eqb].
    assert (X : forall ps : list text, combine ps (@nil (list Z)) = []) by (destruct ps; reflexivity).
    rewrite X in SG. eapply HF; eauto.
  - cbn [map asked play] in HP. apply bind_ok in HP as (t & EF & HP).
    cbn [length monitor_loop]. cbn [length] in SG. rewrite (reports_cons dir freq) in SG. unfold CmdFacts.freq_of in *.
    destruct dir as [d|] eqn:Ed.
    + pose proof (HD d eq_refl) as HD0. rewrite (mod_step freq i HD0).
      destruct (Nat.eqb_spec freq 0) as [|_]; [lia|].
      destruct (S i mod freq =? 0) eqn:EM.
      * cbn [play] in HP. apply bind_ok in HP as ([c1 t1] & EA & HP). apply bind_ok in HP as ([outs1 t2] & HP & HQ).
        injection HQ as EOU ->. rewrite EL in EOU.
        assert (NE : outs1 <> []).
        { intros ->. clear - HP. revert HP. generalize (S i). revert t1. induction rem as [|x rem IH]; intros t1 m; cbn [map asked play].
          - intros H. apply bind_ok in H as ([? ?] & _ & H). cbn in H. discriminate.
          - intros H. apply bind_ok in H as (u & _ & H). destruct (S m mod freq =? 0); [|eapply IH; eauto].
            cbn [play] in H. apply bind_ok in H as ([? ?] & _ & H). apply bind_ok in H as ([? ?] & _ & H). discriminate. }
        destruct l as [|x l]; [cbn in EOU; injection EOU as _ EOU; congruence|]. cbn [app] in EOU. injection EOU as <- EOU.
        cbn [can]. right. cbn [length Nat.eqb]. right.
        apply (can_any _ _ _ _ t); [apply HFeed; exact EF|]. apply (can_any _ _ _ _ (c1, t1)); [apply HAsk; exact EA|].
        replace (i + 1) with (S i) by lia. rewrite report_path.
        change (report_file d (S i)) with (CmdFacts.dir_path (Some d) (S i)).
        rewrite path_eqb_neq.
        2:{ apply (HN (S i)); [cbn [length]; lia|discriminate]. }
        cbn [app map combine] in SG. unfold store_file. cbn [can].
        destruct SG as (l1 & l2 & EQ & SG). destruct l1 as [|y l1].
        { cbn [app] in EQ. destruct SG as [SG|(p & cc & l3 & kk & E2 & SG)].
          - left. exact SG.
          - right. left. rewrite <- EQ in E2. injection E2 as <- <- _. exists d0. split; [exists kk; exact SG|intros q; reflexivity]. }
        cbn [app] in EQ. injection EQ as <- EQ. right. right.
        eapply (IH (S i) t1 _ finish outs1 s' last); eauto.
        { intros j Hj. apply HN. cbn [length]. lia. }
        { exists l1, l2. split; [exact EQ|exact SG]. }
      * cbn [can]. right. cbn [length Nat.eqb]. right. apply (can_any _ _ _ _ t); [apply HFeed; exact EF|].
        eapply (IH (S i) t f finish outs s' last); eauto.
        intros j Hj. apply HN. cbn [length]. lia.
    + cbn [can]. right. cbn [length Nat.eqb]. right. apply (can_any _ _ _ _ t); [apply HFeed; exact EF|].
      eapply (IH (S i) t f finish outs s' last); eauto.
Qed.
Lemma to_dir_can d0 rem n s f d outs s' : dir = Some d -> 0 < freq -> length rem = n ->
  (forall j, 0 < j <= n -> report_file d j <> input) ->
  play feedD askD (asked (Some freq) 0 (map (c_load T Y) rem)) s = Ok (outs, s') ->
  length outs = length (reports (Some freq) 0 n) ->
  stage (combine (map (report_file d) (reports (Some freq) 0 n)) outs) f d0 ->
  can (fun d => same_files d d0) f (monitor_loop T Y feed ask input dir freq (last_output T ask None dir n) n 0 s f) rem.
Proof.
  intros Ed HF0 <- HN HP E2 SG. assert (FO : freq_of = Some freq) by (rewrite Ed; reflexivity).
  assert (DP : forall j, dir_path j = report_file d j) by (intros; rewrite Ed; reflexivity).
  assert (EL : exists l c, outs = l ++ [c]).
  { destruct (exists_last (l := outs)) as (l & c & ->); [|eauto]. intros ->. unfold reports in E2. rewrite app_length in E2. cbn in E2. lia. }
  destruct EL as (l & c & EL).
  eapply (monitor_loop_can d0 rem 0 s f _ outs s' (report_file d (length rem))) with (l := l) (c := c); auto.
  - intros j Hj _. rewrite DP. apply HN. lia.
  - rewrite FO. exact HP.
  - intros t c1 t' f' EA (l1 & l2 & EQ & ST). unfold last_output. apply (can_any _ _ _ _ (c1, t')); [apply HAsk; exact EA|].
    rewrite Ed, report_path. unfold store_file. cbn [can].
    destruct l1 as [|y l1].
    { cbn [app] in EQ. destruct ST as [ST|(p & cc & l3 & kk & E3 & ST)].
      - left. exact ST.
      - right. left. rewrite <- EQ in E3. injection E3 as <- <- _. exists d0. split; [exists kk; exact ST|intros q; reflexivity]. }
    cbn [app] in EQ. injection EQ as <- EQ. destruct l1; [|discriminate]. destruct l2; [|discriminate].
    destruct ST as [ST|(p & cc & l3 & kk & E3 & _)]; [|discriminate].
    right. right. left. exact ST.
  - rewrite FO in *. rewrite (map_ext _ _ DP).
    unfold reports in *. cbn [Nat.add] in *. rewrite map_app in *. cbn [map] in *.
    rewrite EL, !app_length in E2. cbn [length] in E2.
    rewrite combine_firstn_snoc by (rewrite map_length; lia).
    rewrite EL, combine_snoc in SG by (rewrite map_length; lia). exact SG.
Qed.

Lemma to_file_always rem n s f o outs s' : dir = None -> length rem = n ->
  play feedD askD (asked None 0 (map (c_load T Y) rem)) s = Ok (outs, s') ->
  exists c, outs = [c] /\
    always (stage [(o, c)] f) f (monitor_loop T Y feed ask input dir freq (last_output T ask (Some o) dir n) n 0 s f) rem.
Proof.
  intros Ed <- HP. assert (FO : freq_of = None) by (rewrite Ed; reflexivity).
  destruct (monitor_loop_always rem 0 s f (last_output T ask (Some o) dir (length rem)) outs s' o) as (l & c & E1 & E2 & SU).
  - intros d E. congruence.
  - intros j _ N. congruence.
  - rewrite FO. exact HP.
  - intros t c t' f' EA. unfold last_output. apply (always_any _ _ _ _ (c, t')); [apply HAsk; exact EA|].
    apply always_store. cbn [always]. split; [apply stage_now|exact I].
  - rewrite FO in *. unfold reports in *. cbn [app length] in E2. rewrite E1, app_length in E2. cbn [length] in E2.
    destruct l; [|cbn in E2; lia]. exists c. split; [exact E1|]. cbn [app map combine Nat.add] in SU. exact SU.
Qed.
Lemma to_dir_always rem n s f d outs s' : dir = Some d -> 0 < freq -> length rem = n ->
  (forall j, 0 < j <= n -> report_file d j <> input) ->
  play feedD askD (asked (Some freq) 0 (map (c_load T Y) rem)) s = Ok (outs, s') ->
  length outs = length (reports (Some freq) 0 n) /\
  always (stage (combine (map (report_file d) (reports (Some freq) 0 n)) outs) f) f
    (monitor_loop T Y feed ask input dir freq (last_output T ask None dir n) n 0 s f) rem.
Proof.
  intros Ed HF0 <- HN HP. assert (FO : freq_of = Some freq) by (rewrite Ed; reflexivity).
  assert (DP : forall j, dir_path j = report_file d j) by (intros; rewrite Ed; reflexivity).
  destruct (monitor_loop_always rem 0 s f (last_output T ask None dir (length rem)) outs s' (report_file d (length rem)))
    as (l & c & E1 & E2 & SU).
  - auto.
  - intros j Hj _. rewrite DP. apply HN. lia.
  - rewrite FO. exact HP.
  - intros t c t' f' EA. unfold last_output. apply (always_any _ _ _ _ (c, t')); [apply HAsk; exact EA|].
    rewrite Ed, report_path. apply always_store. cbn [always]. split; [apply stage_now|exact I].
  - rewrite FO in *. split; [exact E2|]. rewrite (map_ext _ _ DP) in SU.
    unfold reports in *. cbn [Nat.add] in *. rewrite map_app in *. cbn [map] in *.
    rewrite E1, !app_length in E2. cbn [length] in E2.
    rewrite combine_firstn_snoc in SU by (rewrite map_length; lia).
    rewrite E1, combine_snoc by (rewrite map_length; lia). exact SU.
Qed.
End Loop.

(** * What is in the files at a stage *)
Lemma writes_get l f p : (~ In p (map fst l) /\ writes T l f p = f p) \/ (exists c, In (p, c) l /\ writes T l f p = Some (archive_tlwe N1 c)).
Proof. apply writes_lookup. Qed.
Lemma stage_other L f d p : stage L f d -> ~ In p (map fst L) -> d p = f p.
Proof.
  intros (l1 & l2 & -> & H) NI. rewrite map_app, in_app_iff in NI.
  assert (X : writes T l1 f p = f p).
  { destruct (writes_get l1 f p) as [[_ E]|(c & I & _)]; [exact E|]. exfalso. apply NI. left. apply (in_map fst) in I. exact I. }
  destruct H as [H|(q & c & l3 & k & -> & H)]; rewrite H; [exact X|].
  rewrite write_other; [exact X|]. intros ->. apply NI. right. left. reflexivity.
Qed.
Lemma stage_file L f d p : stage L f d ->
  d p = f p \/ exists c k, In (p, c) L /\ d p = Some (firstn k (archive_tlwe N1 c)).
Proof.
  intros (l1 & l2 & -> & H).
  assert (X : writes T l1 f p = f p \/ exists c k, In (p, c) l1 /\ writes T l1 f p = Some (firstn k (archive_tlwe N1 c))).
  { destruct (writes_get l1 f p) as [[_ E]|(c & I & E)]; [left; exact E|].
    right. exists c, (length (archive_tlwe N1 c)). rewrite firstn_all. auto. }
  destruct H as [H|(q & c & l3 & k & -> & H)].
  - rewrite H. destruct X as [X|(c & k & I & X)]; [auto|]. right. exists c, k. split; [apply in_or_app; auto|exact X].
  - rewrite H. destruct (list_eq_dec ascii_dec p q) as [->|N].
    + right. exists c, k. rewrite write_same. split; [|reflexivity]. apply in_or_app. right. left. reflexivity.
    + rewrite write_other by auto. destruct X as [X|(c' & k' & I & X)]; [auto|].
      right. exists c', k'. split; [apply in_or_app; auto|exact X].
Qed.
Lemma stage_earlier (name : nat -> text) rs outs f d i j :
  (forall a b, name a = name b -> a = b) -> length outs = length rs ->
  (forall l1 l2 a b, rs = l1 ++ l2 -> In a l1 -> In b l2 -> a <= b) ->
  stage (combine (map name rs) outs) f d ->
  In i rs -> i < j -> d (name j) <> f (name j) ->
  exists c, In (name i, c) (combine (map name rs) outs) /\ d (name i) = Some (archive_tlwe N1 c).
Proof.
  intros INJ HL SO (l1 & l2 & EL & H) Hi Hij Hd.
  assert (SP : exists rs1 rs2, rs = rs1 ++ rs2 /\ map fst l1 = map name rs1 /\ map fst l2 = map name rs2).
  { exists (firstn (length l1) rs), (skipn (length l1) rs). split; [symmetry; apply firstn_skipn|].
    assert (K : map fst (combine (map name rs) outs) = map name rs).
    { clear - HL. revert outs HL. induction rs as [|x rs IH]; intros [|y outs] HL; cbn in *; try discriminate; auto. f_equal. apply IH. lia. }
    rewrite EL, map_app in K. split.
    - rewrite <- firstn_map, <- K, firstn_app, map_length, Nat.sub_diag. cbn [firstn]. rewrite app_nil_r.
      rewrite firstn_all2; [reflexivity|rewrite map_length; lia].
    - rewrite <- skipn_map, <- K, skipn_app, map_length, Nat.sub_diag. cbn [skipn].
      rewrite skipn_all2; [reflexivity|rewrite map_length; lia]. }
  destruct SP as (rs1 & rs2 & ER & M1 & M2).
  (* the touched file is one of those, or the one being written *)
  assert (TJ : In j rs1 \/ exists rs3, rs2 = j :: rs3).
  { destruct (in_dec Nat.eq_dec j rs1) as [|NJ]; [auto|]. right.
    assert (X : writes T l1 f (name j) = f (name j)).
    { destruct (writes_get l1 f (name j)) as [[_ E]|(c & I & _)]; [exact E|]. exfalso. apply NJ.
      apply (in_map fst) in I. cbn [fst] in I. rewrite M1 in I. apply in_map_iff in I as (j' & E & I). apply INJ in E. congruence. }
    destruct H as [H|(p & c & l3 & k & -> & H)].
    - exfalso. apply Hd. rewrite H. exact X.
    - destruct rs2 as [|h rs3]; [discriminate|]. cbn [map fst] in M2. injection M2 as M2 M3.
      destruct (Nat.eq_dec j h) as [->|N]; [eauto|]. exfalso. apply Hd. rewrite H, write_other; [exact X|].
      rewrite M2. intros E. apply INJ in E. auto. }
  assert (RI : In i rs1).
  { rewrite ER in Hi. apply in_app_iff in Hi as [|Hi]; [auto|]. exfalso. destruct TJ as [TJ|(rs3 & ->)].
    - pose proof (SO rs1 rs2 j i ER TJ Hi). lia.
    - destruct Hi as [->|Hi]; [lia|].
      pose proof (SO (rs1 ++ [j]) rs3 j i) as X. rewrite <- app_assoc in X. specialize (X ER).
      rewrite in_app_iff in X. specialize (X (or_intror (or_introl eq_refl)) Hi). lia. }
  destruct (writes_get l1 f (name i)) as [[NI _]|(c & IC & EC)].
  { exfalso. apply NI. rewrite M1. apply in_map. exact RI. }
  exists c. split; [rewrite EL; apply in_or_app; auto|].
  destruct H as [H|(p & c' & l3 & k & -> & H)]; rewrite H; [exact EC|].
  rewrite write_other; [exact EC|]. destruct rs2 as [|h rs3]; [discriminate|]. cbn [map fst] in M2. injection M2 as M2 M3.
  rewrite M2. intros E. apply INJ in E. subst h. destruct TJ as [TJ|(rs4 & TJ)].
  - pose proof (SO rs1 (i :: rs3) j i ER TJ (or_introl eq_refl)). lia.
  - injection TJ as -> _. lia.
Qed.

(** * From a stage to what dec says *)
Lemma do_dec_short d skey p b bytes : d skey = Some b -> c_read_skey T Y b = true ->
  d p = Some bytes -> length bytes < 1 + 4 * (N1 + 1) -> do_dec T Y d skey p = Fail FExit.
Proof.
  intros H1 H2 H3 H4. unfold do_dec, read_skey, open_file. rewrite H1. cbn [bind]. rewrite H2. cbn [bind].
  rewrite H3. cbn [bind]. rewrite read_tlwe_short by exact H4. reflexivity.
Qed.
Lemma do_dec_part d skey p b c k : d skey = Some b -> c_read_skey T Y b = true ->
  d p = Some (firstn k (archive_tlwe N1 c)) ->
  do_dec T Y d skey p = Fail FExit \/ do_dec T Y d skey p = Ok (answer (decrypt_TLWELvl1_to_bit N1 c s1)).
Proof.
  intros H1 H2 H3. destruct (Nat.ltb_spec k (1 + 4 * (N1 + 1))) as [L|L].
  - left. eapply do_dec_short; eauto. rewrite firstn_length. lia.
  - right. rewrite firstn_all2 in H3 by (rewrite archive_length; lia). apply (do_dec_ok T Y s1 bit YO) with (b := b); auto.
Qed.

(** * The states a command can leave *)
Lemma run_left_stage L c f f' coin bits :
  f (cmd_input c) = Some (enc_output T Y coin bits) ->
  (Z.of_nat (length bits * (words * 8)) < 2 ^ 64)%Z ->
  always (stage L f) f (cmd_body c) (delivery (cmd_kind c) (map (c_save T Y) (encs T Y coin bits))) ->
  run_left T Y (Ok c) f f' -> stage L f f'.
Proof.
  intros H1 H2 A [H|(c0 & bytes & junk & s & x & [= <-] & HB & HJ & EO & M)].
  - exists [], L. split; [reflexivity|]. left. exact H.
  - rewrite H1 in HB. injection HB as <-. rewrite enc_output_file in EO.
    assert (HL : (Z.of_nat (length (map (c_save T Y) (encs T Y coin bits)) * block_size words) < two64)%Z)
      by (rewrite map_length, encs_length; exact H2).
    eapply (stream_always (cmd_kind c) words (map (c_save T Y) (encs T Y coin bits)) (y_words _ _ _ _ YO)
              (y_block _ _ _ _ YO) (encs_ctxt T Y s1 bit YO coin bits) HL); eauto.
Qed.
Lemma can_run_left P c f coin bits :
  f (cmd_input c) = Some (enc_output T Y coin bits) ->
  (Z.of_nat (length bits * (words * 8)) < 2 ^ 64)%Z ->
  can P f (cmd_body c) (delivery (cmd_kind c) (map (c_save T Y) (encs T Y coin bits))) ->
  exists f', run_left T Y (Ok c) f f' /\ P f'.
Proof.
  intros H1 H2 A.
  assert (HL : (Z.of_nat (length (map (c_save T Y) (encs T Y coin bits)) * block_size words) < two64)%Z)
    by (rewrite map_length, encs_length; exact H2).
  destruct (stream_can (cmd_kind c) words (map (c_save T Y) (encs T Y coin bits)) (y_words _ _ _ _ YO)
              (y_block _ _ _ _ YO) (encs_ctxt T Y s1 bit YO coin bits) HL P (cmd_body c) f (repeat 0%N words) (repeat_length _ _) A)
    as (s & x & d' & EO & M & PD).
  exists d'. split; [|exact PD]. right. exists c, (enc_output T Y coin bits), (repeat 0%N words), s, x.
  rewrite enc_output_file in *. split; [reflexivity|]. split; [exact H1|]. split; [apply repeat_length|]. split; [exact EO|exact M].
Qed.
End Crash.
