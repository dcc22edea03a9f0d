(** Proofs about the commands. *)
From Coq Require Import List Arith Bool NArith ZArith Ascii Lia.
Import ListNotations.
From Verif Require Import Base BaseFacts GraphModel Spec GraphFacts TextModel TextSpec TextFacts TextClaims BitsModel BitsFacts TorusModel TfheSpec
  RunnerModel RunnerSpec RunnerFacts LookupFacts PropsRunner ParModel ParFacts SchedFacts StreamModel InputSpec StreamFacts PropsInput
  ClientModel ClientFacts CmdModel CmdSpec.

(** * Files *)
Lemma path_eqb_iff p q : path_eqb p q = true <-> p = q.
Proof. unfold path_eqb. destruct (list_eq_dec ascii_dec p q); split; congruence. Qed.
Lemma path_eqb_refl p : path_eqb p p = true.
Proof. apply path_eqb_iff. reflexivity. Qed.
Lemma path_eqb_neq p q : p <> q -> path_eqb p q = false.
Proof. intros H. destruct (path_eqb p q) eqn:E; auto. apply path_eqb_iff in E. contradiction. Qed.
Lemma write_same f p b : write f p b p = Some b.
Proof. unfold write. rewrite path_eqb_refl. reflexivity. Qed.
Lemma write_other f p b q : q <> p -> write f p b q = f q.
Proof. intros H. unfold write. rewrite path_eqb_neq; auto. Qed.

Lemma concat_paths_inj d a b : (forall c r, a = c :: r -> c <> c_slash) -> (forall c r, b = c :: r -> c <> c_slash) ->
  a <> [] -> b <> [] -> concat_paths d a = concat_paths d b -> a = b.
Proof.
  intros Ha Hb Na Nb. destruct a as [|x a]; [congruence|]. destruct b as [|y b]; [congruence|].
  unfold concat_paths.
  destruct (Ascii.eqb_spec x c_slash) as [E|_]; [exfalso; eapply Ha; eauto|].
  destruct (Ascii.eqb_spec y c_slash) as [E|_]; [exfalso; eapply Hb; eauto|].
  destruct (rev d) as [|l r]; auto. destruct (Ascii.eqb l c_slash).
  - apply app_inv_head.
  - intros H. apply app_inv_head in H. congruence.
Qed.
Lemma last_rev {A} (d : list A) x l r : rev d = l :: r -> last d x = l.
Proof. intros H. apply (f_equal (@rev A)) in H. rewrite rev_involutive in H. subst. cbn [rev]. apply last_last. Qed.
Lemma report_path d j : concat_paths d (out_name j) = report_file d j.
Proof.
  unfold concat_paths, report_file, out_name. pose proof (show_nat_digits j) as D. pose proof (show_nat_ne j).
  destruct (show_nat j) as [|x s]; [congruence|]. cbn [app].
  destruct (Ascii.eqb_spec x c_slash) as [->|_].
  { inversion D as [|? ? DX _]; subst. unfold Digit, c_slash in DX. cbn in DX. intuition discriminate. }
  destruct (list_eq_dec ascii_dec d []) as [->|N]; [reflexivity|].
  destruct (rev d) as [|l r] eqn:R; [apply (f_equal (@rev _)) in R; rewrite rev_involutive in R; contradiction|].
  rewrite (last_rev d _ l r R). unfold c_slash. destruct (Ascii.eqb_spec l "/"%char); destruct (ascii_dec l "/"%char); congruence || reflexivity.
Qed.
Lemma report_file_inj d i j : report_file d i = report_file d j -> i = j.
Proof.
  rewrite <- !report_path. unfold out_name. intros H. apply concat_paths_inj in H.
  - apply app_inv_tail in H. apply (f_equal digits_val) in H. rewrite !show_nat_val in H. lia.
  - intros c r E. pose proof (show_nat_digits i) as D. pose proof (show_nat_ne i). destruct (show_nat i) as [|x s]; [congruence|].
    injection E as -> _. inversion D as [|? ? DX _]; subst. intros ->. unfold Digit, c_slash in DX. cbn in DX. intuition discriminate.
  - intros c r E. pose proof (show_nat_digits j) as D. pose proof (show_nat_ne j). destruct (show_nat j) as [|x s]; [congruence|].
    injection E as -> _. inversion D as [|? ? DX _]; subst. intros ->. unfold Digit, c_slash in DX. cbn in DX. intuition discriminate.
  - destruct (show_nat i); discriminate.
  - destruct (show_nat j); discriminate.
Qed.

(** * Archives of a TLWE ciphertext *)
Lemma read_words_archive (c : list Z) l rest :
  read_words (length l) false (concat (map (fun i => le_bytes 4 (Z.to_N (cf c i))) l) ++ rest) = Ok (map (cf c) l).
Proof.
  revert rest; induction l as [|i l IH]; intros rest; [reflexivity|].
  cbn [length read_words map concat]. rewrite <- app_assoc.
  rewrite app_length, le_bytes_length.
  destruct (Nat.ltb_spec (4 + length (concat (map (fun i => le_bytes 4 (Z.to_N (cf c i))) l) ++ rest)) 4); [lia|].
  rewrite skipn_app, firstn_app, le_bytes_length, Nat.sub_diag.
  rewrite (skipn_all2 (le_bytes 4 _)) by (rewrite le_bytes_length; lia).
  rewrite (firstn_all2 (le_bytes 4 _)) by (rewrite le_bytes_length; lia).
  cbn [skipn firstn app]. rewrite IH. cbn [bind]. rewrite app_nil_r.
  assert (B : (0 <= cf c i < 4294967296)%Z) by (unfold cf, w32; apply Z.mod_pos_bound; reflexivity).
  rewrite of_le_bytes.
  - rewrite Z2N.id by lia. reflexivity.
  - change (256 ^ N.of_nat 4)%N with 4294967296%N. lia.
Qed.
Lemma read_archive n c rest : read_tlwe n (archive_tlwe n c ++ rest) = Ok (map (cf c) (seq 0 (S n))).
Proof.
  unfold archive_tlwe. cbn [app read_tlwe]. change (1 =? 1)%N with true. cbn [negb].
  pose proof (read_words_archive c (seq 0 (S n)) rest) as H. rewrite seq_length in H. exact H.
Qed.
Lemma w32_w32 x : w32 (w32 x) = w32 x.
Proof. unfold w32. apply Z.mod_mod. discriminate. Qed.
Lemma cf_map c n i : (i <= n)%nat -> cf (map (cf c) (seq 0 (S n))) i = cf c i.
Proof.
  intros H. unfold cf at 1. rewrite (nth_indep _ 0%Z (cf c 0)) by (rewrite map_length, seq_length; lia).
  rewrite map_nth. rewrite seq_nth by lia. cbn [Nat.add]. unfold cf. apply w32_w32.
Qed.

Lemma fold_left_ext {A B} (f g : A -> B -> A) l : (forall a x, In x l -> f a x = g a x) -> forall a, fold_left f l a = fold_left g l a.
Proof.
  induction l as [|x l IH]; intros H a; cbn; auto. rewrite H by (cbn; auto). apply IH. intros; apply H; cbn; auto.
Qed.
Lemma decrypt_archive n c key :
  decrypt_TLWELvl1_to_bit n (map (cf c) (seq 0 (S n))) key = decrypt_TLWELvl1_to_bit n c key.
Proof.
  unfold decrypt_TLWELvl1_to_bit, phase_of_TLWE. rewrite cf_map by lia.
  rewrite (fold_left_ext _ (fun phase i => w32 (phase - cf c i * cf key i))); auto.
  intros a x H. apply in_seq in H. rewrite cf_map by lia. reflexivity.
Qed.

(** * Certain outcomes *)
Lemma sure_any {R X} (o : outcomes X) (k : X -> client R) a rem r :
  (forall x, o x <-> x = Ok a) -> sure (k a) rem r -> sure (PAny o k) rem r.
Proof.
  intros H S. cbn [sure]. split; [exists (Ok a); apply H; auto|]. intros x Hx. apply H in Hx as ->. exact S.
Qed.
Lemma sure_any_fail {R X} (o : outcomes X) (k : X -> client R) e rem :
  (forall x, o x <-> x = Fail e) -> sure (PAny o k) rem (Fail e).
Proof.
  intros H. cbn [sure]. split; [exists (Fail e); apply H; auto|]. intros x Hx. apply H in Hx as ->. reflexivity.
Qed.
Lemma sure_det {R X} (m : res X) (k : X -> client R) a rem r :
  m = Ok a -> sure (k a) rem r -> sure (pdet m k) rem r.
Proof. intros -> S. apply (sure_any _ _ a); auto. intros x. reflexivity. Qed.
Lemma sure_det_fail {R X} (m : res X) (k : X -> client R) e rem :
  m = Fail e -> sure (pdet m k) rem (Fail e).
Proof. intros ->. apply sure_any_fail. intros x. reflexivity. Qed.

Section Cmd.
Context (T : tfhe) (Y : crypto T) (s1 : list Z) (bit : trgsw T -> bool -> Prop).
Hypothesis YO : crypto_ok T Y s1 bit.
Notation words := (c_words T Y).
Notation N1 := (t_n1 T).

(** * enc *)
Fixpoint encs (coin : nat) (bits : list bool) : list (trgsw T) :=
  match bits with [] => [] | b :: r => c_enc T Y coin b :: encs (S coin) r end.
Lemma encs_length coin bits : length (encs coin bits) = length bits.
Proof. revert coin; induction bits; intros; cbn; auto. Qed.
Lemma encs_bits coin bits : Forall2 bit (encs coin bits) bits.
Proof. revert coin; induction bits; intros; cbn; constructor; auto. apply (y_bit _ _ _ _ YO). Qed.
Lemma encs_ctxt coin bits : Forall (is_ctxt words) (map (c_save T Y) (encs coin bits)).
Proof. revert coin; induction bits; intros; cbn; constructor; auto. apply (y_ctxt _ _ _ _ YO). Qed.
Lemma encs_load coin bits : map (c_load T Y) (map (c_save T Y) (encs coin bits)) = encs coin bits.
Proof. revert coin; induction bits; intros; cbn; f_equal; auto. apply (y_round _ _ _ _ YO). Qed.
Definition ct_file (coin : nat) (bits : list bool) : list N :=
  concat (map save (map (c_save T Y) (encs coin bits))).

Lemma enc_fold bits : forall coin acc,
  foldM (fun '(coin, bytes) b => Ok (S coin, bytes ++ save (c_save T Y (c_enc T Y coin b)))) bits (coin, acc)
  = Ok (coin + length bits, acc ++ ct_file coin bits).
Proof.
  unfold ct_file. induction bits as [|b bits IH]; intros coin acc; cbn [foldM encs map concat length].
  - rewrite app_nil_r, Nat.add_0_r. reflexivity.
  - cbn [bind]. rewrite IH. rewrite <- app_assoc, Nat.add_succ_comm. reflexivity.
Qed.

(** The bits of an input file, and what the two readers of input files do with them. *)
Lemma input_bits ap bytes : 0 < ap -> length bytes mod ((ap + 7) / 8) = 0 ->
  exists bits, length bits = nbits ap bytes /\
    forall S (func : S -> bool -> res S) s, each_input_bit bytes ap func s = foldM func bits s.
Proof.
  intros H0 HM. destruct (C21_truncated_input ap bytes H0) as (bits & H1 & H2 & _).
  exists bits. split.
  - rewrite H2, HM. unfold nbits. lia.
  - intros. rewrite H1, HM. cbn [Nat.eqb]. destruct (foldM func bits s); reflexivity.
Qed.
Lemma input_bits_fail ap bytes : 0 < ap -> length bytes mod ((ap + 7) / 8) <> 0 ->
  forall S (func : S -> bool -> res S) s v, each_input_bit bytes ap func s <> Ok v.
Proof.
  intros H0 HM S func s v. destruct (C21_truncated_input ap bytes H0) as (bits & H1 & _). rewrite H1.
  apply Nat.eqb_neq in HM. rewrite HM. destruct (foldM func bits s); discriminate.
Qed.

Lemma do_enc_ok f skey input output ap coin b bytes bits :
  f skey = Some b -> c_read_skey T Y b = true -> input <> output -> f input = Some bytes ->
  (forall S (func : S -> bool -> res S) s, each_input_bit bytes ap func s = foldM func bits s) ->
  do_enc T Y f skey input output ap coin = Ok (write (write f output []) output (ct_file coin bits)).
Proof.
  intros H1 H2 H3 H4 H5. unfold do_enc, read_skey, open_file. rewrite H1. cbn [bind]. rewrite H2. cbn [bind].
  rewrite write_other by auto. rewrite H4. cbn [bind]. rewrite H5, enc_fold. reflexivity.
Qed.

Lemma do_dec_ok f skey input b c :
  f skey = Some b -> c_read_skey T Y b = true -> f input = Some (archive_tlwe N1 c) ->
  do_dec T Y f skey input = Ok (answer (decrypt_TLWELvl1_to_bit N1 c s1)).
Proof.
  intros H1 H2 H3. unfold do_dec, read_skey, open_file. rewrite H1. cbn [bind]. rewrite H2. cbn [bind].
  rewrite H3. cbn [bind]. rewrite <- (app_nil_r (archive_tlwe N1 c)), read_archive. cbn [bind].
  rewrite decrypt_archive, (y_key _ _ _ _ YO). reflexivity.
Qed.

(** * Commands that read a stream *)
Lemma run_ends_ok c f r coin bits :
  f (cmd_input c) = Some (ct_file coin bits) ->
  (Z.of_nat (length bits * (words * 8)) < 2 ^ 64)%Z ->
  sure (cmd_body c) (delivery (cmd_kind c) (map (c_save T Y) (encs coin bits))) r ->
  run_ends T Y (Ok c) f r.
Proof.
  intros H1 H2 H3. cbn [run_ends]. rewrite H1. intros junk HJ.
  assert (HL : (Z.of_nat (length (map (c_save T Y) (encs coin bits)) * block_size words) < two64)%Z)
    by (rewrite map_length, encs_length; exact H2).
  destruct (stream_client (cmd_kind c) words (map (c_save T Y) (encs coin bits)) (y_words _ _ _ _ YO)
              (y_block _ _ _ _ YO) (encs_ctxt coin bits) HL (cmd_body c) r junk HJ H3) as (s & E & EW).
  fold (ct_file coin bits) in E. rewrite E. exact EW.
Qed.

Lemma offline_loop_sure rem : forall s s' finish r,
  foldM (offline_eval_one T) (map (c_load T Y) rem) s = Ok s' ->
  sure (finish s') [] r -> sure (offline_loop T Y (length rem) s finish) rem r.
Proof.
  induction rem as [|c rem IH]; intros s s' finish r; cbn [map foldM length offline_loop].
  - intros [= ->] S. exact S.
  - intros E S. apply bind_ok in E as (t & E1 & E2). cbn [sure].
    apply (sure_any _ _ t); [apply backstream_any_exact; exact E1|]. eapply IH; eauto.
Qed.

Section Loop.
Context {St : Type} (feed : St -> trgsw T -> outcomes St) (ask : St -> outcomes (list Z * St))
        (feedD : St -> trgsw T -> res St) (askD : St -> res (list Z * St)).
Hypothesis HFeed : forall s c, exact (feed s c) (feedD s c).
Hypothesis HAsk : forall s, exact (ask s) (askD s).
Context (input : text) (dir : option text) (freq : nat).

Definition freq_of : option nat := match dir with Some _ => Some freq | None => None end.
Definition dir_path (j : nat) : text := match dir with Some d => report_file d j | None => [] end.

Definition writes (l : list (text * list Z)) (f : fs) : fs :=
  fold_left (fun f pc => write f (fst pc) (archive_tlwe N1 (snd pc))) l f.

Lemma reports_cons i n : reports freq_of i (S n) =
  (match freq_of with Some k => if S i mod k =? 0 then [S i] else [] | None => [] end) ++ reports freq_of (S i) n.
Proof.
  unfold reports. replace (i + S n) with (S i + n) by lia. destruct freq_of as [k|]; auto.
  cbn [seq filter]. destruct (S i mod k =? 0); reflexivity.
Qed.

Lemma mod_step i : 0 < freq -> (i mod freq =? freq - 1) = (S i mod freq =? 0).
Proof.
  intros H. pose proof (Nat.div_mod i freq) as D. pose proof (Nat.mod_upper_bound i freq) as U.
  destruct (Nat.eqb_spec (i mod freq) (freq - 1)) as [E|E]; symmetry.
  - apply Nat.eqb_eq. replace (S i) with ((1 + i / freq) * freq) by nia. apply Nat.mod_mul. lia.
  - apply Nat.eqb_neq. assert (S i mod freq = S (i mod freq)); [|lia].
    symmetry. apply (Nat.mod_unique (S i) freq (i / freq)); lia.
Qed.

(** the last name is the one the caller chose *)
Lemma monitor_loop_sure rem : forall i s f finish outs s' r,
  (forall d, dir = Some d -> 0 < freq) ->
  (forall j, i < j <= i + length rem -> dir <> None -> dir_path j <> input) ->
  play feedD askD (asked freq_of i (map (c_load T Y) rem)) s = Ok (outs, s') ->
  (forall t c t' l, askD t = Ok (c, t') -> outs = l ++ [c] ->
     let f' := writes (combine (map dir_path (reports freq_of i (length rem))) l) f in
     sure (finish t f') [] (r c f')) ->
  exists l c, outs = l ++ [c] /\ length outs = length (reports freq_of i (length rem)) /\
    sure (monitor_loop T Y feed ask input dir freq finish (length rem) i s f) rem
         (r c (writes (combine (map dir_path (reports freq_of i (length rem))) l) f)).
Proof.
  induction rem as [|c rem IH]; intros i s f finish outs s' r HD HN HP HF.
  - cbn [map asked play] in HP. apply bind_ok in HP as ([c t] & EA & HP). cbn in HP. injection HP as <- <-.
    exists [], c. split; [reflexivity|]. split.
    + unfold reports. cbn [seq length]. destruct freq_of; reflexivity.
    + cbn [monitor_loop length sure Nat.eqb].
      specialize (HF s c t [] EA eq_refl). cbv zeta in HF.
      assert (X : forall ps : list text, combine ps (@nil (list Z)) = []) by (destruct ps; reflexivity).
      rewrite X in *. exact HF.
  - cbn [map asked play] in HP. apply bind_ok in HP as (t & EF & HP).
    cbn [length monitor_loop sure Nat.eqb]. cbn [length] in HF. rewrite reports_cons in HF. rewrite reports_cons. unfold freq_of in *.
    destruct dir as [d|] eqn:Ed.
    + pose proof (HD d eq_refl) as HD0. rewrite (mod_step i HD0).
      destruct (Nat.eqb_spec freq 0) as [|_]; [lia|].
      destruct (S i mod freq =? 0) eqn:EM.
      * cbn [play] in HP. apply bind_ok in HP as ([c1 t1] & EA & HP). apply bind_ok in HP as ([outs1 t2] & HP & HQ).
        injection HQ as <- <-.
        specialize (IH (S i) t1 (write f (dir_path (S i)) (archive_tlwe N1 c1)) finish outs1 t2 r).
        destruct IH as (l & c0 & E1 & E2 & SU); auto.
        { intros j Hj. apply HN. cbn [length]. lia. }
        { intros u cu u' l EU EO. specialize (HF u cu u' (c1 :: l) EU). cbn [app map combine] in HF.
          subst outs1. specialize (HF eq_refl). cbv zeta in HF. exact HF. }
        exists (c1 :: l), c0. split; [rewrite E1; reflexivity|]. split; [cbn [app length]; rewrite E2; reflexivity|].
        apply (sure_any _ _ t); [apply HFeed; exact EF|]. apply (sure_any _ _ (c1, t1)); [apply HAsk; exact EA|].
        replace (i + 1) with (S i) by lia. rewrite report_path.
        assert (DP : report_file d (S i) = dir_path (S i)) by (unfold dir_path; rewrite Ed; reflexivity). rewrite DP.
        rewrite path_eqb_neq.
        2:{ apply (HN (S i)); [cbn [length]; lia|discriminate]. }
        exact SU.
      * specialize (IH (S i) t f finish outs s' r).
        destruct IH as (l & c0 & E1 & E2 & SU); auto.
        { intros j Hj. apply HN. cbn [length]. lia. }
        exists l, c0. split; auto. split; auto.
        apply (sure_any _ _ t); [apply HFeed; exact EF|]. exact SU.
    + specialize (IH (S i) t f finish outs s' r).
      destruct IH as (l & c0 & E1 & E2 & SU); auto.
      exists l, c0. split; auto. split; auto.
      apply (sure_any _ _ t); [apply HFeed; exact EF|]. exact SU.
Qed.

Lemma to_file rem n s f o outs s' : dir = None -> length rem = n ->
  play feedD askD (asked None 0 (map (c_load T Y) rem)) s = Ok (outs, s') ->
  exists c, outs = [c] /\
    sure (monitor_loop T Y feed ask input dir freq (last_output T ask (Some o) dir n) n 0 s f) rem
         (Ok (write f o (archive_tlwe N1 c))).
Proof.
  intros Ed <- HP. assert (FO : freq_of = None) by (unfold freq_of; rewrite Ed; reflexivity).
  destruct (monitor_loop_sure rem 0 s f (last_output T ask (Some o) dir (length rem)) outs s'
              (fun c f' => Ok (write f' o (archive_tlwe N1 c)))) as (l & c & E1 & E2 & SU).
  - intros d E. congruence.
  - intros j _ N. congruence.
  - rewrite FO. exact HP.
  - intros t c t' l EA EO f'. unfold last_output. apply (sure_any _ _ (c, t')); [apply HAsk; exact EA|]. reflexivity.
  - rewrite FO in *. unfold reports in *. cbn [app length] in E2. rewrite E1, app_length in E2. cbn [length] in E2.
    destruct l; [|cbn in E2; lia]. exists c. split; [exact E1|]. exact SU.
Qed.

Lemma writes_app l1 l2 f : writes (l1 ++ l2) f = writes l2 (writes l1 f).
Proof. unfold writes. apply fold_left_app. Qed.
Lemma combine_snoc {A B} (l1 : list A) (l2 : list B) a b : length l1 = length l2 ->
  combine (l1 ++ [a]) (l2 ++ [b]) = combine l1 l2 ++ [(a, b)].
Proof. revert l2; induction l1; intros [|]; cbn; intros; try discriminate; auto. f_equal. auto. Qed.
Lemma combine_firstn_snoc {A B} (l1 : list A) (l2 : list B) a : length l1 = length l2 ->
  combine (l1 ++ [a]) l2 = combine l1 l2.
Proof. revert l2; induction l1; intros [|]; cbn; intros; try discriminate; auto. f_equal. auto. Qed.

Lemma to_dir rem n s f d outs s' : dir = Some d -> 0 < freq -> length rem = n ->
  (forall j, 0 < j <= n -> report_file d j <> input) ->
  play feedD askD (asked (Some freq) 0 (map (c_load T Y) rem)) s = Ok (outs, s') ->
  length outs = length (reports (Some freq) 0 n) /\
  sure (monitor_loop T Y feed ask input dir freq (last_output T ask None dir n) n 0 s f) rem
       (Ok (writes (combine (map (report_file d) (reports (Some freq) 0 n)) outs) f)).
Proof.
  intros Ed HF0 <- HN HP. assert (FO : freq_of = Some freq) by (unfold freq_of; rewrite Ed; reflexivity).
  assert (DP : forall j, dir_path j = report_file d j) by (intros; unfold dir_path; rewrite Ed; reflexivity).
  destruct (monitor_loop_sure rem 0 s f (last_output T ask None dir (length rem)) outs s'
              (fun c f' => Ok (write f' (report_file d (length rem)) (archive_tlwe N1 c)))) as (l & c & E1 & E2 & SU).
  - auto.
  - intros j Hj _. rewrite DP. apply HN. lia.
  - rewrite FO. exact HP.
  - intros t c t' l EA EO f'. unfold last_output. apply (sure_any _ _ (c, t')); [apply HAsk; exact EA|].
    rewrite Ed, report_path. reflexivity.
  - rewrite FO in *. split; [exact E2|]. rewrite (map_ext _ _ DP) in SU.
    unfold reports in *. cbn [Nat.add] in *. rewrite map_app in *. cbn [map] in *.
    rewrite E1, !app_length in E2. cbn [length] in E2.
    rewrite combine_firstn_snoc in SU by (rewrite map_length; lia).
    rewrite E1, combine_snoc by (rewrite map_length; lia). rewrite writes_app. exact SU.
Qed.
End Loop.

(** What is in the files after a series of writes. *)
Lemma writes_lookup l : forall f p,
  (~ In p (map fst l) /\ writes l f p = f p) \/
  (exists c, In (p, c) l /\ writes l f p = Some (archive_tlwe N1 c)).
Proof.
  induction l as [|[q c] l IH]; intros f p; [left; split; [intros []|reflexivity]|].
  cbn [writes fold_left fst snd map]. fold (writes l (write f q (archive_tlwe N1 c))).
  destruct (IH (write f q (archive_tlwe N1 c)) p) as [[N E]|(c' & I & E)].
  - rewrite E. destruct (list_eq_dec ascii_dec p q) as [->|D].
    + right. exists c. split; [cbn; auto|]. apply write_same.
    + left. split; [intros [->|H]; auto|]. apply write_other. exact D.
  - right. exists c'. split; [cbn; auto|exact E].
Qed.

Lemma verdicts_asked g freq w : forall pre,
  verdicts g pre (asked freq (length pre) w) =
  map (fun k => accepts g (firstn k (pre ++ w))) (reports freq (length pre) (length w)).
Proof.
  induction w as [|b w IH]; intros pre.
  - cbn [asked verdicts length]. unfold reports. rewrite app_nil_r. cbn [seq filter].
    assert (X : map (fun k => accepts g (firstn k pre)) [length pre + 0] = [accepts g pre]).
    { cbn [map]. rewrite Nat.add_0_r, firstn_all. reflexivity. }
    destruct freq; cbn [app]; rewrite X; reflexivity.
  - cbn [asked verdicts length].
    specialize (IH (pre ++ [b])). rewrite app_length in IH. cbn [length] in IH. rewrite Nat.add_1_r in IH.
    rewrite <- app_assoc in IH. cbn [app] in IH.
    unfold reports in *. rewrite Nat.add_succ_r. rewrite Nat.add_succ_l in IH.
    destruct freq as [k|]; [|exact IH].
    cbn [seq filter]. destruct (S (length pre) mod k =? 0); [|exact IH].
    cbn [verdicts app map]. rewrite IH. f_equal. f_equal.
    rewrite firstn_app. rewrite firstn_all2 by lia. replace (S (length pre) - length pre) with 1 by lia. reflexivity.
Qed.
Lemma asked_encrypts freq coin w : forall i, encrypts bit (asked freq i (encs coin w)) (asked freq i w).
Proof.
  unfold encrypts. revert coin. induction w as [|b w IH]; intros coin i; cbn [encs asked].
  - repeat constructor.
  - constructor; [constructor; apply (y_bit _ _ _ _ YO)|].
    destruct freq as [k|]; [|apply IH]. destruct (S i mod k =? 0); [constructor; [constructor|]|]; apply IH.
Qed.
Lemma flushes_shape {A B} freq (l : list A) : forall (l' : list B) q n p i, length l = length l' ->
  flushes q n p (asked freq i l) = flushes q n p (asked freq i l').
Proof.
  induction l as [|a l IH]; intros [|a' l'] q n p i E; try discriminate; [reflexivity|].
  injection E as E. cbn [asked flushes]. destruct freq as [k|].
  - destruct (S i mod k =? 0); cbn [flushes]; destruct (S p <? q); cbn [Nat.eqb]; rewrite (IH l'); auto.
  - destruct (S p <? q); rewrite (IH l'); auto.
Qed.
End Cmd.

(** * The plain run *)
Lemma is_final_state_size g q b : is_final_state g q = Ok b -> g_finalvec g <> [].
Proof. unfold is_final_state. destruct (g_finalvec g); [destruct q; discriminate|discriminate]. Qed.
Lemma from_istream_wf t g : from_istream t = Ok g -> g_finalvec g <> [] -> wf_graph g.
Proof.
  intros E HN. apply (from_istream_build t _ g (lines_of_getlines t)) in E as (rows & HR & HB).
  destruct rows as [|r rows]; [|apply (build_language (r :: rows)); [discriminate|exact HB]].
  exfalso. vm_compute in HB. injection HB as <-. apply HN. reflexivity.
Qed.
Lemma plain_facts f spec input ap bytes printed : 0 < ap -> f input = Some bytes ->
  run_plain f spec input ap = Ok printed ->
  exists g bits v, from_file f spec = Ok g /\ wf_graph g /\ length bits = nbits ap bytes /\
    (forall S (func : S -> bool -> res S) s, each_input_bit bytes ap func s = foldM func bits s) /\
    accepts g bits = Ok v /\ printed = answer v.
Proof.
  intros H0 HI. unfold run_plain. intros E. apply bind_ok in E as (g & EG & E).
  unfold open_file in E. rewrite HI in E. cbn [bind] in E. apply bind_ok in E as (q & EQ & E).
  apply bind_ok in E as (v & EV & [= <-]).
  destruct (Nat.eq_dec (length bytes mod ((ap + 7) / 8)) 0) as [M|M].
  2:{ exfalso. eapply input_bits_fail; eauto. }
  destruct (input_bits ap bytes H0 M) as (bits & HL & HB). rewrite HB in EQ.
  exists g, bits, v. split; [exact EG|]. split.
  { unfold from_file in EG. apply bind_ok in EG as (b & _ & EG). eapply from_istream_wf; eauto.
    eapply is_final_state_size; eauto. }
  split; [exact HL|]. split; [exact HB|]. split; [|reflexivity].
  unfold accepts, run_from. rewrite EQ. exact EV.
Qed.
