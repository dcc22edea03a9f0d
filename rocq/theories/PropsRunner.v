(** C30-C34, C38-C40, C46: what the encrypted runners compute.  T is any implementation of the
    TFHEpp functions meeting the contract [tfhe_ok] (TfheSpec.v); where only failures are claimed,
    any T at all. *)
From Coq Require Import List Arith Bool NArith ZArith Lia.
Import ListNotations.
From Verif Require Import Base BaseFacts GraphModel Spec GraphFacts GraphOps Minimize Quotient TorusModel TfheSpec TfheFacts
  RunnerModel RunnerSpec RunnerFacts LookupFacts ReachFacts FlutFacts BlockFacts.

Lemma Forall2_rev : forall {A B} (R : A -> B -> Prop) l l', Forall2 R l l' -> Forall2 R (rev l) (rev l').
Proof. induction 1; cbn; [constructor|]. apply Forall2_app; auto. Qed.

(** ** C30 *)
(** Offline: create the runner for |w| inputs, feed the ciphertexts last to first, ask. *)
Definition offline_run (T : tfhe) (g : Graph) (interval : nat) (cts : list (trgsw T)) : res tlwe :=
  do r <- offline_new T g (length cts) interval true false;
  do r <- foldM (offline_eval_one T) (rev cts) r;
  offline_result T r.

Theorem C30_offline : forall T s0 s1 bit E, tfhe_ok T s0 s1 bit E -> noise_nonneg E ->
  forall g interval w cts, wf_graph g -> (0 < interval)%nat -> back_margin E interval ->
  (Z.of_nat (length w) < 2 ^ 31)%Z -> Forall2 bit cts w ->
  exists c, offline_run T g interval cts = Ok c /\
    accepts g w = Ok (decrypt_TLWELvl1_to_bit (t_n1 T) c s1).
Proof.
  intros T s0 s1 bit E OK NN g interval w cts W HI HM HL HF. unfold offline_run.
  pose proof (Forall2_len _ _ _ HF) as LF. rewrite LF.
  destruct (offline_new_ok T g (length w) interval W HI HL) as (r & EN & HB & HP & HS & HV & HA & HW). rewrite EN. cbn [bind].
  assert (INV : back_inv T s1 E [] r).
  { apply (back_new_inv T s0 s1 bit E OK NN r (b_graph r)); auto; [apply HB|rewrite HV; exact HM]. }
  destruct (back_inv_feed T s0 s1 bit E OK NN (rev cts) (rev w) [] r) as (r' & EF & INV' & HG & HS').
  - apply Forall2_rev, HF.
  - exact INV.
  - rewrite HS. cbn [length]. rewrite rev_length. lia.
  - unfold offline_eval_one. rewrite EF. cbn [bind]. cbn [app] in INV'.
    destruct (back_result T s0 s1 bit E OK NN _ _ INV') as (c & EC & AC).
    { destruct INV' as (_ & HN & _). unfold valid_after. rewrite HS', HS. right. exists []. split.
      - rewrite HN, rev_length. cbn [length]. lia.
      - reflexivity. }
    exists c. split; [exact EC|]. rewrite rev_involutive, HG, HA in AC. exact AC.
Qed.

(** ** C31 *)
(** Reverse: any history of inputs and questions. *)
Definition reverse_new (T : tfhe) (g : Graph) (interval : nat) (spec_reversed : bool) : res backstream :=
  online2_new T g interval spec_reversed true false.
Definition reverse_ask (T : tfhe) (s : backstream) : res (tlwe * backstream) :=
  do c <- online2_result T s; Ok (c, s).

(** With --spec-reversed the verdict is the given automaton's on the mirrored prefix. *)
Fixpoint mirrored_verdicts (g : Graph) (fed : list bool) (h : list (option bool)) : list (res bool) :=
  match h with
  | [] => []
  | Some b :: h' => mirrored_verdicts g (fed ++ [b]) h'
  | None :: h' => accepts g (rev fed) :: mirrored_verdicts g fed h'
  end.

Lemma back_play : forall T s0 s1 bit E, tfhe_ok T s0 s1 bit E -> noise_nonneg E ->
  forall h hb, encrypts bit h hb -> forall fed s, back_inv T s1 E fed s -> b_input_size s = None ->
  exists outs s', play (online2_eval_one T) (reverse_ask T) h s = Ok (outs, s') /\
    map (fun c => Ok (decrypt_TLWELvl1_to_bit (t_n1 T) c s1)) outs = mirrored_verdicts (b_graph s) fed hb.
Proof.
  intros T s0 s1 bit E OK NN h hb HE. induction HE as [|x y h hb Hxy HE IH]; intros fed s HI HN.
  - cbn. eauto.
  - destruct Hxy as [c b Hc|]; cbn [play mirrored_verdicts].
    + destruct (back_inv_step T s0 s1 bit E OK NN fed s c b HI) as (s' & E' & I' & G' & S' & _); auto.
      { unfold room. rewrite HN. exact I. }
      unfold online2_eval_one at 1. rewrite E'. cbn [bind].
      destruct (IH (fed ++ [b]) s' I') as (outs & s'' & EO & PO); [congruence|].
      rewrite G' in PO. eauto.
    + destruct (back_result T s0 s1 bit E OK NN fed s HI) as (c & EC & AC).
      { unfold valid_after. rewrite HN. apply init_lt, HI. }
      unfold reverse_ask at 1, online2_result. rewrite EC. cbn [bind].
      destruct (IH fed s HI HN) as (outs & s'' & EO & PO). rewrite EO. cbn [bind].
      eexists. exists s''. split; [reflexivity|]. cbn [map]. rewrite PO, AC. reflexivity.
Qed.

Lemma mirrored_ext : forall g g', (forall w, accepts g' (rev w) = accepts g w) -> forall h fed,
  mirrored_verdicts g' fed h = verdicts g fed h.
Proof.
  intros g g' H. induction h as [|[b|] h IH]; intros fed; cbn; [reflexivity|apply IH|].
  rewrite H, IH. reflexivity.
Qed.

Lemma reverse_new_inv : forall T s0 s1 bit E, tfhe_ok T s0 s1 bit E -> noise_nonneg E ->
  forall g interval, wf_graph g -> (0 < interval)%nat -> back_margin E interval ->
  exists s, backstream_new T g interval None true false = Ok s /\ back_inv T s1 E [] s /\ b_input_size s = None /\ b_graph s = g.
Proof.
  intros T s0 s1 bit E OK NN g interval W HI HM.
  destruct (backstream_new_none T interval g W) as (r & EN & HG & HS & HV & HP & LW & LK & _ & HW).
  exists r. split; [exact EN|]. split; [|auto].
  apply (back_new_inv T s0 s1 bit E OK NN r g); auto; [|rewrite HV; auto].
  unfold back_shape. rewrite HG, HS, HV. repeat (split; [solve [auto]|]). exact I.
Qed.

Theorem C31_reverse : forall T s0 s1 bit E, tfhe_ok T s0 s1 bit E -> noise_nonneg E ->
  forall g interval h hb, wf_graph g -> (0 < interval)%nat -> back_margin E interval -> encrypts bit h hb ->
  exists outs s', (do r <- reverse_new T g interval false; play (online2_eval_one T) (reverse_ask T) h r) = Ok (outs, s') /\
    map (fun c => Ok (decrypt_TLWELvl1_to_bit (t_n1 T) c s1)) outs = verdicts g [] hb.
Proof.
  intros T s0 s1 bit E OK NN g interval h hb W HI HM HE. unfold reverse_new, online2_new.
  destruct (reversed_correct g W) as (r & ER & WR & AR & _). rewrite ER. cbn [bind].
  destruct (minimized_correct r WR) as (m & EM & WM & AM & _). rewrite EM. cbn [bind].
  destruct (reverse_new_inv T s0 s1 bit E OK NN m interval WM HI HM) as (s & EN & INV & HS & HG). rewrite EN. cbn [bind].
  destruct (back_play T s0 s1 bit E OK NN h hb HE [] s INV HS) as (outs & s' & EO & PO).
  exists outs, s'. split; [exact EO|]. rewrite PO, HG. apply mirrored_ext.
  intros w. rewrite AM. destruct (AR w) as (b & -> & ->). reflexivity.
Qed.

Theorem C31_spec_reversed : forall T s0 s1 bit E, tfhe_ok T s0 s1 bit E -> noise_nonneg E ->
  forall g interval h hb, wf_graph g -> (0 < interval)%nat -> back_margin E interval -> encrypts bit h hb ->
  exists outs s', (do r <- reverse_new T g interval true; play (online2_eval_one T) (reverse_ask T) h r) = Ok (outs, s') /\
    map (fun c => Ok (decrypt_TLWELvl1_to_bit (t_n1 T) c s1)) outs = mirrored_verdicts g [] hb.
Proof.
  intros T s0 s1 bit E OK NN g interval h hb W HI HM HE. unfold reverse_new, online2_new. cbn [bind].
  destruct (reverse_new_inv T s0 s1 bit E OK NN g interval W HI HM) as (s & EN & INV & HS & HG). rewrite EN. cbn [bind].
  destruct (back_play T s0 s1 bit E OK NN h hb HE [] s INV HS) as (outs & s' & EO & PO).
  exists outs, s'. split; [exact EO|]. rewrite PO, HG. reflexivity.
Qed.

(** ** C32 *)
Theorem C32_block : forall T s0 s1 bit E, tfhe_ok T s0 s1 bit E -> noise_nonneg E ->
  forall g queue_size h hb, wf_graph g -> block_margin g queue_size E ->
  (Nat.log2 (size g) + 1 < t_n1 T)%nat -> (Nat.log2 (size g) + 1 < 31)%nat ->
  encrypts bit h hb -> hd_error hb <> Some None ->
  exists outs s', (do r <- block_new T g queue_size false; play (block_eval_one T) (block_result T) h r) = Ok (outs, s') /\
    map (fun c => Ok (decrypt_TLWELvl1_to_bit (t_n1 T) c s1)) outs = verdicts g [] hb.
Proof.
  intros T s0 s1 bit E OK NN g qs h hb W HM H1 H2 HE HF.
  destruct (block_new_inv T s1 bit E g qs) as (s & EN & INV). rewrite EN. cbn [bind].
  apply (block_play T s0 s1 bit E OK NN g W qs H1 H2 HM h hb HE [] [] s INV).
  - cbn. lia.
  - intros _. destruct hb as [|[b|] hb]; auto.
Qed.
(** Asking before the first input aborts: BLOCK has no answer for the empty prefix. *)
Theorem C32_block_empty_refuted : forall T g queue_size h,
  (do r <- block_new T g queue_size false; play (block_eval_one T) (block_result T) (None :: h) r) = Fail FAssert.
Proof. reflexivity. Qed.

(** ** C33, C34 *)
Theorem C33_flut : forall T s0 s1 bit E, tfhe_ok T s0 s1 bit E -> noise_nonneg E ->
  forall g max_depth queue_size freq h hb, wf_graph g ->
  (0 < queue_size < 31)%nat -> (0 < freq)%nat -> (max_depth < 31)%nat -> (table_fits (t_n1 T) max_depth queue_size g)%nat ->
  flut_margin (size g * 2 ^ (queue_size / 2)) queue_size freq E -> encrypts bit h hb ->
  (forall n k, In n (flushes queue_size 0 0 hb) -> width g n k -> (k < 2 ^ max_depth)%nat) ->
  exists outs s', (do r <- flut_new T g max_depth queue_size freq false;
                   play (flut_eval_one T) (flut_result T) h r) = Ok (outs, s') /\
    map (fun c => Ok (decrypt_TLWELvl1_to_bit (t_n1 T) c s1)) outs = verdicts g [] hb.
Proof.
  intros T s0 s1 bit E OK NN g md qs freq h hb W HQ HF HD HN HM HE HWd.
  destruct (flut_new_inv T s0 s1 bit E OK NN g W md qs freq) as (s & EN & INV); try lia; auto.
  rewrite EN. cbn [bind].
  pose proof (flut_play T s0 s1 bit E OK NN g W md qs freq ltac:(lia) HF HD HN HM ltac:(lia) h hb HE [] [] s INV ltac:(cbn; lia)) as HP.
  destruct (play (flut_eval_one T) (flut_result T) h s) as [[outs s']|f].
  - destruct HP as [HP _]. eauto.
  - destruct HP as (_ & n & k & H1 & H2 & H3). specialize (HWd n k H1 H2). lia.
Qed.

Theorem C34_flut_refuses : forall T s0 s1 bit E, tfhe_ok T s0 s1 bit E -> noise_nonneg E ->
  forall g max_depth queue_size freq h hb, wf_graph g ->
  (0 < queue_size < 31)%nat -> (0 < freq)%nat -> (max_depth < 31)%nat -> (table_fits (t_n1 T) max_depth queue_size g)%nat ->
  flut_margin (size g * 2 ^ (queue_size / 2)) queue_size freq E -> encrypts bit h hb ->
  let run := do r <- flut_new T g max_depth queue_size freq false; play (flut_eval_one T) (flut_result T) h r in
  (run = Fail FExit <-> exists n k, In n (flushes queue_size 0 0 hb) /\ width g n k /\ (2 ^ max_depth <= k)%nat) /\
  ((exists r, run = Ok r) <-> run <> Fail FExit).
Proof.
  intros T s0 s1 bit E OK NN g md qs freq h hb W HQ HF HD HN HM HE. cbv zeta.
  destruct (flut_new_inv T s0 s1 bit E OK NN g W md qs freq) as (s & EN & INV); try lia; auto.
  rewrite EN. cbn [bind].
  pose proof (flut_play T s0 s1 bit E OK NN g W md qs freq ltac:(lia) HF HD HN HM ltac:(lia) h hb HE [] [] s INV ltac:(cbn; lia)) as HP.
  destruct (play (flut_eval_one T) (flut_result T) h s) as [[outs s']|f].
  - destruct HP as [_ HP]. split; split; try discriminate; eauto.
    intros (n & k & H1 & H2 & H3). specialize (HP n k H1 H2). lia.
  - destruct HP as (-> & n & k & H1 & H2 & H3). split; split; eauto.
    + intros [r H]. discriminate.
    + intros H. congruence.
Qed.

(** ** C38 *)
Theorem C38_lookup_table : forall T s0 s1 bit E, tfhe_ok T s0 s1 bit E -> noise_nonneg E ->
  forall cts bs table workspace, Forall2 bit cts bs -> (length bs < 31)%nat -> length table = (2 ^ length bs)%nat ->
  exists table' workspace' w w', lookup_table T table cts workspace = Ok (table', workspace') /\
    (exists index, nth_error table index = Some w /\ (index < 2 ^ length bs)%nat /\
       forall i, (i < length bs)%nat -> nth_error bs i = Some (Nat.testbit index i)) /\
    nth_error table' 0 = Some w' /\
    forall i, (i < t_n1 T)%nat -> near (Z.of_nat (length bs) * e_cmux E) (trlwe_phase (t_n1 T) s1 w' i) (trlwe_phase (t_n1 T) s1 w i).
Proof.
  intros T s0 s1 bit E OK NN cts bs table ws HF HL HT. pose proof (Forall2_len _ _ _ HF) as LF.
  destruct (lookup_ok T s0 s1 bit E OK NN cts bs table ws HF) as (t & m & EL & w & w' & Ew & Ew' & P); [lia|congruence|].
  exists t, m, w, w'. split; [exact EL|]. split; [|split; [exact Ew'|rewrite <- LF; exact P]].
  exists (bits_val bs). split; [exact Ew|]. split; [apply bits_val_lt|].
  intros i Hi. rewrite <- (val_bits_val bs) at 1. unfold val_bits.
  rewrite nth_error_map, nth_error_seq by auto. reflexivity.
Qed.
(** The wrong number of entries is refused. *)
Theorem C38_size_checked : forall T table cts workspace, (length cts < 31)%nat -> length table <> (2 ^ length cts)%nat ->
  lookup_table T table cts workspace = Fail FAssert.
Proof.
  intros T table cts ws HL HT. unfold lookup_table, lookup_table_with_timer.
  destruct (Nat.leb_spec 31 (length cts)); [lia|]. destruct (Nat.eqb_spec (length table) (2 ^ length cts)); [contradiction|reflexivity].
Qed.

(** ** C39 *)
Theorem C39_offline_size : forall T g n interval cts, wf_graph g -> (0 < interval)%nat -> (Z.of_nat n < 2 ^ 31)%Z ->
  let run := do r <- offline_new T g n interval true false; foldM (offline_eval_one T) cts r in
  ((length cts <= n)%nat -> exists r, run = Ok r) /\ ((n < length cts)%nat -> run = Fail FAssert).
Proof.
  intros T g n interval cts W HI HN. cbv zeta.
  destruct (offline_new_ok T g n interval W HI HN) as (r & EN & HB & HP & HS & HV & HA & HW). rewrite EN. cbn [bind].
  split.
  - intros HL. destruct (backstream_feed_shape T cts r HB) as (r' & E & _); [rewrite HS, HP; lia|]. eauto.
  - intros HL. rewrite <- (firstn_skipn n cts). rewrite foldM_app.
    destruct (backstream_feed_shape T (firstn n cts) r HB) as (r' & E & HB' & HG' & HS' & _ & HP').
    { rewrite HS, HP, firstn_length. lia. }
    unfold offline_eval_one. rewrite E. cbn [bind].
    destruct (skipn n cts) as [|c rest] eqn:ES.
    { pose proof (skipn_length n cts) as LS. rewrite ES in LS. cbn in LS. lia. }
    cbn [foldM]. unfold backstream_eval. cbv zeta. rewrite HS', HS, HP', HP, firstn_length.
    replace (0 + Nat.min n (length cts))%nat with n by lia.
    rewrite int_of_diff_small by lia. rewrite Nat.sub_diag. reflexivity.
Qed.

(** ** C40 *)
Theorem C40_sanitize : forall T,
  (forall g n interval key, exists f, offline_new T g n interval key true = Fail f) /\
  (forall g interval sr key, wf_graph g -> exists f, online2_new T g interval sr key true = Fail f) /\
  (forall g depth qs freq, flut_new T g depth qs freq true = Fail FExit) /\
  (forall g qs, block_new T g qs true = Fail FExit) /\
  (forall ratio g key, exists f, legacy_new T ratio g key true = Fail f).
Proof.
  intros T. split; [|split; [|split; [|split]]].
  - intros g n interval [|]; cbn; eauto.
  - intros g interval sr key W. unfold online2_new.
    destruct (if sr then Ok g else do r <- reversed g; minimized r) as [g'|f]; [|cbn; eauto].
    cbn [bind]. destruct key; cbn; eauto.
  - reflexivity.
  - reflexivity.
  - intros ratio g [|]; cbn; eauto.
Qed.

(** ** C46 *)
Theorem C46_legacy_no_result : forall T ratio g key sanitize inputs c,
  (do r <- legacy_new T ratio g key sanitize; do r <- foldM (legacy_eval_one T) inputs r; legacy_result T r) <> Ok c.
Proof.
  intros T ratio g key san inputs c H.
  destruct (legacy_new T ratio g key san) as [r|]; [|discriminate]. cbn [bind] in H.
  destruct (foldM (legacy_eval_one T) inputs r) as [r'|]; [|discriminate]. cbn [bind] in H.
  unfold legacy_result in H. destruct (foldM _ _ _) in H; discriminate.
Qed.

(** ** Concrete cases: the hypotheses are met, and the runs computed *)
(** A DFA for "the number of ones is 2 modulo 3", a ring of dimension 8, every operation adding
    noise 1000; a history with questions in the middle, twice in a row and at the end. *)
Definition ex_dfa : Graph := graph_of 0 [2] [(0, 0, 1); (1, 1, 2); (2, 2, 0)].
Definition ex_s1 : list Z := [1; 1; 0; 1; 0; 0; 1; 1]%Z.
Definition ex_T : tfhe := toy 3 8 [1; 0; 1]%Z ex_s1 1000.
Definition ex_h : list (option bool) := [Some true; None; Some false; Some true; None; None; Some true; None].
Definition ex_dec {A} (r : res (list tlwe * A)) : res (list bool) :=
  do '(outs, _) <- r; Ok (map (fun c => decrypt_TLWELvl1_to_bit 8 c ex_s1) outs).

Definition fault_of {A} (r : res A) : option fault := match r with Ok _ => None | Fail f => Some f end.
Lemma fault_of_some : forall {A} (r : res A) f, fault_of r = Some f -> r = Fail f.
Proof. intros A [a|f'] f H; cbn in H; congruence. Qed.

Example ex_dfa_wf : wf_graph ex_dfa.
Proof.
  apply graph_of_wf; [| | |cbn; lia|cbn; auto].
  - intros r H b. cbn in H. destruct H as [<-|[<-|[<-|[]]]]; destruct b; cbn; lia.
  - intros q [<-|[]]. cbn. lia.
  - intros q l a b H. destruct q as [|[|[|q]]]; cbn in H; try (injection H as <- <- <-; cbn; lia). destruct q; discriminate.
Qed.
Example ex_contract : tfhe_ok ex_T [1; 0; 1]%Z ex_s1 (fun c b => c = b) (toy_noise 1000) /\ noise_nonneg (toy_noise 1000).
Proof. split; [apply toy_ok; lia|]. unfold noise_nonneg. cbn. lia. Qed.
Example ex_encrypts : encrypts (fun c b : bool => c = b) ex_h ex_h.
Proof. repeat constructor. Qed.
Example ex_margins : back_margin (toy_noise 1000) 2 /\ block_margin ex_dfa 2 (toy_noise 1000) /\
  flut_margin (size ex_dfa * 2 ^ (2 / 2)) 2 2 (toy_noise 1000).
Proof. repeat split; vm_compute; reflexivity. Qed.
Example ex_widths : forall n k, In n (flushes 2 0 0 ex_h) -> width ex_dfa n k -> (k < 2 ^ 2)%nat.
Proof.
  intros n k _ HW. destruct (reach_exists ex_dfa n) as [l HR].
  rewrite (width_unique _ _ _ _ HW (reach_width _ ex_dfa_wf _ _ HR)).
  pose proof (reach_len _ ex_dfa_wf _ _ HR) as HL. cbn in *. lia.
Qed.
Example ex_verdicts : verdicts ex_dfa [] ex_h = [Ok false; Ok true; Ok true; Ok false].
Proof. reflexivity. Qed.
Example C30_witness : (do c <- offline_run ex_T ex_dfa 2 [true; false; true; false]; Ok (decrypt_TLWELvl1_to_bit 8 c ex_s1)) = Ok true.
Proof. vm_compute. reflexivity. Qed.
Example C31_witness : ex_dec (do r <- reverse_new ex_T ex_dfa 2 false; play (online2_eval_one ex_T) (reverse_ask ex_T) ex_h r)
  = Ok [false; true; true; false].
Proof. vm_compute. reflexivity. Qed.
Example C32_witness : ex_dec (do r <- block_new ex_T ex_dfa 2 false; play (block_eval_one ex_T) (block_result ex_T) ex_h r)
  = Ok [false; true; true; false].
Proof. vm_compute. reflexivity. Qed.
Example C33_witness : ex_dec (do r <- flut_new ex_T ex_dfa 2 2 2 false; play (flut_eval_one ex_T) (flut_result ex_T) ex_h r)
  = Ok [false; true; true; false].
Proof. vm_compute. reflexivity. Qed.
(** Three live states do not fit a depth of 1. *)
Example C34_witness : (do r <- flut_new ex_T ex_dfa 1 2 2 false; play (flut_eval_one ex_T) (flut_result ex_T) ex_h r)
  = Fail FExit.
Proof. apply fault_of_some. vm_compute. reflexivity. Qed.
Example C39_witness :
  (do r <- offline_new ex_T ex_dfa 2 1 true false; foldM (offline_eval_one ex_T) [true; true; false] r) = Fail FAssert.
Proof. apply fault_of_some. vm_compute. reflexivity. Qed.
Example C46_witness : exists r, legacy_new ex_T (fun _ => 8) ex_dfa true false = Ok r /\
  legacy_result ex_T r = Fail FAssert.
Proof.
  assert (H1 : fault_of (do r <- legacy_new ex_T (fun _ => 8) ex_dfa true false; legacy_result ex_T r) = Some FAssert) by (vm_compute; reflexivity).
  assert (H2 : fault_of (legacy_new ex_T (fun _ => 8) ex_dfa true false) = None) by (vm_compute; reflexivity).
  revert H1 H2. generalize (legacy_new ex_T (fun _ => 8) ex_dfa true false). intros [r|f] H1 H2; [|discriminate].
  exists r. split; [reflexivity|]. apply fault_of_some, H1.
Qed.

(** C34 fails when the table does not fit the ring, which the command line does not check: the
    positions of different inputs then coincide modulo X^N+1 and cancel.  Here N = 2, depth 5: the
    automaton accepts every word, and there is no noise at all, but the answer is "no". *)
Definition bad_dfa : Graph := graph_of 0 [0] [(0, 0, 0)].
Definition bad_T : tfhe := toy 1 2 [1]%Z [1; 0]%Z 0.
Definition bad_run (depth : nat) : res (list tlwe * flut bad_T) :=
  do r <- flut_new bad_T bad_dfa depth 4 1 false;
  play (flut_eval_one bad_T) (flut_result bad_T) [Some true; Some false; Some true; Some true; None] r.
Theorem C34_large_depth_refuted :
  wf_graph bad_dfa /\ tfhe_ok bad_T [1]%Z [1; 0]%Z (fun c b => c = b) (toy_noise 0) /\
  flut_margin (size bad_dfa * 2 ^ (4 / 2)) 4 1 (toy_noise 0) /\
  (exists c s, bad_run 5 = Ok ([c], s) /\ decrypt_TLWELvl1_to_bit 2 c [1; 0]%Z = false) /\
  accepts bad_dfa [true; false; true; true] = Ok true /\
  bad_run 32 = Fail FUndefined.
Proof.
  split; [|split; [|split; [|split; [|split]]]].
  - apply graph_of_wf; [| | |cbn; lia|cbn; auto].
    + intros r H b. cbn in H. destruct H as [<-|[]]; destruct b; cbn; lia.
    + intros q [<-|[]]. cbn. lia.
    + intros q l a b H. destruct q as [|q]; cbn in H; [injection H as <- <- <-; cbn; lia|destruct q; discriminate].
  - apply toy_ok. lia.
  - vm_compute. reflexivity.
  - assert (H : (do '(outs, _) <- bad_run 5; Ok (map (fun c => decrypt_TLWELvl1_to_bit 2 c [1; 0]%Z) outs)) = Ok [false]) by (vm_compute; reflexivity).
    revert H. generalize (bad_run 5). intros [[[|c [|]] s]|] H; try discriminate.
    exists c, s. split; [reflexivity|]. cbn [bind map] in H. congruence.
  - reflexivity.
  - apply fault_of_some. vm_compute. reflexivity.
Qed.

(** A large depth alone does no harm: with a queue of 2 inputs the table of this automaton fits even this ring. *)
Example C34_fits_large_depth : table_fits 2 30 2 bad_dfa.
Proof.
  split; [lia|]. intros n k (l & ND & <- & HL) _.
  assert (length l <= 1)%nat as L.
  { apply (NoDup_incl_length (l' := [0%nat]) ND). intros q Hq. apply HL in Hq as (w & _ & R). left.
    clear -R. revert R. change (initial_state bad_dfa) with 0%nat. induction w as [|b w IH]; cbn; [congruence|].
    destruct b; cbn; exact IH. }
  destruct l as [|x [|y l]]; cbn [length] in *; [cbn; lia|change (2 / 2)%nat with 1%nat; cbn [Nat.log2_up]; cbn; lia|lia].
Qed.

Print Assumptions C30_offline.
Print Assumptions C31_reverse.
Print Assumptions C31_spec_reversed.
Print Assumptions C32_block.
Print Assumptions C32_block_empty_refuted.
Print Assumptions C33_flut.
Print Assumptions C34_flut_refuses.
Print Assumptions C34_large_depth_refuted.
Print Assumptions C38_lookup_table.
Print Assumptions C38_size_checked.
Print Assumptions C39_offline_size.
Print Assumptions C40_sanitize.
Print Assumptions C46_legacy_no_result.
