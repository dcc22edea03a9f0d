(** Property theorems C75: the run commands on a disk that can be full.

    [store_disk cap room pol opens pieces]: the streams have a buffer of cap bytes; when the files on the disk are f, the
    file p can hold room f p bytes; pol and pieces say in what portions the bytes are passed on. *)
From Coq Require Import List Arith Bool NArith ZArith Ascii Lia.
Import ListNotations.
From Verif Require Import Base BaseFacts GraphModel Spec GraphFacts GraphOps Minimize Quotient TextModel TextSpec TextFacts TextClaims
  CliModel CliFacts PropsText BitsModel BitsFacts TorusModel TfheSpec TfheFacts
  RunnerModel RunnerSpec RunnerFacts LookupFacts ReachFacts PropsRunner ParModel ParFacts SchedFacts StreamModel InputSpec StreamFacts PropsInput
  ClientModel ClientFacts CmdModel CmdSpec CmdFacts PropsCmd CrashModel CrashFacts PropsCrash DiskModel DiskFacts PropsDisk DiskRunModel DiskRunFacts.

(** * C75: on a disk that is never full these are the commands of the other properties. *)
Theorem C75_same T Y :
  do_run_offline_on T Y store_file = do_run_offline T Y /\ do_run_reverse_on T Y store_file = do_run_reverse T Y /\
  do_run_flut_on T Y store_file = do_run_flut T Y /\ do_run_block_on T Y store_file = do_run_block T Y.
Proof. repeat split. Qed.

(** The size of a file with an encrypted result: a byte for the byte order and N + 1 words. *)
Definition result_size (T : tfhe) : nat := 1 + 4 * (t_n1 T + 1).

Section Full.
Context (T : tfhe) (s0 s1 : list Z) (bit : trgsw T -> bool -> Prop) (E : noise) (Y : crypto T).
Hypothesis OK : tfhe_ok T s0 s1 bit E.
Hypothesis NN : noise_nonneg E.
Hypothesis YO : crypto_ok T Y s1 bit.
Context (cap : nat) (room : fs -> text -> nat) (pol : nat -> nat) (opens : fs -> text -> bool) (pieces : list N -> list (list N)).
Hypothesis HPC : forall b, concat (pieces b) = b.
Notation words := (c_words T Y).
Notation decrypt c := (decrypt_TLWELvl1_to_bit (t_n1 T) c s1).
Notation store := (store_disk cap room pol opens pieces).

(** What the user sees: one output file.  If the file cannot be opened for writing, the command ends with a failed
    assertion and no file has changed.  If the result does not fit, the command fails with an error message or, if
    at most cap bytes are missing, it may report success; but then dec refuses the file.  If it fits, the command
    succeeds and the answer is right.  With a buffer that can hold the whole result and passes nothing on
    before the end nothing is noticed: the command always succeeds. *)
Definition out_ends (f : fs) (skey output : text) (g : Graph) (bits : list bool) (r : res fs) : Prop :=
  (opens f output = true -> (forall n, pol n = 0) -> result_size T <= cap -> exists f2, r = Ok f2) /\
  match r with
  | Fail e => (opens f output = false /\ e = FAssert) \/ (opens f output = true /\ e = FExit /\ room f output < result_size T)
  | Ok f2 =>
      opens f output = true /\
      (forall p, p <> output -> f2 p = f p) /\
      ((result_size T <= room f output /\ exists b, accepts g bits = Ok b /\ do_dec T Y f2 skey output = Ok (answer b)) \/
       (room f output < result_size T <= room f output + cap /\ do_dec T Y f2 skey output = Fail FExit))
  end.
(** [command] ends so, and at any moment (killed or not) the output is as before, or refused, or right.  When it is over, the files are
    those it reports, and after a failure the output is refused, or no file has changed if it could not be opened. *)
Definition full_out (command : res command) (f : fs) (skey output : text) (g : Graph) (bits : list bool) : Prop :=
  (exists r, run_ends T Y command f r /\ out_ends f skey output g bits r) /\
  (forall f', run_left T Y command f f' -> out_left T Y f skey output g bits f' /\ (opens f output = false -> forall p, f' p = f p)) /\
  (forall r f', run_over T Y command f r f' -> out_ends f skey output g bits r /\
     match r with
     | Ok f2 => forall p, f' p = f2 p
     | Fail _ => if opens f output then do_dec T Y f' skey output = Fail FExit else forall p, f' p = f p
     end).

(** What the user sees: a directory of reports. *)
Definition dir_ends (f : fs) (skey dir : text) (freq : nat) (g : Graph) (bits : list bool) (r : res fs) : Prop :=
  let reported j := (0 < j <= length bits /\ j mod freq = 0) \/ j = length bits in
  let right f2 j := exists b, accepts g (firstn j bits) = Ok b /\ do_dec T Y f2 skey (report_file dir j) = Ok (answer b) in
  ((forall f1 j, reported j -> opens f1 (report_file dir j) = true) -> (forall n, pol n = 0) -> result_size T <= cap -> exists f2, r = Ok f2) /\
  match r with
  | Fail e => exists f1 j, reported j /\
      ((opens f1 (report_file dir j) = false /\ e = FAssert) \/
       (opens f1 (report_file dir j) = true /\ e = FExit /\ room f1 (report_file dir j) < result_size T))
  | Ok f2 =>
      (forall p, (forall j, reported j -> p <> report_file dir j) -> f2 p = f p) /\
      (forall j, reported j ->
         (right f2 j \/ do_dec T Y f2 skey (report_file dir j) = Fail FExit) /\
         exists f1, opens f1 (report_file dir j) = true /\ result_size T <= room f1 (report_file dir j) + cap)
  end /\
  ((forall f1 j, reported j -> opens f1 (report_file dir j) = true /\ result_size T <= room f1 (report_file dir j)) ->
   exists f2, r = Ok f2 /\ forall j, reported j -> right f2 j).
Definition dir_seen (f : fs) (skey dir : text) (freq : nat) (g : Graph) (bits : list bool) (f' : fs) : Prop :=
  let reported j := (0 < j <= length bits /\ j mod freq = 0) \/ j = length bits in
  let refused j := do_dec T Y f' skey (report_file dir j) = Fail FExit in
  let right j := exists b, accepts g (firstn j bits) = Ok b /\ do_dec T Y f' skey (report_file dir j) = Ok (answer b) in
  (forall p, (forall j, reported j -> p <> report_file dir j) -> f' p = f p) /\
  (forall j, reported j -> f' (report_file dir j) = f (report_file dir j) \/ refused j \/ right j) /\
  (forall i j, reported i -> i < j -> f' (report_file dir j) <> f (report_file dir j) -> refused i \/ right i) /\
  (forall i j, reported i -> i <= j -> (forall f1, opens f1 (report_file dir i) = false) -> f' (report_file dir j) = f (report_file dir j)).
(** When the command is over: after a failure at report [j] the earlier ones are there and the later ones have not been touched. *)
Definition dir_over (f : fs) (skey dir : text) (freq : nat) (g : Graph) (bits : list bool) (r : res fs) (f' : fs) : Prop :=
  let reported j := (0 < j <= length bits /\ j mod freq = 0) \/ j = length bits in
  let refused j := do_dec T Y f' skey (report_file dir j) = Fail FExit in
  let right j := exists b, accepts g (firstn j bits) = Ok b /\ do_dec T Y f' skey (report_file dir j) = Ok (answer b) in
  match r with
  | Ok f2 => forall p, f' p = f2 p
  | Fail e => exists j, reported j /\
      (forall i, reported i -> i < j -> (right i \/ refused i) /\
         ((forall f1, result_size T <= room f1 (report_file dir i)) -> right i)) /\
      (forall i, j < i -> f' (report_file dir i) = f (report_file dir i)) /\
      ((e = FAssert /\ opens f' (report_file dir j) = false) \/ (e = FExit /\ refused j))
  end.
Definition full_dir (command : res command) (f : fs) (skey dir : text) (freq : nat) (g : Graph) (bits : list bool) : Prop :=
  (exists r, run_ends T Y command f r /\ dir_ends f skey dir freq g bits r) /\
  (forall f', run_left T Y command f f' -> dir_seen f skey dir freq g bits f') /\
  (forall r f', run_over T Y command f r f' -> dir_ends f skey dir freq g bits r /\ dir_over f skey dir freq g bits r f').

(** * From the list of results to what the user sees *)
Lemma peel_does L f : peel (does T cap room pol opens pieces L f).
Proof. constructor; [intros; eapply does_det; eauto|intros; apply does_size; auto]. Qed.
Lemma combine_split (dir : text) rs : forall (outs : list (list Z)) L1 p c L2, length outs = length rs ->
  combine (map (report_file dir) rs) outs = L1 ++ (p, c) :: L2 ->
  exists rs1 j rs2 outs1 outs2, rs = rs1 ++ j :: rs2 /\ outs = outs1 ++ c :: outs2 /\
    L1 = combine (map (report_file dir) rs1) outs1 /\ p = report_file dir j /\ L2 = combine (map (report_file dir) rs2) outs2 /\
    length outs1 = length rs1.
Proof.
  induction rs as [|j rs IH]; intros [|o outs] [|[q c1] L1] p c L2 LO H; try discriminate; cbn [map combine app] in H.
  - injection H as <- <- <-. exists [], j, rs, [], outs. auto 10.
  - injection H as <- <- H. injection LO as LO. destruct (IH outs L1 p c L2 LO H) as (rs1 & j' & rs2 & outs1 & outs2 & -> & -> & -> & -> & -> & LL).
    exists (j :: rs1), j', rs2, (o :: outs1), outs2. cbn [length]. auto 10.
Qed.
Lemma option_dec (a b : option (list N)) : {a = b} + {a <> b}.
Proof. decide equality. apply (list_eq_dec N.eq_dec). Qed.
Lemma see_out command f skey bkey cipher output g coin bits c c0 : command = Ok c0 ->
  keys_at Y f skey bkey -> f cipher = Some (enc_output T Y coin bits) -> output <> skey ->
  (Z.of_nat (length bits * (words * 8)) < 2 ^ 64)%Z ->
  accepts g bits = Ok (decrypt c) -> cmd_input c0 = cipher ->
  does T cap room pol opens pieces [(output, c)] f (cmd_body c0) (delivery (cmd_kind c0) (map (c_save T Y) (encs T Y coin bits))) ->
  full_out command f skey output g bits.
Proof.
  intros -> ((sb & HS & RS) & KB) FC NO L64 AC KI DO. pose proof DO as (SU & AL & _).
  assert (ENDS : out_ends f skey output g bits (attempts T cap room pol opens pieces [(output, c)] f)).
  { split.
      { intros HO HL HC. pose proof (attempt_lazy T cap room pol opens pieces HPC f output c HO HL HC) as A. cbn [attempts].
        destruct (attempt T cap room pol opens pieces f output c) as [r f']. cbn [fst] in A. rewrite A. eauto. }
      cbn [attempts]. destruct (attempt T cap room pol opens pieces f output c) as [r f'] eqn:EA.
      destruct (opens f output) eqn:EO.
      2:{ destruct (attempt_closed T cap room pol opens pieces _ _ _ _ _ EA EO) as [-> _]. auto. }
      destruct (attempt_facts T cap room pol opens pieces HPC _ _ _ _ _ EA EO) as (A & B & [->| ->] & C & D).
      * split; [reflexivity|]. split; [exact A|]. fold (result_size T) in *. destruct (le_lt_dec (result_size T) (room f output)) as [L|L]; [left|right].
        -- split; [exact L|]. exists (decrypt c). split; [exact AC|].
           rewrite firstn_all2 in B by (rewrite archive_length; exact L).
           apply (do_dec_ok T Y s1 bit YO) with (b := sb); auto. rewrite A; auto.
        -- split; [split; [exact L|auto]|]. eapply (do_dec_short T Y); [rewrite A; eauto|exact RS|exact B|].
           rewrite firstn_length. unfold result_size in *. lia.
      * right. split; [reflexivity|]. split; [reflexivity|]. fold (result_size T) in *. destruct (le_lt_dec (result_size T) (room f output)) as [L|L]; [|exact L].
        specialize (D L). discriminate. }
  split; [|split].
  - exists (attempts T cap room pol opens pieces [(output, c)] f). split; [|exact ENDS].
    apply (run_ends_ok T Y s1 bit YO) with (coin := coin) (bits := bits); [rewrite KI, <- enc_output_file; exact FC|exact L64|exact SU].
  - intros f' RL. pose proof (run_left_seen T Y s1 bit YO cap room pol opens pieces _ _ _ _ coin bits ltac:(rewrite KI; exact FC) L64 AL RL) as SE. split; [split|].
    + intros p P. eapply (seen_other T cap room pol opens pieces HPC); eauto. cbn. intuition.
    + destruct (seen_file T cap room pol opens pieces HPC _ _ _ output SE) as [|(c' & k & I & EF & _)]; [auto|].
      destruct I as [[= <-]|[]]. right.
      destruct (do_dec_part T Y s1 bit YO f' skey output sb c k) as [D|D]; auto.
      * rewrite (seen_other T cap room pol opens pieces HPC _ _ _ skey SE); [exact HS|]. cbn. intuition.
      * right. eauto.
    + intros EO p. inversion SE as [L0 f0 d0 H|p0 c1 L0 f0 d0 HO H|p0 c1 L0 f0 f1 d0 EA H]; subst.
      * apply H.
      * congruence.
      * pose proof (attempt_opens T cap room pol opens pieces _ _ _ _ EA). congruence.
  - intros r f' RO. destruct (run_over_lands T Y s1 bit YO cap room pol opens pieces _ _ _ coin bits _ _ ltac:(rewrite KI; exact FC) L64 DO RO) as (-> & ->).
    split; [exact ENDS|]. destruct (attempts T cap room pol opens pieces [(output, c)] f) as [f2|e] eqn:ET.
    + rewrite (attempts_final T cap room pol opens pieces _ _ _ ET). auto.
    + cbn [attempts final] in *. destruct (attempt T cap room pol opens pieces f output c) as [[[]|e'] f'] eqn:EA; [discriminate|]. injection ET as ->.
      destruct (opens f output) eqn:EO.
      * destruct (attempt_facts T cap room pol opens pieces HPC _ _ _ _ _ EA EO) as (A & B & _ & _ & D).
        eapply (do_dec_short T Y); [rewrite A; eauto|exact RS|exact B|]. rewrite firstn_length.
        destruct (le_lt_dec (1 + 4 * (t_n1 T + 1)) (room f output)) as [L|L]; [specialize (D L); discriminate|lia].
      * destruct (attempt_closed T cap room pol opens pieces _ _ _ _ _ EA EO) as [_ ->]. auto.
Qed.
Lemma see_dir command f skey bkey cipher dir freq g coin bits outs c0 : command = Ok c0 ->
  keys_at Y f skey bkey -> f cipher = Some (enc_output T Y coin bits) -> (forall j, report_file dir j <> skey) ->
  (Z.of_nat (length bits * (words * 8)) < 2 ^ 64)%Z -> cmd_input c0 = cipher ->
  let rs := reports (Some freq) 0 (length bits) in
  length outs = length rs -> map (fun c => Ok (decrypt c)) outs = map (fun k => accepts g (firstn k bits)) rs ->
  let L := combine (map (report_file dir) rs) outs in
  does T cap room pol opens pieces L f (cmd_body c0) (delivery (cmd_kind c0) (map (c_save T Y) (encs T Y coin bits))) ->
  full_dir command f skey dir freq g bits.
Proof.
  intros -> ((sb & HS & RS) & KB) FC HD L64 KI rs LO PO L DO. pose proof DO as (SU & AL & _).
  assert (KEYS : map fst L = map (report_file dir) rs) by (apply combine_fst; exact LO).
  assert (VER : forall j c, In (report_file dir j, c) L -> accepts g (firstn j bits) = Ok (decrypt c)).
  { intros j c IC. apply combine_map in IC as (i & j' & I1 & I2 & I3). apply report_file_inj in I3 as <-.
    assert (Hv : nth_error (map (fun c => Ok (decrypt c)) outs) i = Some (Ok (decrypt c)))
      by (apply (map_nth_error (fun c => Ok (decrypt c))); exact I2).
    rewrite PO in Hv. rewrite (map_nth_error (fun k => accepts g (firstn k bits)) i rs I1) in Hv.
    injection Hv as Hv. exact Hv. }
  assert (INK : forall j, (0 < j <= length bits /\ j mod freq = 0) \/ j = length bits -> In (report_file dir j) (map fst L)).
  { intros j Hj. rewrite KEYS. apply in_map. apply in_reports. exact Hj. }
  assert (KIN : forall p, In p (map fst L) -> exists j, ((0 < j <= length bits /\ j mod freq = 0) \/ j = length bits) /\ p = report_file dir j).
  { intros p I. rewrite KEYS in I. apply in_map_iff in I as (j & <- & I). apply in_reports in I. eauto. }
  assert (SKEY : forall d, seen T cap room pol opens pieces L f d -> d skey = Some sb).
  { intros d SE. rewrite (seen_other T cap room pol opens pieces HPC _ _ _ skey SE); [exact HS|]. intros I.
    apply KIN in I as (j & _ & I). apply (HD j). auto. }
  assert (OTHER : forall d, seen T cap room pol opens pieces L f d ->
    forall p, (forall j, (0 < j <= length bits /\ j mod freq = 0) \/ j = length bits -> p <> report_file dir j) -> d p = f p).
  { intros d SE p P. eapply (seen_other T cap room pol opens pieces HPC); eauto. intros I. apply KIN in I as (j & Hj & ->). apply (P j Hj). reflexivity. }
  assert (DEC : forall d j c k, seen T cap room pol opens pieces L f d -> In (report_file dir j, c) L ->
    d (report_file dir j) = Some (firstn k (archive_tlwe (t_n1 T) c)) ->
    do_dec T Y d skey (report_file dir j) = Fail FExit \/
    exists b, accepts g (firstn j bits) = Ok b /\ do_dec T Y d skey (report_file dir j) = Ok (answer b)).
  { intros d j c k SE I EF. destruct (do_dec_part T Y s1 bit YO d skey (report_file dir j) sb c k) as [D|D]; eauto. }
  assert (ENDS : dir_ends f skey dir freq g bits (attempts T cap room pol opens pieces L f)).
  { split.
      { intros HO HL HC. apply (attempts_lazy T cap room pol opens pieces HPC); auto. intros f1 p I. apply KIN in I as (j & Hj & ->). apply HO. exact Hj. }
      split.
      * destruct (attempts T cap room pol opens pieces L f) as [f2|e] eqn:EA.
        -- pose proof (attempts_seen T cap room pol opens pieces L f f2 EA) as SE. split; [apply OTHER; exact SE|]. intros j Hj.
           destruct (attempts_all T cap room pol opens pieces HPC L f f2 _ EA (INK j Hj)) as (c & k & I & EF & f1 & O & _ & R).
           split; [|exists f1; split; [exact O|exact R]]. destruct (DEC f2 j c k SE I EF); auto.
        -- destruct (attempts_fail T cap room pol opens pieces HPC L f e EA) as (f1 & p & I & R).
           apply KIN in I as (j & Hj & ->). exists f1, j. split; [exact Hj|]. unfold result_size. intuition.
      * intros HR. destruct (attempts_room T cap room pol opens pieces HPC L) with (f := f) as (f2 & EA & H2).
        { intros f1 p I. apply KIN in I as (j & Hj & ->). apply HR. exact Hj. }
        exists f2. split; [exact EA|]. intros j Hj. destruct (H2 _ (INK j Hj)) as (c & I & EF).
        exists (decrypt c). split; [apply VER; exact I|].
        apply (do_dec_ok T Y s1 bit YO) with (b := sb); auto. apply SKEY. apply attempts_seen. exact EA. }
  split; [|split].
  - exists (attempts T cap room pol opens pieces L f). split; [|exact ENDS].
    apply (run_ends_ok T Y s1 bit YO) with (coin := coin) (bits := bits); [rewrite KI, <- enc_output_file; exact FC|exact L64|exact SU].
  - intros f' RL. pose proof (run_left_seen T Y s1 bit YO cap room pol opens pieces _ _ _ _ coin bits ltac:(rewrite KI; exact FC) L64 AL RL) as SE.
    split; [apply OTHER; exact SE|]. split; [|split].
    + intros j Hj. destruct (seen_file T cap room pol opens pieces HPC _ _ _ (report_file dir j) SE) as [|(c & k & I & EF & _)]; [auto|].
      right. eapply DEC; eauto.
    + intros i j Hi Hij Hd. apply in_reports in Hi. fold rs in Hi.
      destruct (seen_earlier T cap room pol opens pieces HPC (report_file dir) (fun a b => report_file_inj dir a b) rs outs f f' i j) as (c & k & I & EF & _); auto.
      { intros l1 l2 a b. apply reports_sorted. }
      eapply DEC; eauto.
    + intros i j Hi Hij HO.
      destruct (option_dec (f' (report_file dir j)) (f (report_file dir j))) as [|Hd]; [auto|exfalso].
      assert (X : exists f1, opens f1 (report_file dir i) = true); [|destruct X as (f1 & X); rewrite HO in X; discriminate].
      destruct (Nat.eq_dec i j) as [<-|NE].
      * destruct (seen_file T cap room pol opens pieces HPC _ _ _ (report_file dir i) SE) as [|(c & k & _ & _ & X)]; [contradiction|exact X].
      * apply in_reports in Hi. fold rs in Hi.
        destruct (seen_earlier T cap room pol opens pieces HPC (report_file dir) (fun a b => report_file_inj dir a b) rs outs f f' i j) as (c & k & I & EF & X); auto; [|lia].
        intros l1 l2 a b. apply reports_sorted.
  - intros r f' RO. destruct (run_over_lands T Y s1 bit YO cap room pol opens pieces _ _ _ coin bits _ _ ltac:(rewrite KI; exact FC) L64 DO RO) as (-> & ->).
    split; [exact ENDS|]. unfold dir_over. destruct (attempts T cap room pol opens pieces L f) as [f2|e] eqn:ET.
    { rewrite (attempts_final T cap room pol opens pieces _ _ _ ET). auto. }
    pose proof (final_seen T cap room pol opens pieces HPC L f e ET) as SE.
    destruct (final_fail T cap room pol opens pieces L f e ET) as (L1 & p & c & L2 & f1 & EL & E1 & E2).
    set (f' := final T cap room pol opens pieces L f) in *.
    destruct (combine_split dir rs outs L1 p c L2 LO EL) as (rs1 & j & rs2 & outs1 & outs2 & ER & EOU & EL1 & -> & EL2 & LO1).
    assert (Hj : In j rs) by (rewrite ER; apply in_or_app; right; left; reflexivity).
    assert (SO : forall l1 l2 a b, rs = l1 ++ l2 -> In a l1 -> In b l2 -> a <= b) by (intros l1 l2 a b; apply reports_sorted).
    assert (K1 : map fst L1 = map (report_file dir) rs1) by (rewrite EL1; apply combine_fst; exact LO1).
    assert (OT : forall q, q <> report_file dir j -> f' q = f1 q).
    { intros q Q. destruct (opens f1 (report_file dir j)) eqn:EO.
      - destruct (attempt_facts T cap room pol opens pieces HPC _ _ _ _ _ E2 EO) as (A & _). apply A. exact Q.
      - destruct (attempt_closed T cap room pol opens pieces _ _ _ _ _ E2 EO) as [_ X]. rewrite X. reflexivity. }
    exists j. split; [apply in_reports; exact Hj|]. split; [|split].
    + intros i Hi Hij. apply in_reports in Hi. fold rs in Hi.
      assert (I1 : In i rs1).
      { rewrite ER in Hi. apply in_app_or in Hi as [Hi|[<-|Hi]]; [exact Hi|lia|].
        specialize (SO (rs1 ++ [j]) rs2 j i). rewrite <- app_assoc in SO. cbn [app] in SO.
        specialize (SO ER). rewrite in_app_iff in SO. cbn [In] in SO. assert (j <= i) by auto. lia. }
      assert (N : report_file dir i <> report_file dir j) by (intros X; apply report_file_inj in X; lia).
      assert (SUB : forall c', In (report_file dir i, c') L1 -> In (report_file dir i, c') L) by (intros c' X; rewrite EL; apply in_or_app; auto).
      destruct (attempts_all T cap room pol opens pieces HPC L1 f f1 (report_file dir i) E1) as (c' & k & IC & EF & _).
      { rewrite K1. apply in_map. exact I1. }
      split.
      * destruct (DEC f' i c' k SE (SUB _ IC)); auto. rewrite OT by exact N. exact EF.
      * intros HR.
        destruct (attempts_full T cap room pol opens pieces HPC L1 f f1 (report_file dir i) E1) as (c2 & IC2 & EF2).
        { rewrite K1. apply in_map. exact I1. }
        { exact HR. }
        exists (decrypt c2). split; [apply VER; auto|].
        apply (do_dec_ok T Y s1 bit YO) with (b := sb); auto. rewrite OT by exact N. exact EF2.
    + intros i Hij. rewrite OT by (intros X; apply report_file_inj in X; lia).
      eapply (seen_other T cap room pol opens pieces HPC); [apply attempts_seen; exact E1|]. rewrite K1. intros I.
      apply in_map_iff in I as (i' & X & I). apply report_file_inj in X as ->.
      assert (i <= j) by (apply (SO rs1 (j :: rs2)); [exact ER|exact I|left; reflexivity]). lia.
    + destruct (opens f1 (report_file dir j)) eqn:EO.
      * right. destruct (attempt_facts T cap room pol opens pieces HPC _ _ _ _ _ E2 EO) as (A & B & [[=]|[= ->]] & _ & D). split; [reflexivity|].
        eapply (do_dec_short T Y); [apply SKEY; exact SE|exact RS|exact B|]. rewrite firstn_length.
        destruct (le_lt_dec (1 + 4 * (t_n1 T + 1)) (room f1 (report_file dir j))) as [X|X]; [specialize (D X); discriminate|lia].
      * left. destruct (attempt_closed T cap room pol opens pieces _ _ _ _ _ E2 EO) as [[= ->] X]. rewrite X. auto.
Qed.

(** * C75: offline *)
Theorem C75_offline f skey bkey spec cipher output interval g coin bits :
  keys_at Y f skey bkey -> f cipher = Some (enc_output T Y coin bits) -> output <> skey ->
  from_file f spec = Ok g -> 0 < size g -> 0 < interval -> back_margin E interval ->
  (Z.of_nat (length bits) < 2 ^ 31)%Z -> (Z.of_nat (length bits * (words * 8)) < 2 ^ 64)%Z ->
  full_out (do_run_offline_on T Y store f spec cipher output interval bkey false) f skey output g bits.
Proof.
  intros HK FC NO EG SG HI0 HM L31 L64.
  assert (W : wf_graph g) by (eapply from_file_wf; eauto).
  destruct (minimized_correct g W) as (m & EM & WM & AM & _).
  pose proof (encs_bits T Y s1 bit YO coin bits) as HBITS.
  destruct (C30_offline T s0 s1 bit E OK NN m interval bits (encs T Y coin bits) WM HI0 HM L31 HBITS) as (c & EC & AD).
  rewrite AM in AD. unfold offline_run in EC. rewrite encs_length in EC.
  apply bind_ok in EC as (r & EN & EC). apply bind_ok in EC as (r' & EF & ER).
  assert (LR : length (rev (map (c_save T Y) (encs T Y coin bits))) = length bits)
    by (rewrite rev_length, map_length, encs_length; reflexivity).
  destruct (logged_depths_ok T m (length bits) interval r EN WM HI0 L31) as (dl & ED).
  destruct (proj2 HK) as (bb & HKB & RK).
  assert (PL : forall W : client fs -> list (list N) -> Prop, peel W -> forall finish,
    W (offline_loop T Y (length bits) r finish) (rev (map (c_save T Y) (encs T Y coin bits))) ->
    W (pdet (read_bkey T Y f bkey) (fun '(ekey, _) =>
       pdet (do g <- from_file f spec; minimized g) (fun g =>
       PSize (fun n => pdet (offline_new T g n interval ekey false) (fun r =>
       PSize (fun n => pdet (mapM (states_at_depth (b_graph r)) (seq 0 n)) (fun _ =>
       PSize (fun input_size => offline_loop T Y input_size r finish)))))))) (rev (map (c_save T Y) (encs T Y coin bits)))).
  { intros W0 PW finish HL. eapply (pl_det _ PW) with (a := (true, true)).
    { unfold read_bkey, open_file. rewrite HKB. cbn [bind]. rewrite RK. reflexivity. }
    cbv beta iota. eapply (pl_det _ PW) with (a := m); [rewrite EG; exact EM|].
    apply (pl_size _ PW). rewrite LR. eapply (pl_det _ PW); [exact EN|]. apply (pl_size _ PW). rewrite LR.
    eapply (pl_det _ PW); [exact ED|]. apply (pl_size _ PW). rewrite LR. exact HL. }
  eapply see_out with (c := c) (coin := coin); try eassumption; try reflexivity; cbn [cmd_body cmd_kind delivery].
  apply (PL _ (peel_does _ _)). rewrite <- LR. eapply (offline_loop_does T Y).
  - rewrite map_rev, (encs_load T Y s1 bit YO). exact EF.
  - eapply does_det; [exact ER|]. apply does_store; [exact HPC|]. intros f1 _. apply does_ret.
Qed.

(** The loop of the other three *)
Section Loop.
Context {St : Type} (feed : St -> trgsw T -> outcomes St) (ask : St -> outcomes (list Z * St))
        (feedD : St -> trgsw T -> res St) (askD : St -> res (list Z * St)).
Hypothesis HFe : forall s c, exact (feed s c) (feedD s c).
Hypothesis HAs : forall s, exact (ask s) (askD s).
Context (f : fs) (skey bkey cipher : text) (coin : nat) (bits : list bool) (g : Graph) (s s' : St) (outs : list (list Z)).
Notation rem := (map (c_save T Y) (encs T Y coin bits)).
Hypothesis HK : keys_at Y f skey bkey.
Hypothesis FC : f cipher = Some (enc_output T Y coin bits).
Hypothesis L64 : (Z.of_nat (length bits * (words * 8)) < 2 ^ 64)%Z.
Context (command : res command) (c0 : CmdModel.command).
Hypothesis EC : command = Ok c0.
Hypothesis KI : cmd_input c0 = cipher.
Hypothesis KK : cmd_kind c0 = Forward.

Lemma loop_full_out output freq : output <> skey ->
  play feedD askD (asked None 0 (encs T Y coin bits)) s = Ok (outs, s') ->
  map (fun c => Ok (decrypt c)) outs = verdicts g [] (asked None 0 bits) ->
  (forall W, peel W ->
     W (monitor_loop_on T Y store feed ask cipher None freq (last_output_on T store ask (Some output) None (length bits)) (length bits) 0 s f) rem ->
     W (cmd_body c0) rem) ->
  full_out command f skey output g bits.
Proof.
  intros NO HP PO PL.
  assert (LR : length rem = length bits) by (rewrite map_length, encs_length; reflexivity).
  assert (HP' : play feedD askD (asked None 0 (map (c_load T Y) rem)) s = Ok (outs, s')).
  { rewrite (encs_load T Y s1 bit YO). exact HP. }
  destruct (to_file_on T Y s1 cap room pol opens pieces HPC feed ask feedD askD HFe HAs cipher None freq rem (length bits) s f output outs s' eq_refl LR HP')
    as (c & EO & DO).
  subst outs.
  assert (AC : accepts g bits = Ok (decrypt c)).
  { pose proof (verdicts_asked g None bits []) as V. cbn [length app] in V. rewrite V in PO.
    unfold reports in PO. cbn [app map Nat.add] in PO. rewrite firstn_all in PO. congruence. }
  eapply see_out with (c := c) (coin := coin); try eassumption; rewrite KK; cbn [delivery].
  apply (PL _ (peel_does _ _)). exact DO.
Qed.
Lemma loop_full_dir dir freq : 0 < freq -> (forall j, report_file dir j <> skey /\ report_file dir j <> cipher) ->
  play feedD askD (asked (Some freq) 0 (encs T Y coin bits)) s = Ok (outs, s') ->
  map (fun c => Ok (decrypt c)) outs = verdicts g [] (asked (Some freq) 0 bits) ->
  (forall W, peel W ->
     W (monitor_loop_on T Y store feed ask cipher (Some dir) freq (last_output_on T store ask None (Some dir) (length bits)) (length bits) 0 s f) rem ->
     W (cmd_body c0) rem) ->
  full_dir command f skey dir freq g bits.
Proof.
  intros HF HD HP PO PL.
  assert (LR : length rem = length bits) by (rewrite map_length, encs_length; reflexivity).
  destruct (to_dir_on T Y s1 cap room pol opens pieces HPC feed ask feedD askD HFe HAs cipher (Some dir) freq rem (length bits) s f dir outs s' eq_refl HF LR)
    as (LO & DO).
  { intros j _. apply HD. }
  { rewrite (encs_load T Y s1 bit YO). exact HP. }
  pose proof (verdicts_asked g (Some freq) bits []) as V. cbn [length app] in V. rewrite V in PO.
  eapply see_dir with (outs := outs) (coin := coin); try eassumption; try (rewrite KK; cbn [delivery]).
  - intros j. apply HD.
  - apply (PL _ (peel_does _ _)). exact DO.
Qed.
End Loop.

Lemma reverse_on_peel f bkey spec cipher out dir freq interval rv g r coin bits c0 :
  (exists b, f bkey = Some b /\ c_read_bkey T Y b = Some (true, true)) -> from_file f spec = Ok g ->
  online2_new T g interval rv true false = Ok r ->
  do_run_reverse_on T Y store f spec cipher out dir freq interval rv bkey false = Ok c0 ->
  cmd_input c0 = cipher /\ cmd_kind c0 = Forward /\
  forall W, peel W ->
    W (monitor_loop_on T Y store (backstream_eval_any T) (reverse_ask_any T) cipher dir freq
         (last_output_on T store (reverse_ask_any T) out dir (length bits)) (length bits) 0 r f) (map (c_save T Y) (encs T Y coin bits)) ->
    W (cmd_body c0) (map (c_save T Y) (encs T Y coin bits)).
Proof.
  intros (bb & HK & RK) EG EN EC. unfold do_run_reverse_on in EC. destruct out, dir; try discriminate; cbn [assert_] in EC; injection EC as <-.
  all: split; [reflexivity|]; split; [reflexivity|]; intros W PW HL; cbn [cmd_body];
    eapply (pl_det _ PW) with (a := (true, true));
      [unfold read_bkey, open_file; rewrite HK; cbn [bind]; rewrite RK; reflexivity|];
    cbv beta iota; eapply (pl_det _ PW); [exact EG|]; eapply (pl_det _ PW); [exact EN|];
    apply (pl_size _ PW); apply (pl_size _ PW); rewrite map_length, encs_length; exact HL.
Qed.
Lemma flut_on_peel f bkey spec cipher out dir freq queue_size interval max_depth g r coin bits c0 : 0 < queue_size ->
  (exists b, f bkey = Some b /\ c_read_bkey T Y b = Some (true, true)) -> from_file f spec = Ok g ->
  flut_new T g max_depth queue_size interval false = Ok r ->
  do_run_flut_on T Y store f spec cipher out dir freq queue_size interval bkey (Some max_depth) None false = Ok c0 ->
  cmd_input c0 = cipher /\ cmd_kind c0 = Forward /\
  forall W, peel W ->
    W (monitor_loop_on T Y store (flut_eval_one_any T) (flut_result_any T) cipher dir freq
         (last_output_on T store (flut_result_any T) out dir (length bits)) (length bits) 0 r f) (map (c_save T Y) (encs T Y coin bits)) ->
    W (cmd_body c0) (map (c_save T Y) (encs T Y coin bits)).
Proof.
  intros HQ (bb & HK & RK) EG EN EC. unfold do_run_flut_on in EC. injection EC as <-.
  split; [reflexivity|]. split; [reflexivity|]. intros W PW HL. cbn [cmd_body].
  eapply (pl_det _ PW); [exact EG|].
  eapply (pl_det _ PW) with (a := (true, true));
      [unfold read_bkey, open_file; rewrite HK; cbn [bind]; rewrite RK; reflexivity|].
  cbv beta iota. eapply (pl_det _ PW) with (a := tt); [reflexivity|]. eapply (pl_det _ PW) with (a := tt); [reflexivity|].
  eapply (pl_det _ PW); [exact EN|]. apply (pl_size _ PW).
  eapply (pl_det _ PW) with (a := tt). { destruct dir; [|reflexivity]. destruct (Nat.eqb_spec queue_size 0); [lia|reflexivity]. }
  apply (pl_size _ PW). rewrite map_length, encs_length. exact HL.
Qed.

(** * C75: reverse *)
Theorem C75_reverse f skey bkey spec cipher output freq interval g coin bits :
  keys_at Y f skey bkey -> f cipher = Some (enc_output T Y coin bits) -> output <> skey ->
  from_file f spec = Ok g -> 0 < size g -> 0 < interval -> back_margin E interval ->
  (Z.of_nat (length bits * (words * 8)) < 2 ^ 64)%Z ->
  full_out (do_run_reverse_on T Y store f spec cipher (Some output) None freq interval false bkey false) f skey output g bits.
Proof.
  intros HK FC NO EG SG HI0 HM L64.
  assert (W : wf_graph g) by (eapply from_file_wf; eauto).
  destruct (C31_reverse T s0 s1 bit E OK NN g interval _ _ W HI0 HM (asked_encrypts T Y s1 bit YO None coin bits 0))
    as (outs & s' & EO & PO).
  apply bind_ok in EO as (r & EN & EO).
  destruct (do_run_reverse_on T Y store f spec cipher (Some output) None freq interval false bkey false) as [c0|e] eqn:EC; [|discriminate].
  destruct (reverse_on_peel f bkey spec cipher (Some output) None freq interval false g r coin bits c0 (proj2 HK) EG EN EC) as (KI & KK & PL).
  exact (loop_full_out _ _ _ _ (backstream_any_exact T) (fun s => exact_det _) f skey bkey cipher coin bits g r s' outs HK FC L64
           _ c0 eq_refl KI KK output freq NO EO PO PL).
Qed.
Theorem C75_reverse_dir f skey bkey spec cipher dir freq interval g coin bits :
  keys_at Y f skey bkey -> f cipher = Some (enc_output T Y coin bits) ->
  (forall j, report_file dir j <> skey /\ report_file dir j <> cipher) ->
  from_file f spec = Ok g -> 0 < size g -> 0 < freq -> 0 < interval -> back_margin E interval ->
  (Z.of_nat (length bits * (words * 8)) < 2 ^ 64)%Z ->
  full_dir (do_run_reverse_on T Y store f spec cipher None (Some dir) freq interval false bkey false) f skey dir freq g bits.
Proof.
  intros HK FC HD EG SG HF HI0 HM L64.
  assert (W : wf_graph g) by (eapply from_file_wf; eauto).
  destruct (C31_reverse T s0 s1 bit E OK NN g interval _ _ W HI0 HM (asked_encrypts T Y s1 bit YO (Some freq) coin bits 0))
    as (outs & s' & EO & PO).
  apply bind_ok in EO as (r & EN & EO).
  destruct (do_run_reverse_on T Y store f spec cipher None (Some dir) freq interval false bkey false) as [c0|e] eqn:EC; [|discriminate].
  destruct (reverse_on_peel f bkey spec cipher None (Some dir) freq interval false g r coin bits c0 (proj2 HK) EG EN EC) as (KI & KK & PL).
  exact (loop_full_dir _ _ _ _ (backstream_any_exact T) (fun s => exact_det _) f skey bkey cipher coin bits g r s' outs HK FC L64
           _ c0 eq_refl KI KK dir freq HF HD EO PO PL).
Qed.

(** * C75: flut *)
Theorem C75_flut f skey bkey spec cipher output freq queue_size interval max_depth g coin bits :
  keys_at Y f skey bkey -> f cipher = Some (enc_output T Y coin bits) -> output <> skey ->
  from_file f spec = Ok g -> 0 < size g ->
  0 < queue_size < 31 -> 0 < interval -> max_depth < 31 -> table_fits (t_n1 T) max_depth queue_size g ->
  flut_margin (size g * 2 ^ (queue_size / 2)) queue_size interval E ->
  (forall n k, In n (flushes queue_size 0 0 (asked None 0 bits)) -> width g n k -> k < 2 ^ max_depth) ->
  (Z.of_nat (length bits * (words * 8)) < 2 ^ 64)%Z ->
  full_out (do_run_flut_on T Y store f spec cipher (Some output) None freq queue_size interval bkey (Some max_depth) None false)
    f skey output g bits.
Proof.
  intros HK FC NO EG SG HQ HI0 HD HDN HM HWd L64.
  assert (W : wf_graph g) by (eapply from_file_wf; eauto).
  destruct (C33_flut T s0 s1 bit E OK NN g max_depth queue_size interval _ _ W HQ HI0 HD HDN HM (asked_encrypts T Y s1 bit YO None coin bits 0) HWd)
    as (outs & s' & EO & PO).
  apply bind_ok in EO as (r & EN & EO).
  destruct (do_run_flut_on T Y store f spec cipher (Some output) None freq queue_size interval bkey (Some max_depth) None false) as [c0|e] eqn:EC; [|discriminate].
  destruct (flut_on_peel f bkey spec cipher (Some output) None freq queue_size interval max_depth g r coin bits c0 (proj1 HQ) (proj2 HK) EG EN EC) as (KI & KK & PL).
  exact (loop_full_out _ _ _ _ (flut_one_any_exact T) (flut_result_any_exact T) f skey bkey cipher coin bits g r s' outs HK FC L64
           _ c0 eq_refl KI KK output freq NO EO PO PL).
Qed.
Theorem C75_flut_dir f skey bkey spec cipher dir freq queue_size interval max_depth g coin bits :
  keys_at Y f skey bkey -> f cipher = Some (enc_output T Y coin bits) ->
  (forall j, report_file dir j <> skey /\ report_file dir j <> cipher) ->
  from_file f spec = Ok g -> 0 < size g -> 0 < freq ->
  0 < queue_size < 31 -> 0 < interval -> max_depth < 31 -> table_fits (t_n1 T) max_depth queue_size g ->
  flut_margin (size g * 2 ^ (queue_size / 2)) queue_size interval E ->
  (forall n k, In n (flushes queue_size 0 0 (asked (Some freq) 0 bits)) -> width g n k -> k < 2 ^ max_depth) ->
  (Z.of_nat (length bits * (words * 8)) < 2 ^ 64)%Z ->
  full_dir (do_run_flut_on T Y store f spec cipher None (Some dir) freq queue_size interval bkey (Some max_depth) None false)
    f skey dir freq g bits.
Proof.
  intros HK FC HD EG SG HF HQ HI0 HMD HDN HM HWd L64.
  assert (W : wf_graph g) by (eapply from_file_wf; eauto).
  destruct (C33_flut T s0 s1 bit E OK NN g max_depth queue_size interval _ _ W HQ HI0 HMD HDN HM (asked_encrypts T Y s1 bit YO (Some freq) coin bits 0) HWd)
    as (outs & s' & EO & PO).
  apply bind_ok in EO as (r & EN & EO).
  destruct (do_run_flut_on T Y store f spec cipher None (Some dir) freq queue_size interval bkey (Some max_depth) None false) as [c0|e] eqn:EC; [|discriminate].
  destruct (flut_on_peel f bkey spec cipher None (Some dir) freq queue_size interval max_depth g r coin bits c0 (proj1 HQ) (proj2 HK) EG EN EC) as (KI & KK & PL).
  exact (loop_full_dir _ _ _ _ (flut_one_any_exact T) (flut_result_any_exact T) f skey bkey cipher coin bits g r s' outs HK FC L64
           _ c0 eq_refl KI KK dir freq HF HD EO PO PL).
Qed.

(** * C75: block *)
Theorem C75_block f skey bkey spec cipher output queue_size g coin bits :
  keys_at Y f skey bkey -> f cipher = Some (enc_output T Y coin bits) -> output <> skey ->
  from_file f spec = Ok g -> 0 < size g -> bits <> [] ->
  block_margin g queue_size E -> Nat.log2 (size g) + 1 < t_n1 T -> Nat.log2 (size g) + 1 < 31 ->
  (Z.of_nat (length bits * (words * 8)) < 2 ^ 64)%Z ->
  full_out (do_run_block_on T Y store f spec cipher output queue_size bkey false) f skey output g bits.
Proof.
  intros HK FC NO EG SG HNE HM HL1 HL2 L64.
  assert (W : wf_graph g) by (eapply from_file_wf; eauto).
  destruct (C32_block T s0 s1 bit E OK NN g queue_size _ _ W HM HL1 HL2 (asked_encrypts T Y s1 bit YO None coin bits 0))
    as (outs & s' & EO & PO).
  { destruct bits; [congruence|discriminate]. }
  apply bind_ok in EO as (r & EN & EO).
  destruct (do_run_block_on T Y store f spec cipher output queue_size bkey false) as [c0|e] eqn:EC; [|discriminate].
  assert (PL : cmd_input c0 = cipher /\ cmd_kind c0 = Forward /\ forall W, peel W ->
    W (monitor_loop_on T Y store (block_eval_one_any T) (block_result_any T) cipher None 0
         (last_output_on T store (block_result_any T) (Some output) None (length bits)) (length bits) 0 r f) (map (c_save T Y) (encs T Y coin bits)) ->
    W (cmd_body c0) (map (c_save T Y) (encs T Y coin bits))).
  { unfold do_run_block_on in EC. injection EC as <-. split; [reflexivity|]. split; [reflexivity|]. intros W0 PW HL. cbn [cmd_body].
    destruct (proj2 HK) as (bb & HKB & RK).
    eapply (pl_det _ PW); [exact EG|].
    eapply (pl_det _ PW) with (a := (true, true));
      [unfold read_bkey, open_file; rewrite HKB; cbn [bind]; rewrite RK; reflexivity|].
    cbv beta iota. eapply (pl_det _ PW) with (a := tt); [reflexivity|].
    eapply (pl_det _ PW); [exact EN|]. apply (pl_size _ PW). rewrite map_length, encs_length. exact HL. }
  destruct PL as (KI & KK & PL).
  exact (loop_full_out _ _ _ _ (block_one_any_exact T) (block_result_any_exact T) f skey bkey cipher coin bits g r s' outs HK FC L64
           _ c0 eq_refl KI KK output 0 NO EO PO PL).
Qed.
End Full.

(** * The hypotheses are met: the example of C58 (six input bits, accepted). *)
Definition ex_pieces (b : list N) : list (list N) := [firstn 1 b; skipn 1 b].
Example ex_pieces_ok : forall b, concat (ex_pieces b) = b.
Proof. intros b. unfold ex_pieces. cbn [concat]. rewrite app_nil_r. apply firstn_skipn. Qed.
Example ex_whole_keys : keys_at ex_Y ex_whole ["k"%char] ["b"%char].
Proof. split; eexists; (split; [vm_compute; reflexivity|reflexivity]). Qed.
Example ex_whole_spec : from_file ex_whole ["s"%char] = Ok ex_g.
Proof. vm_compute. reflexivity. Qed.

(** No room at all and a large buffer: success is reported, and dec refuses the result. *)
Theorem C75_reported_refuted : exists cap room f2,
  run_ends ex_T ex_Y (do_run_reverse_on ex_T ex_Y (store_disk cap room (fun _ => 0) (fun _ _ => true) ex_pieces) ex_whole ["s"%char] ["c"%char]
    (Some ["o"%char]) None 1 2 false ["b"%char] false) ex_whole (Ok f2) /\
  do_dec ex_T ex_Y f2 ["k"%char] ["o"%char] = Fail FExit.
Proof.
  destruct ex_contract as (H1 & H2). destruct ex_margins as (M1 & _). destruct ex_from_file as (_ & _ & SG).
  set (cap := result_size ex_T). exists cap, (fun _ _ => 0).
  edestruct (C75_reverse ex_T _ _ _ _ ex_Y H1 H2 ex_crypto cap (fun _ _ => 0) (fun _ => 0) (fun _ _ => true) ex_pieces ex_pieces_ok
               ex_whole ["k"%char] ["b"%char] ["s"%char] ["c"%char] ["o"%char] 1 2 ex_g 0 [true; false; false; true; true; false])
    as ((r & R & LZ & RE) & _);
    [exact ex_whole_keys|apply write_same|discriminate|exact ex_whole_spec|rewrite SG; lia|lia|exact M1|vm_compute; reflexivity|].
  destruct (LZ eq_refl (fun _ => eq_refl) (le_n _)) as (f2 & ->). exists f2. split; [exact R|].
  destruct RE as (_ & _ & [(L & _)|(_ & D)]); [exfalso; unfold result_size in L; lia|exact D].
Qed.
(** Reports after every second input, room for all but 4.out, no buffer: the command fails; and with room for all it
    succeeds and 4.out is right. *)
Definition ex_room (f : fs) (p : text) : nat := if path_eqb p (report_file ["d"%char] 4) then 3 else result_size ex_T.
Example C75_dir_nonvacuous :
  run_ends ex_T ex_Y (do_run_reverse_on ex_T ex_Y (store_disk 0 ex_room (fun _ => 0) (fun _ _ => true) ex_pieces) ex_whole ["s"%char] ["c"%char]
    None (Some ["d"%char]) 2 2 false ["b"%char] false) ex_whole (Fail FExit) /\
  exists f2,
  run_ends ex_T ex_Y (do_run_reverse_on ex_T ex_Y (store_disk 0 (fun _ _ => result_size ex_T) (fun _ => 0) (fun _ _ => true) ex_pieces) ex_whole ["s"%char] ["c"%char]
    None (Some ["d"%char]) 2 2 false ["b"%char] false) ex_whole (Ok f2) /\
  do_dec ex_T ex_Y f2 ["k"%char] (report_file ["d"%char] 4) = Ok ["1"%char].
Proof.
  destruct ex_contract as (H1 & H2). destruct ex_margins as (M1 & _). destruct ex_from_file as (_ & _ & SG). split.
  - edestruct (C75_reverse_dir ex_T _ _ _ _ ex_Y H1 H2 ex_crypto 0 ex_room (fun _ => 0) (fun _ _ => true) ex_pieces ex_pieces_ok
               ex_whole ["k"%char] ["b"%char] ["s"%char] ["c"%char] ["d"%char] 2 2 ex_g 0 [true; false; false; true; true; false])
      as ((r & R & _ & RE & _) & _);
      [exact ex_whole_keys|apply write_same|exact ex_report_names|exact ex_whole_spec|rewrite SG; lia|lia|lia|exact M1|vm_compute; reflexivity|].
    destruct r as [f2|e]; [exfalso|destruct RE as (_ & _ & _ & [([=] & _)|(_ & -> & _)]); exact R].
    destruct RE as (_ & RE). destruct (RE 4) as (_ & f1 & _ & X); [left; cbn; lia|].
    unfold ex_room in X. rewrite path_eqb_refl in X. unfold result_size in X. lia.
  - edestruct (C75_reverse_dir ex_T _ _ _ _ ex_Y H1 H2 ex_crypto 0 (fun _ _ => result_size ex_T) (fun _ => 0) (fun _ _ => true) ex_pieces ex_pieces_ok
               ex_whole ["k"%char] ["b"%char] ["s"%char] ["c"%char] ["d"%char] 2 2 ex_g 0 [true; false; false; true; true; false])
      as ((r & R & _ & _ & RE) & _);
      [exact ex_whole_keys|apply write_same|exact ex_report_names|exact ex_whole_spec|rewrite SG; lia|lia|lia|exact M1|vm_compute; reflexivity|].
    destruct (RE (fun _ _ _ => conj eq_refl (le_n _))) as (f2 & -> & RI). exists f2. split; [exact R|].
    destruct (RI 4) as (b & A & D); [left; cbn; lia|]. vm_compute in A. injection A as <-. exact D.
Qed.
(** Reports after every second input, 4.out cannot be opened: the command ends with a failed assertion, 2.out is right then and 6.out
    has not been touched. *)
Definition ex_opens (f : fs) (p : text) : bool := negb (path_eqb p (report_file ["d"%char] 4)).
Example C75_opens_nonvacuous :
  let cmd := do_run_reverse_on ex_T ex_Y (store_disk 0 (fun _ _ => result_size ex_T) (fun _ => 0) ex_opens ex_pieces) ex_whole ["s"%char] ["c"%char]
    None (Some ["d"%char]) 2 2 false ["b"%char] false in
  run_ends ex_T ex_Y cmd ex_whole (Fail FAssert) /\
  forall r f', run_over ex_T ex_Y cmd ex_whole r f' ->
    r = Fail FAssert /\ (exists b, accepts ex_g [true; false] = Ok b /\ do_dec ex_T ex_Y f' ["k"%char] (report_file ["d"%char] 2) = Ok (answer b)) /\
    f' (report_file ["d"%char] 6) = ex_whole (report_file ["d"%char] 6).
Proof.
  destruct ex_contract as (H1 & H2). destruct ex_margins as (M1 & _). destruct ex_from_file as (_ & _ & SG). cbv zeta.
  edestruct (C75_reverse_dir ex_T _ _ _ _ ex_Y H1 H2 ex_crypto 0 (fun _ _ => result_size ex_T) (fun _ => 0) ex_opens ex_pieces ex_pieces_ok
               ex_whole ["k"%char] ["b"%char] ["s"%char] ["c"%char] ["d"%char] 2 2 ex_g 0 [true; false; false; true; true; false])
      as ((r & R & RE) & _ & OV);
      [exact ex_whole_keys|apply write_same|exact ex_report_names|exact ex_whole_spec|rewrite SG; lia|lia|lia|exact M1|vm_compute; reflexivity|].
  assert (ST : forall r, dir_ends ex_T ex_Y 0 (fun _ _ => result_size ex_T) (fun _ => 0) ex_opens ex_whole ["k"%char] ["d"%char] 2 ex_g
      [true; false; false; true; true; false] r -> r = Fail FAssert).
  { intros [f2|e] (_ & X & _).
    - destruct X as (_ & X). destruct (X 4) as (_ & f1 & O & _); [left; cbn; lia|].
      unfold ex_opens in O. rewrite path_eqb_refl in O. discriminate.
    - destruct X as (f1 & j & _ & [(_ & ->)|(_ & _ & L)]); [reflexivity|lia]. }
  split; [rewrite (ST r RE) in R; exact R|].
  intros r' f' RO. destruct (OV r' f' RO) as (DE & DO). rewrite (ST r' DE) in *. split; [reflexivity|].
  destruct DO as (j & _ & A & B & [(_ & O)|([=] & _)]).
  assert (j = 4) as ->.
  { unfold ex_opens in O. apply Bool.negb_false_iff in O. apply path_eqb_iff in O. apply report_file_inj in O. exact O. }
  split; [|apply B; lia].
  destruct (A 2) as (_ & A2); [left; cbn; lia|lia|]. destruct A2 as (b & AC & D); [intros; apply le_n|]. exists b. split; [exact AC|exact D].
Qed.
(** The other commands on the same files; no room but a buffer for half a result. *)
Example C75_offline_nonvacuous :
  full_out ex_T ex_Y 10 (fun _ _ => 0) (fun n => n) (fun _ _ => true)
    (do_run_offline_on ex_T ex_Y (store_disk 10 (fun _ _ => 0) (fun n => n) (fun _ _ => true) ex_pieces) ex_whole ["s"%char] ["c"%char] ["o"%char] 2 ["b"%char] false)
    ex_whole ["k"%char] ["o"%char] ex_g [true; false; false; true; true; false].
Proof.
  destruct ex_contract as (H1 & H2). destruct ex_margins as (M1 & _). destruct ex_from_file as (_ & _ & SG).
  eapply (C75_offline ex_T _ _ _ _ ex_Y H1 H2 ex_crypto); [exact ex_pieces_ok|exact ex_whole_keys|apply write_same|discriminate
    |exact ex_whole_spec|rewrite SG; lia|lia|exact M1|vm_compute; reflexivity|vm_compute; reflexivity].
Qed.
Example C75_block_nonvacuous :
  full_out ex_T ex_Y 10 (fun _ _ => 0) (fun n => n) (fun _ _ => true)
    (do_run_block_on ex_T ex_Y (store_disk 10 (fun _ _ => 0) (fun n => n) (fun _ _ => true) ex_pieces) ex_whole ["s"%char] ["c"%char] ["o"%char] 2 ["b"%char] false)
    ex_whole ["k"%char] ["o"%char] ex_g [true; false; false; true; true; false].
Proof.
  destruct ex_contract as (H1 & H2). destruct ex_margins as (_ & M1 & _). destruct ex_from_file as (_ & _ & SG).
  eapply (C75_block ex_T _ _ _ _ ex_Y H1 H2 ex_crypto); [exact ex_pieces_ok|exact ex_whole_keys|apply write_same|discriminate
    |exact ex_whole_spec|rewrite SG; lia|discriminate|unfold block_margin, block_noise in *; rewrite SG; exact M1|rewrite SG; cbn; lia
    |rewrite SG; cbn; lia|vm_compute; reflexivity].
Qed.
Example C75_flut_nonvacuous :
  full_out ex_T ex_Y 10 (fun _ _ => 0) (fun n => n) (fun _ _ => true)
    (do_run_flut_on ex_T ex_Y (store_disk 10 (fun _ _ => 0) (fun n => n) (fun _ _ => true) ex_pieces) ex_whole ["s"%char] ["c"%char] (Some ["o"%char]) None 4 2 2
       ["b"%char] (Some 2) None false)
    ex_whole ["k"%char] ["o"%char] ex_g [true; false; false; true; true; false] /\
  full_dir ex_T ex_Y 10 ex_room (fun n => n) (fun _ _ => true)
    (do_run_flut_on ex_T ex_Y (store_disk 10 ex_room (fun n => n) (fun _ _ => true) ex_pieces) ex_whole ["s"%char] ["c"%char] None (Some ["d"%char]) 4 2 2
       ["b"%char] (Some 2) None false)
    ex_whole ["k"%char] ["d"%char] 4 ex_g [true; false; false; true; true; false].
Proof.
  destruct ex_contract as (H1 & H2). destruct ex_margins as (_ & _ & M1). destruct ex_from_file as (_ & W & SG).
  assert (WD : forall n k, width ex_g n k -> k < 2 ^ 2).
  { intros n k HW. destruct (reach_exists ex_g n) as [l HR].
    rewrite (width_unique _ _ _ _ HW (reach_width _ W _ _ HR)).
    pose proof (reach_len _ W _ _ HR) as HL. rewrite SG in HL. cbn. lia. }
  split.
  - eapply (C75_flut ex_T _ _ _ _ ex_Y H1 H2 ex_crypto); [exact ex_pieces_ok|exact ex_whole_keys|apply write_same|discriminate
      |exact ex_whole_spec|rewrite SG; lia|lia|lia|lia|apply FlutFacts.depth_fits; cbn; lia|rewrite SG; exact M1|intros n k _; apply WD
      |vm_compute; reflexivity].
  - eapply (C75_flut_dir ex_T _ _ _ _ ex_Y H1 H2 ex_crypto); [exact ex_pieces_ok|exact ex_whole_keys|apply write_same|exact ex_report_names
      |exact ex_whole_spec|rewrite SG; lia|lia|lia|lia|lia|apply FlutFacts.depth_fits; cbn; lia|rewrite SG; exact M1|intros n k _; apply WD
      |vm_compute; reflexivity].
Qed.
Print Assumptions C75_same.
Print Assumptions C75_offline.
Print Assumptions C75_reverse.
Print Assumptions C75_reverse_dir.
Print Assumptions C75_flut.
Print Assumptions C75_flut_dir.
Print Assumptions C75_block.
Print Assumptions C75_reported_refuted.
