(** The run commands on a disk that can be full: what they write, in which order, and how they end. *)
From Coq Require Import List Arith Bool NArith ZArith Ascii Lia.
Import ListNotations.
From Verif Require Import Base BaseFacts GraphModel Spec GraphFacts TextModel TextSpec BitsModel BitsFacts TorusModel TfheSpec TfheFacts
  RunnerModel RunnerSpec RunnerFacts PropsRunner ParModel ParFacts SchedFacts StreamModel InputSpec StreamFacts
  ClientModel ClientFacts CmdModel CmdSpec CmdFacts PropsCmd CrashModel CrashFacts PropsCrash DiskModel DiskFacts PropsDisk DiskRunModel.

Lemma sure_size {R} (k : nat -> client R) rem r : sure (k (length rem)) rem r -> sure (PSize k) rem r.
Proof. intros H. exact H. Qed.
Lemma sure_next {R} (k : list N -> client R) c rem r : sure (k c) rem r -> sure (PNext k) (c :: rem) r.
Proof. intros H. exact H. Qed.

(** How every execution ends, with the outcome and the files it leaves. *)
Fixpoint lands {R} (Q : res R -> R -> Prop) (d : R) (p : client R) (rem : list (list N)) : Prop :=
  match p with
  | PRet r => Q r d
  | PSize k => lands Q d (k (length rem)) rem
  | PNext k => match rem with [] => Q (Fail FAssert) d | c :: rem' => lands Q d (k c) rem' end
  | PAny o k => forall a, o a -> match a with Ok x => lands Q d (k x) rem | Fail e => Q (Fail e) d end
  | PFiles _ r q => lands Q r q rem
  end.
Lemma kept_lands {R} (Q : res R -> R -> Prop) d : kept (lands Q d) (fun r => Q r d).
Proof.
  constructor; cbn [lands]; try solve [intros; assumption].
  - intros X o k rem x H O. apply (H _ O).
  - intros X o k rem f H O. apply (H _ O).
Qed.
Section Runs.
Context (k : kind) (words : nat) (cts : list (list N)).
Hypothesis HW : 0 < words.
Hypothesis HB : (Z.of_nat (block_size words) < 2 ^ 63)%Z.
Hypothesis HC : Forall (is_ctxt words) cts.
Hypothesis HF : (Z.of_nat (length cts * block_size words) < two64)%Z.
Context {R : Type}.
Theorem stream_lands (Q : res R -> R -> Prop) p d junk s t r d' : length junk = words -> lands Q d p (delivery k cts) ->
  open_stream k words (concat (map save cts)) junk [] = Ok s -> fmoves_to k words ((s, Run p), d) ((t, Over r), d') -> Q r d'.
Proof.
  intros HJ A ES M. destruct (open_idle k words cts HW HB HC HF junk HJ) as (s1 & E1 & I1 & P1). rewrite ES in E1. injection E1 as <-.
  assert (K : forall z, fmoves_to k words ((s, Run p), d) z -> good k words cts (lands Q (snd z)) (fun r => Q r (snd z)) (fst z)).
  { clear M. intros z M'. remember ((s, Run p), d) as z0 eqn:E0. induction M' as [z|z y z' M' IH N].
    - subst z. cbn [fst snd]. exists 0. auto.
    - specialize (IH E0). clear E0 M'. revert IH.
      destruct N as [s' t0 w q d1 d2 TD|s' t0 w q d1|x1 y1 d1 MV NF]; cbn [fst snd]; intros G.
      + destruct G as (i & J1 & J2 & J3). exists i. auto.
      + destruct G as (i & J1 & J2 & J3). exists i. auto.
      + eapply (good_move k words cts HW HB HC _ _ x1 y1); eauto. apply kept_lands. }
  exact (K _ M).
Qed.
End Runs.

Section Disk.
Context (T : tfhe) (Y : crypto T) (s1 : list Z) (bit : trgsw T -> bool -> Prop).
Hypothesis YO : crypto_ok T Y s1 bit.
Context (cap : nat) (room : fs -> text -> nat) (pol : nat -> nat) (opens : fs -> text -> bool) (pieces : list N -> list (list N)).
Hypothesis HPC : forall b, concat (pieces b) = b.
Notation N1 := (t_n1 T).
Notation store := (store_disk cap room pol opens pieces).
Notation words := (c_words T Y).

Definition attempt (f : fs) (p : text) (c : list Z) : res unit * fs :=
  write_to_archive cap (room f p) pol (opens f p) f p (pieces (archive_tlwe N1 c)).
Lemma attempt_closed f p c r f' : attempt f p c = (r, f') -> opens f p = false -> r = Fail FAssert /\ f' = f.
Proof. unfold attempt, write_to_archive. intros H E. rewrite E in H. injection H as <- <-. auto. Qed.
Lemma attempt_opens f p c f' : attempt f p c = (Ok tt, f') -> opens f p = true.
Proof. intros H. destruct (opens f p) eqn:EO; [reflexivity|]. destruct (attempt_closed _ _ _ _ _ H EO). discriminate. Qed.
Lemma attempt_facts f p c r f' : attempt f p c = (r, f') -> opens f p = true ->
  (forall q, q <> p -> f' q = f q) /\ f' p = Some (firstn (room f p) (archive_tlwe N1 c)) /\
  (r = Ok tt \/ r = Fail FExit) /\ (r = Ok tt -> 1 + 4 * (N1 + 1) <= room f p + cap) /\ (1 + 4 * (N1 + 1) <= room f p -> r = Ok tt).
Proof.
  intros H EO. apply C72_archive in H. rewrite EO, HPC, archive_length in H. destruct H as (A & B & C & D & F).
  repeat (split; [assumption|]). split; [|exact F]. intros X. specialize (D X). lia.
Qed.

(** a buffer that can hold the whole result and passes nothing on before the end: nothing is noticed *)
Lemma put_all_lazy e rm ps : (forall n, pol n = 0) -> forall b, length b + length (concat ps) <= cap ->
  put_all cap rm pol e (mkOfile [] b) ps = (mkOfile [] (b ++ concat ps), Ok tt).
Proof.
  intros HL. induction ps as [|d ps IH]; intros b L; cbn [put_all concat] in *; [rewrite app_nil_r; reflexivity|].
  rewrite app_length in L. unfold sputn. destruct d as [|x d].
  - cbn [length Nat.eqb app]. rewrite IH; auto.
  - cbn [o_file o_buf]. rewrite !app_length, HL.
    replace (Nat.max (length b + length (x :: d) - cap) (Nat.min 0 (length b + length (x :: d)))) with 0 by lia.
    cbn [length Nat.add Nat.leb firstn skipn app]. rewrite Nat.eqb_refl.
    rewrite IH by (rewrite app_length; cbn [length] in *; lia). rewrite <- app_assoc. reflexivity.
Qed.
Lemma attempt_lazy f p c : opens f p = true -> (forall n, pol n = 0) -> 1 + 4 * (N1 + 1) <= cap -> fst (attempt f p c) = Ok tt.
Proof.
  intros EO HL HC. unfold attempt, write_to_archive. rewrite EO, put_all_lazy; [reflexivity|exact HL|].
  rewrite HPC, archive_length. exact HC.
Qed.

(** what a list of results leads to *)
Fixpoint attempts (L : list (text * list Z)) (f : fs) : res fs :=
  match L with
  | [] => Ok f
  | (p, c) :: L' => let '(r, f') := attempt f p c in match r with Ok _ => attempts L' f' | Fail e => Fail e end
  end.
Inductive seen : list (text * list Z) -> fs -> fs -> Prop :=
| seen_now L f d : same_files f d -> seen L f d
| seen_part p c L f d : opens f p = true -> part_written f p (archive_tlwe N1 c) d -> seen ((p, c) :: L) f d
| seen_next p c L f f' d : attempt f p c = (Ok tt, f') -> seen L f' d -> seen ((p, c) :: L) f d.

Lemma part_room f p bytes k d : part_written f p (firstn k bytes) d -> part_written f p bytes d.
Proof. intros (n & H). exists (Nat.min n k). intros q. rewrite H, firstn_firstn. reflexivity. Qed.
Lemma attempt_part f p c r f' : attempt f p c = (r, f') -> opens f p = true -> part_written f p (archive_tlwe N1 c) f'.
Proof.
  intros H EO. destruct (attempt_facts _ _ _ _ _ H EO) as (A & B & _). exists (room f p). intros q.
  destruct (list_eq_dec ascii_dec q p) as [->|N]; [rewrite B, write_same; reflexivity|].
  rewrite write_other by auto. apply A. exact N.
Qed.

Lemma store_sure p c L f k rem :
  (forall f', attempt f p c = (Ok tt, f') -> sure (k f') rem (attempts L f')) ->
  sure (store f p (archive_tlwe N1 c) k) rem (attempts ((p, c) :: L) f).
Proof.
  intros H. unfold store_disk. cbn [attempts]. fold (attempt f p c). destruct (attempt f p c) as [r f'] eqn:EA.
  cbn [sure]. destruct r as [[]|e]; [|reflexivity]. apply H. reflexivity.
Qed.
Lemma store_always p c L f k rem :
  (forall f', attempt f p c = (Ok tt, f') -> always (seen L f') f' (k f') rem) ->
  always (seen ((p, c) :: L) f) f (store f p (archive_tlwe N1 c) k) rem.
Proof.
  intros H. unfold store_disk. fold (attempt f p c). destruct (attempt f p c) as [r f'] eqn:EA.
  cbn [always]. split; [apply seen_now; intros q; reflexivity|]. split.
  - intros d' H'. destruct (opens f p) eqn:EO; [|apply seen_now; exact H']. apply seen_part; [exact EO|]. eapply part_room. exact H'.
  - destruct r as [[]|e].
    + eapply always_mono; [|apply H; reflexivity]. intros d. apply (seen_next p c L f f'). exact EA.
    + cbn [always]. split; [|exact I]. destruct (opens f p) eqn:EO.
      * apply seen_part; [exact EO|]. eapply attempt_part; eauto.
      * destruct (attempt_closed _ _ _ _ _ EA EO) as [_ ->]. apply seen_now. intros q. reflexivity.
Qed.

(** the files at the end *)
Fixpoint final (L : list (text * list Z)) (f : fs) : fs :=
  match L with
  | [] => f
  | (p, c) :: L' => let '(r, f') := attempt f p c in match r with Ok _ => final L' f' | Fail _ => f' end
  end.
(** [p], started with the files [f], tries to write the results [L] *)
Definition does (L : list (text * list Z)) (f : fs) (p : client fs) (rem : list (list N)) : Prop :=
  sure p rem (attempts L f) /\ always (seen L f) f p rem /\ lands (fun r d => r = attempts L f /\ d = final L f) f p rem.
Lemma does_ret f rem : does [] f (PRet (Ok f)) rem.
Proof. split; [reflexivity|]. split; [|split; reflexivity]. split; [apply seen_now; intros q; reflexivity|exact I]. Qed.
Lemma does_size L f k rem : does L f (k (length rem)) rem -> does L f (PSize k) rem.
Proof. intros (A & B & C). split; [exact A|]. split; [apply always_size; exact B|exact C]. Qed.
Lemma does_next L f k c rem : does L f (k c) rem -> does L f (PNext k) (c :: rem).
Proof. intros (A & B & C). split; [exact A|]. split; [apply always_next; exact B|exact C]. Qed.
Lemma does_any {X} L f (o : outcomes X) k a rem : (forall x, o x <-> x = Ok a) -> does L f (k a) rem -> does L f (PAny o k) rem.
Proof.
  intros H (A & B & C). split; [apply (sure_any _ _ a); auto|]. split; [apply (always_any _ _ _ _ a); auto|].
  intros x Hx. apply H in Hx as ->. exact C.
Qed.
Lemma does_det {X} L f (m : res X) k a rem : m = Ok a -> does L f (k a) rem -> does L f (pdet m k) rem.
Proof. intros ->. apply does_any. intros x. reflexivity. Qed.
Lemma does_store p c L f k rem :
  (forall f', attempt f p c = (Ok tt, f') -> does L f' (k f') rem) ->
  does ((p, c) :: L) f (store f p (archive_tlwe N1 c) k) rem.
Proof.
  intros H. split; [apply store_sure; intros f' E; apply H; exact E|]. split; [apply store_always; intros f' E; apply H; exact E|].
  unfold store_disk. cbn [final attempts]. fold (attempt f p c). destruct (attempt f p c) as [r f'] eqn:EA.
  cbn [lands]. destruct r as [[]|e]; [|split; reflexivity]. apply (H f'). reflexivity.
Qed.

Section Loop.
Context {St : Type} (feed : St -> trgsw T -> outcomes St) (ask : St -> outcomes (list Z * St))
        (feedD : St -> trgsw T -> res St) (askD : St -> res (list Z * St)).
Hypothesis HFeed : forall s c, exact (feed s c) (feedD s c).
Hypothesis HAsk : forall s, exact (ask s) (askD s).
Context (input : text) (dir : option text) (freq : nat).
Notation freq_of := (freq_of dir freq).
Notation dir_path := (dir_path dir).

Lemma loop_on rem : forall i s f finish outs s' last,
  (forall d, dir = Some d -> 0 < freq) ->
  (forall j, i < j <= i + length rem -> dir <> None -> dir_path j <> input) ->
  play feedD askD (asked freq_of i (map (c_load T Y) rem)) s = Ok (outs, s') ->
  (forall t c t' f', askD t = Ok (c, t') -> does [(last, c)] f' (finish t f') []) ->
  exists l c, outs = l ++ [c] /\ length outs = length (reports freq_of i (length rem)) /\
    does (combine (map dir_path (reports freq_of i (length rem))) l ++ [(last, c)]) f
      (monitor_loop_on T Y store feed ask input dir freq finish (length rem) i s f) rem.
Proof.
  induction rem as [|c rem IH]; intros i s f finish outs s' last HD HN HP HF.
  - cbn [map asked play] in HP. apply bind_ok in HP as ([c t] & EA & HP). cbn in HP. injection HP as <- <-.
    exists [], c. split; [reflexivity|]. split.
    + unfold reports. cbn [seq length]. destruct freq_of; reflexivity.
    + assert (X : forall ps : list text, combine ps (@nil (list Z)) = []) by (destruct ps; reflexivity).
      rewrite X. apply does_size. exact (HF s c t f EA).
  - cbn [map asked play] in HP. apply bind_ok in HP as (t & EF & HP).
    cbn [length monitor_loop_on]. rewrite (reports_cons dir freq). unfold CmdFacts.freq_of in *.
    destruct dir as [d|] eqn:Ed.
    + pose proof (HD d eq_refl) as HD0. rewrite (mod_step freq i HD0).
      destruct (Nat.eqb_spec freq 0) as [|_]; [lia|].
      destruct (S i mod freq =? 0) eqn:EM.
      * cbn [play] in HP. apply bind_ok in HP as ([c1 t1] & EA & HP). apply bind_ok in HP as ([outs1 t2] & HP & HQ).
        injection HQ as <- <-.
        assert (IH' := fun f' => IH (S i) t1 f' finish outs1 t2 last).
        destruct (IH' f) as (l & c0 & E1 & E2 & _); auto.
        { intros j Hj. apply HN. cbn [length]. lia. }
        assert (IHS : forall f', does (combine (map (CmdFacts.dir_path (Some d)) (reports (Some freq) (S i) (length rem))) l ++ [(last, c0)]) f'
          (monitor_loop_on T Y store feed ask input (Some d) freq finish (length rem) (S i) t1 f') rem).
        { intros f'. destruct (IH' f') as (l' & c0' & E1' & _ & SU); auto.
          { intros j Hj. apply HN. cbn [length]. lia. }
          rewrite E1 in E1'. apply app_inj_tail in E1' as [<- <-]. exact SU. }
        exists (c1 :: l), c0. split; [rewrite E1; reflexivity|]. split; [cbn [app length]; rewrite E2; reflexivity|].
        cbn [app map combine].
        apply does_size. cbn [length Nat.eqb]. apply does_next.
        apply (does_any _ _ _ _ t); [apply HFeed; exact EF|]. apply (does_any _ _ _ _ (c1, t1)); [apply HAsk; exact EA|].
        replace (i + 1) with (S i) by lia. rewrite report_path.
        change (report_file d (S i)) with (CmdFacts.dir_path (Some d) (S i)).
        rewrite path_eqb_neq; [|apply (HN (S i)); [cbn [length]; lia|discriminate]].
        apply does_store. intros f' _. apply IHS.
      * destruct (IH (S i) t f finish outs s' last) as (l & c0 & E1 & E2 & SU); auto.
        { intros j Hj. apply HN. cbn [length]. lia. }
        exists l, c0. split; auto. split; auto. cbn [app].
        apply does_size. cbn [length Nat.eqb]. apply does_next. apply (does_any _ _ _ _ t); [apply HFeed; exact EF|]. exact SU.
    + destruct (IH (S i) t f finish outs s' last) as (l & c0 & E1 & E2 & SU); auto.
      exists l, c0. split; auto. split; auto. cbn [app].
      apply does_size. cbn [length Nat.eqb]. apply does_next. apply (does_any _ _ _ _ t); [apply HFeed; exact EF|]. exact SU.
Qed.

Lemma to_file_on rem n s f o outs s' : dir = None -> length rem = n ->
  play feedD askD (asked None 0 (map (c_load T Y) rem)) s = Ok (outs, s') ->
  exists c, outs = [c] /\
    does [(o, c)] f (monitor_loop_on T Y store feed ask input dir freq (last_output_on T store ask (Some o) dir n) n 0 s f) rem.
Proof.
  intros Ed <- HP. assert (FO : freq_of = None) by (rewrite Ed; reflexivity).
  destruct (loop_on rem 0 s f (last_output_on T store ask (Some o) dir (length rem)) outs s' o) as (l & c & E1 & E2 & SU).
  - intros d E. congruence.
  - intros j _ N. congruence.
  - rewrite FO. exact HP.
  - intros t c t' f' EA. unfold last_output_on.
    apply (does_any _ _ _ _ (c, t')); [apply HAsk; exact EA|]. apply does_store. intros f1 _. apply does_ret.
  - rewrite FO in *. unfold reports in *. cbn [app length] in E2. rewrite E1, app_length in E2. cbn [length] in E2.
    destruct l; [|cbn in E2; lia]. exists c. split; [exact E1|]. cbn [app map combine Nat.add] in SU. exact SU.
Qed.
Lemma to_dir_on rem n s f d outs s' : dir = Some d -> 0 < freq -> length rem = n ->
  (forall j, 0 < j <= n -> report_file d j <> input) ->
  play feedD askD (asked (Some freq) 0 (map (c_load T Y) rem)) s = Ok (outs, s') ->
  length outs = length (reports (Some freq) 0 n) /\
  does (combine (map (report_file d) (reports (Some freq) 0 n)) outs) f
    (monitor_loop_on T Y store feed ask input dir freq (last_output_on T store ask None dir n) n 0 s f) rem.
Proof.
  intros Ed HF0 <- HN HP. assert (FO : freq_of = Some freq) by (rewrite Ed; reflexivity).
  assert (DP : forall j, dir_path j = report_file d j) by (intros; rewrite Ed; reflexivity).
  destruct (loop_on rem 0 s f (last_output_on T store ask None dir (length rem)) outs s' (report_file d (length rem)))
    as (l & c & E1 & E2 & SU).
  - auto.
  - intros j Hj _. rewrite DP. apply HN. lia.
  - rewrite FO. exact HP.
  - intros t c t' f' EA. unfold last_output_on.
    apply (does_any _ _ _ _ (c, t')); [apply HAsk; exact EA|]. rewrite Ed, report_path. apply does_store. intros f1 _. apply does_ret.
  - rewrite FO in *. split; [exact E2|]. rewrite (map_ext _ _ DP) in SU.
    unfold reports in *. cbn [Nat.add] in *. rewrite map_app in *. cbn [map] in *.
    rewrite E1, !app_length in E2. cbn [length] in E2.
    rewrite combine_firstn_snoc in SU by (rewrite map_length; lia).
    rewrite E1, combine_snoc by (rewrite map_length; lia). exact SU.
Qed.
End Loop.
(** * offline *)
Lemma offline_loop_does L f rem : forall s s' finish,
  foldM (offline_eval_one T) (map (c_load T Y) rem) s = Ok s' ->
  does L f (finish s') [] -> does L f (offline_loop T Y (length rem) s finish) rem.
Proof.
  induction rem as [|c rem IH]; intros s s' finish; cbn [map foldM length offline_loop].
  - intros [= ->] S. exact S.
  - intros E S. apply bind_ok in E as (t & E1 & E2). apply does_next.
    apply (does_any _ _ _ _ t); [apply backstream_any_exact; exact E1|]. eapply IH; eauto.
Qed.

(** * What is in the files *)
Lemma part_file f p bytes d q : part_written f p bytes d -> (q <> p /\ d q = f q) \/ (q = p /\ exists k, d q = Some (firstn k bytes)).
Proof.
  intros (k & H). rewrite H. destruct (list_eq_dec ascii_dec q p) as [->|N]; [right|left].
  - split; [reflexivity|]. exists k. apply write_same.
  - split; [exact N|]. apply write_other. auto.
Qed.
Lemma seen_file L f d p : seen L f d -> d p = f p \/ exists c k, In (p, c) L /\ d p = Some (firstn k (archive_tlwe N1 c)) /\ exists f1, opens f1 p = true.
Proof.
  induction 1 as [L f d H|q c L f d HO H|q c L f f' d EA H IH].
  - left. apply H.
  - destruct (part_file _ _ _ _ p H) as [[_ E]|(-> & k & E)]; [auto|]. right. exists c, k. split; [left; reflexivity|]. split; [exact E|eauto].
  - destruct IH as [E|(c' & k & I & E & HO)]; [|right; exists c', k; split; [right; exact I|auto]].
    destruct (part_file _ _ _ _ p (attempt_part _ _ _ _ _ EA (attempt_opens _ _ _ _ EA))) as [[_ E']|(-> & k & E')]; [left; congruence|].
    right. exists c, k. split; [left; reflexivity|]. split; [congruence|]. exists f. exact (attempt_opens _ _ _ _ EA).
Qed.
Lemma seen_other L f d p : seen L f d -> ~ In p (map fst L) -> d p = f p.
Proof.
  intros H NI. destruct (seen_file L f d p H) as [E|(c & k & I & _ & _)]; [exact E|]. exfalso. apply NI. apply (in_map fst) in I. exact I.
Qed.
Lemma seen_earlier (name : nat -> text) : (forall a b, name a = name b -> a = b) -> forall rs outs f d i j,
  length outs = length rs -> (forall l1 l2 a b, rs = l1 ++ l2 -> In a l1 -> In b l2 -> a <= b) ->
  seen (combine (map name rs) outs) f d -> In i rs -> i < j -> d (name j) <> f (name j) ->
  exists c k, In (name i, c) (combine (map name rs) outs) /\ d (name i) = Some (firstn k (archive_tlwe N1 c)) /\
    exists f1, opens f1 (name i) = true.
Proof.
  intros INJ. induction rs as [|h rs IH]; intros outs f d i j HL SO HS Hi Hij Hd; [destruct Hi|].
  destruct outs as [|c0 outs]; [discriminate|]. cbn [map combine] in *.
  assert (MIN : h <= i). { destruct Hi as [->|Hi]; [lia|]. apply (SO [h] rs); cbn; auto. }
  inversion HS as [L0 f0 d0 H|p c L0 f0 d0 HO H|p c L0 f0 f' d0 EA H]; subst.
  - exfalso. apply Hd. apply H.
  - exfalso. destruct (part_file _ _ _ _ (name j) H) as [[_ E]|(E & _)]; [apply Hd; exact E|]. apply INJ in E. lia.
  - pose proof (part_file _ _ _ _ (name j) (attempt_part _ _ _ _ _ EA (attempt_opens _ _ _ _ EA))) as PJ.
    assert (DJ : d (name j) <> f' (name j)).
    { intros E. destruct PJ as [[_ E']|(E' & _)]; [apply Hd; congruence|]. apply INJ in E'. lia. }
    destruct (Nat.eq_dec i h) as [->|NI].
    + destruct (seen_file _ _ _ (name h) H) as [E|(c' & k & I & E & HO)].
      * exists c0, (room f (name h)). split; [left; reflexivity|]. rewrite E.
        destruct (attempt_facts _ _ _ _ _ EA (attempt_opens _ _ _ _ EA)) as (_ & B & _). split; [exact B|]. exists f. exact (attempt_opens _ _ _ _ EA).
      * exists c', k. split; [right; exact I|auto].
    + destruct Hi as [->|Hi]; [congruence|].
      destruct (IH outs f' d i j) as (c' & k & I & E & HO); auto.
      { intros l1 l2 a b ER Ha Hb. apply (SO (h :: l1) l2); cbn; [congruence|auto|exact Hb]. }
      exists c', k. split; [right; exact I|auto].
Qed.

(** * How it ends *)
Lemma attempts_seen L : forall f f2, attempts L f = Ok f2 -> seen L f f2.
Proof.
  induction L as [|[p c] L IH]; intros f f2; cbn [attempts].
  - intros [= <-]. apply seen_now. intros q. reflexivity.
  - destruct (attempt f p c) as [r f'] eqn:EA. destruct r as [[]|e]; [|discriminate]. intros H. eapply seen_next; eauto.
Qed.
(** after success every file has been written *)
Lemma attempts_all L : forall f f2 p, attempts L f = Ok f2 -> In p (map fst L) ->
  exists c k, In (p, c) L /\ f2 p = Some (firstn k (archive_tlwe N1 c)) /\ exists f1, opens f1 p = true /\ k = room f1 p /\ 1 + 4 * (N1 + 1) <= room f1 p + cap.
Proof.
  induction L as [|[q c] L IH]; intros f f2 p; cbn [attempts map fst]; [intros _ []|].
  destruct (attempt f q c) as [r f'] eqn:EA. destruct r as [[]|e]; [|discriminate]. intros H HI.
  destruct (in_dec (list_eq_dec ascii_dec) p (map fst L)) as [I|NI].
  - destruct (IH f' f2 p H I) as (c' & k & I' & E & R). exists c', k. split; [right; exact I'|auto].
  - destruct HI as [<-|HI]; [|contradiction].
    pose proof (seen_other L f' f2 q (attempts_seen _ _ _ H) NI) as E.
    pose proof (attempt_opens _ _ _ _ EA) as EO.
    destruct (attempt_facts _ _ _ _ _ EA EO) as (_ & B & _ & D & _).
    exists c, (room f q). split; [left; reflexivity|]. split; [congruence|]. exists f. auto.
Qed.
(** a file with enough room is complete *)
Lemma attempts_full L : forall f f2 p, attempts L f = Ok f2 -> In p (map fst L) -> (forall f1, 1 + 4 * (N1 + 1) <= room f1 p) ->
  exists c, In (p, c) L /\ f2 p = Some (archive_tlwe N1 c).
Proof.
  intros f f2 p E I R. destruct (attempts_all L f f2 p E I) as (c & k & IC & EF & f1 & _ & -> & _). exists c. split; [exact IC|].
  rewrite EF, firstn_all2; [reflexivity|]. rewrite archive_length. apply R.
Qed.
(** with room for every file all are complete *)
Lemma attempts_room L : (forall f p, In p (map fst L) -> opens f p = true /\ 1 + 4 * (N1 + 1) <= room f p) -> forall f,
  exists f2, attempts L f = Ok f2 /\ forall p, In p (map fst L) -> exists c, In (p, c) L /\ f2 p = Some (archive_tlwe N1 c).
Proof.
  induction L as [|[q c] L IH]; intros HR f; cbn [attempts].
  - exists f. split; [reflexivity|]. intros p [].
  - destruct (attempt f q c) as [r f'] eqn:EA.
    destruct (attempt_facts _ _ _ _ _ EA (proj1 (HR f q (or_introl eq_refl)))) as (A & B & _ & _ & C).
    rewrite C by (apply HR; left; reflexivity).
    destruct (IH (fun f p I => HR f p (or_intror I)) f') as (f2 & E2 & H2). exists f2. split; [exact E2|].
    intros p HI. destruct (in_dec (list_eq_dec ascii_dec) p (map fst L)) as [I|NI].
    + destruct (H2 p I) as (c' & I' & E). exists c'. split; [right; exact I'|exact E].
    + destruct HI as [<-|HI]; [|contradiction]. exists c. split; [left; reflexivity|].
      cbn [fst] in *. rewrite (seen_other L f' f2 q (attempts_seen _ _ _ E2) NI), B.
      rewrite firstn_all2; [reflexivity|]. rewrite archive_length. apply HR. left. reflexivity.
Qed.

Lemma attempts_fail L : forall f e, attempts L f = Fail e ->
  exists f1 p, In p (map fst L) /\ (e = FAssert /\ opens f1 p = false \/ e = FExit /\ opens f1 p = true /\ room f1 p < 1 + 4 * (N1 + 1)).
Proof.
  induction L as [|[q c] L IH]; intros f e; cbn [attempts]; [discriminate|].
  destruct (attempt f q c) as [r f'] eqn:EA. destruct r as [[]|e'].
  - intros H. destruct (IH f' e H) as (f1 & p & I & R). exists f1, p. split; [right; exact I|exact R].
  - intros [= <-]. exists f, q. split; [left; reflexivity|]. destruct (opens f q) eqn:EO.
    2:{ destruct (attempt_closed _ _ _ _ _ EA EO) as [[= ->] _]. auto. }
    destruct (attempt_facts _ _ _ _ _ EA EO) as (_ & _ & A & _ & C). destruct A as [A|[= ->]]; [discriminate|]. right. split; [reflexivity|].
    split; [reflexivity|]. destruct (le_lt_dec (1 + 4 * (N1 + 1)) (room f q)) as [L0|L0]; [|exact L0]. specialize (C L0). discriminate.
Qed.

Lemma attempts_lazy L : (forall n, pol n = 0) -> 1 + 4 * (N1 + 1) <= cap -> (forall f p, In p (map fst L) -> opens f p = true) -> forall f, exists f2, attempts L f = Ok f2.
Proof.
  intros HL HC. induction L as [|[q c] L IH]; intros HO f; cbn [attempts]; [eauto|].
  pose proof (attempt_lazy f q c (HO f q (or_introl eq_refl)) HL HC) as A. destruct (attempt f q c) as [r f']. cbn [fst] in A. rewrite A. apply IH. intros f1 p I. apply HO. right. exact I.
Qed.

(** * The states a command can leave *)
Lemma run_left_seen L c f f' coin bits :
  f (cmd_input c) = Some (enc_output T Y coin bits) ->
  (Z.of_nat (length bits * (words * 8)) < 2 ^ 64)%Z ->
  always (seen L f) f (cmd_body c) (delivery (cmd_kind c) (map (c_save T Y) (encs T Y coin bits))) ->
  run_left T Y (Ok c) f f' -> seen L f f'.
Proof.
  intros H1 H2 A [H|(c0 & bytes & junk & s & x & [= <-] & HB & HJ & EO & M)].
  - apply seen_now. exact H.
  - rewrite H1 in HB. injection HB as <-. rewrite (enc_output_file T Y) in EO.
    assert (HL : (Z.of_nat (length (map (c_save T Y) (encs T Y coin bits)) * block_size words) < two64)%Z)
      by (rewrite map_length, encs_length; exact H2).
    eapply (stream_always (cmd_kind c) words (map (c_save T Y) (encs T Y coin bits)) (y_words _ _ _ _ YO)
              (y_block _ _ _ _ YO) (encs_ctxt T Y s1 bit YO coin bits) HL); eauto.
Qed.
(** * The state it ends in *)
Lemma run_over_lands L c f coin bits r f' :
  f (cmd_input c) = Some (enc_output T Y coin bits) ->
  (Z.of_nat (length bits * (words * 8)) < 2 ^ 64)%Z ->
  does L f (cmd_body c) (delivery (cmd_kind c) (map (c_save T Y) (encs T Y coin bits))) ->
  run_over T Y (Ok c) f r f' -> r = attempts L f /\ f' = final L f.
Proof.
  intros H1 H2 (_ & _ & A) (c0 & bytes & junk & s & x & [= <-] & HB & HJ & EO & M).
  rewrite H1 in HB. injection HB as <-. rewrite (enc_output_file T Y) in EO.
  assert (HL : (Z.of_nat (length (map (c_save T Y) (encs T Y coin bits)) * block_size words) < two64)%Z)
    by (rewrite map_length, encs_length; exact H2).
  exact (stream_lands (cmd_kind c) words (map (c_save T Y) (encs T Y coin bits)) (y_words _ _ _ _ YO)
              (y_block _ _ _ _ YO) (encs_ctxt T Y s1 bit YO coin bits) HL _ _ _ _ _ _ _ _ HJ A EO M).
Qed.
Lemma attempts_final L : forall f f2, attempts L f = Ok f2 -> final L f = f2.
Proof.
  induction L as [|[p c] L IH]; intros f f2; cbn [attempts final]; [congruence|].
  destruct (attempt f p c) as [[[]|e] f']; [apply IH|discriminate].
Qed.
Lemma final_seen L : forall f e, attempts L f = Fail e -> seen L f (final L f).
Proof.
  induction L as [|[p c] L IH]; intros f e; cbn [attempts final]; [discriminate|].
  destruct (attempt f p c) as [r f'] eqn:EA. destruct r as [[]|e'].
  - intros H. eapply seen_next; [exact EA|]. eapply IH. exact H.
  - intros _. destruct (opens f p) eqn:EO.
    + apply seen_part; [exact EO|]. eapply attempt_part; eauto.
    + destruct (attempt_closed _ _ _ _ _ EA EO) as [_ ->]. apply seen_now. intros q. reflexivity.
Qed.
(** where it stopped: what is before has been written, what is after has not been touched *)
Lemma final_fail L : forall f e, attempts L f = Fail e ->
  exists L1 p c L2 f1, L = L1 ++ (p, c) :: L2 /\ attempts L1 f = Ok f1 /\ attempt f1 p c = (Fail e, final L f).
Proof.
  induction L as [|[q c] L IH]; intros f e; cbn [attempts final]; [discriminate|].
  destruct (attempt f q c) as [r f'] eqn:EA. destruct r as [[]|e'].
  - intros H. destruct (IH f' e H) as (L1 & p & c1 & L2 & f1 & -> & E1 & E2). exists ((q, c) :: L1), p, c1, L2, f1.
    split; [reflexivity|]. split; [|exact E2]. cbn [attempts]. rewrite EA. exact E1.
  - intros [= ->]. exists [], q, c, L, f. split; [reflexivity|]. split; [reflexivity|exact EA].
Qed.
End Disk.
