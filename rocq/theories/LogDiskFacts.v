(** The run commands with their log on a disk that can be full: without the log they are those of DiskRunModel. *)
From Coq Require Import String.
From Coq Require Import List Arith Bool NArith ZArith Ascii Lia.
Import ListNotations.
From Verif Require Import Base BaseFacts GraphModel Spec TextModel DotModel BitsModel TorusModel RunnerModel ParModel StreamModel StreamFacts InputSpec ClientModel ClientFacts CmdModel CmdSpec
  CrashModel DiskModel DiskRunModel PropsDisk MsgModel SayFacts LogModel LogSpec LogFacts RefuseSpec BlameSpec BlameFacts LogDiskModel LogDiskSpec.
Local Open Scope list_scope.

(** ** A way to the end *)
Fixpoint reaches {R} (Q : res R -> R -> Prop) (d : R) (p : client R) (rem : list (list N)) : Prop :=
  match p with
  | PRet r => Q r d
  | PSize k => reaches Q d (k (length rem)) rem
  | PNext k => match rem with [] => False | c :: rem' => reaches Q d (k c) rem' end
  | PAny o k => exists x, o (Ok x) /\ reaches Q d (k x) rem
  | PFiles _ r q => reaches Q r q rem
  end.
Section Reach.
Context (k : kind) (words : nat) (cts : list (list N)).
Hypothesis HW : 0 < words.
Hypothesis HB : (Z.of_nat (block_size words) < 2 ^ 63)%Z.
Hypothesis HC : Forall (is_ctxt words) cts.
Hypothesis HF : (Z.of_nat (length cts * block_size words) < two64)%Z.
Context {R : Type} (Q : res R -> R -> Prop).
Notation order := (delivery k cts).
Notation fin := (fun z : (stream * control R) * R => exists r, snd (fst z) = Over r /\ Q r (snd z)).
Lemma reaches_runs p : forall s i (d : R), idle k words cts i s -> s_prog s = [] -> reaches Q d p (skipn i order) ->
  exists z, fmoves_to k words ((s, Run p), d) z /\ fin z.
Proof.
  induction p as [r'|g IHp|g IHp|X o g IHp|t r' q IHp]; intros s i d D E H; cbn [reaches] in H.
  - eexists. split; [eapply ft_step; [apply ft_refl|]; apply fm_other; [apply m_end|cbn [snd]; discriminate]|]. eexists. split; [reflexivity|exact H].
  - destruct (enter_inv k words cts HW Size i s D) as [I J]. assert (Hi : i <= length cts) by apply D. assert (HV : nvalues (s_out s) = i) by apply D.
    rewrite (skipn_order k words cts) in H by auto.
    destruct (size_returns k words cts HW HB HC g d i (s_out s) fin Hi HV (enter k Size s) I J) as (z & M & HZ).
    { intros s' D' E'. eapply IHp; eauto. }
    exists z. split; [|exact HZ]. eapply ft_move; [apply m_size|cbn; congruence|exact M].
  - destruct (skipn i order) as [|c rem] eqn:SK; [destruct H|].
    destruct (enter_inv k words cts HW Next i s D) as [I J]. assert (Hi : i <= length cts) by apply D. assert (HV : nvalues (s_out s) = i) by apply D.
    destruct (next_returns k words cts HW HB HC g d i (s_out s) fin c rem SK Hi HV (enter k Next s) I J) as (z & M & HZ).
    { intros s' D' E'. apply (IHp c s' (Datatypes.S i) d D' E').
      assert (skipn (Datatypes.S i) order = rem) as ->; [|exact H].
      clear -SK. revert i SK. induction order as [|a l IH]; intros [|i] SK; cbn in SK; try discriminate.
      - injection SK as _ ->. reflexivity.
      - apply (IH i SK). }
    exists z. split; [|exact HZ]. eapply ft_move; [apply m_next|cbn; congruence|exact M].
  - destruct H as (x & O & H). destruct (IHp x s i d D E H) as (z & M & HZ). exists z. split; [|exact HZ].
    eapply ft_move; [apply m_any; exact O|cbn; congruence|exact M].
  - destruct (IHp s i r' D E H) as (z & M & HZ). exists z. split; [|exact HZ]. eapply ft_front; [apply fm_files|exact M].
Qed.
Theorem stream_reaches p (d : R) junk : length junk = words -> reaches Q d p order ->
  exists s t r d', open_stream k words (concat (map save cts)) junk [] = Ok s /\
    fmoves_to k words ((s, Run p), d) ((t, Over r), d') /\ Q r d'.
Proof.
  intros HJ A. destruct (open_idle k words cts HW HB HC HF junk HJ) as (s & E & I & P1).
  destruct (reaches_runs p s 0 d I P1 A) as ([[t c] d'] & M & r & Ec & HQ). cbn [fst snd] in *. subst c. exists s, t, r, d'. auto.
Qed.
End Reach.

(** ** Without the log *)
Definition hushed (r : res world) : res fs := match r with Ok w => Ok (snd w) | Fail e => Fail e end.
Fixpoint mute (f : fs) (p : client world) (q : client fs) : Prop :=
  match p with
  | PRet r => q = PRet (hushed r)
  | PSize k => exists k', q = PSize k' /\ forall n, mute f (k n) (k' n)
  | PNext k => exists k', q = PNext k' /\ forall c, mute f (k c) (k' c)
  | PAny o k => exists k', q = PAny o k' /\ forall x, mute f (k x) (k' x)
  | PFiles t w p' =>
      ((forall d, ~ t d) /\ snd w = f /\ mute f p' q) \/
      exists t' q', q = PFiles t' (snd w) q' /\ (forall d, t d -> t' (snd d)) /\ mute (snd w) p' q'
  end.
Definition mutes (f : fs) (c : control world) (c' : control fs) : Prop :=
  match c with
  | Run p => exists q, c' = Run q /\ mute f p q
  | InSize k => exists k', c' = InSize k' /\ forall n, mute f (k n) (k' n)
  | InNext k => exists k', c' = InNext k' /\ forall x, mute f (k x) (k' x)
  | Over r => c' = Over (hushed r)
  end.

Lemma no_loop {R} (p : client R) : forall t r, PFiles t r p <> p.
Proof. induction p; intros t0 r0 HX; try discriminate HX. injection HX as _ _ HX. exact (IHp _ _ HX). Qed.
Lemma other_move {R} kd words (s s' : stream) (c : control R) d : move kd words (s, c) (s', c) -> fmove kd words ((s, c), d) ((s', c), d).
Proof. intros M. apply fm_other; [exact M|]. cbn [snd]. intros t r p E1 E2. rewrite E1 in E2. injection E2. apply no_loop. Qed.
Tactic Notation "other" tactic(tac) := eapply ft_step; [eassumption|]; eapply fm_other; [tac|cbn [snd]; intros; discriminate].

Lemma mute_moves kd words s p q w z : mute (snd w) p q -> fmoves_to kd words ((s, Run p), w) z ->
  exists c, fmoves_to kd words ((s, Run q), snd w) ((fst (fst z), c), snd (snd z)) /\ mutes (snd (snd z)) (snd (fst z)) c.
Proof.
  intros H M. remember ((s, Run p), w) as z0 eqn:E0. induction M as [z|z y z' M IH N].
  - subst z. cbn [fst snd]. eexists. split; [apply ft_refl|]. cbn [mutes]. eauto.
  - specialize (IH E0). clear E0 M H. destruct IH as (c & M & G). revert M G.
    destruct N as [s' t0 w0 p0 d1 d2 TD|s' t0 w0 p0 d1|x1 y1 d1 MV NF]; cbn [fst snd mutes]; intros M G.
    + destruct G as (q1 & -> & [(A & _)|(t' & q' & -> & A & B)]); [exfalso; exact (A _ TD)|].
      eexists. split; [eapply ft_step; [exact M|]; apply fm_part; eauto|]. eexists. split; [reflexivity|]. cbn [mute]. right. eauto 6.
    + destruct G as (q1 & -> & [(_ & E & A)|(t' & q' & -> & _ & A)]).
      * eexists. rewrite E. split; [exact M|]. eauto.
      * eexists. split; [eapply ft_step; [exact M|]; apply fm_files|]. eauto.
    + revert M G NF. destruct MV as [s1 s1' c1 N1 ST|s1 e c1 N1 ST|s1 k|s1 k|s1 s1' k ST|s1 e k ST|s1 s1' k ST|s1 e k ST|s1 k out n P1 P2|s1 k out c1 P1 P2
                     |X s1 o k x O|X s1 o k e O|s1 t1 r1 q1|s1 r1]; cbn [fst snd mutes mute]; intros M G NF.
      * exists c. split; [|exact G]. eapply ft_step; [exact M|]. apply other_move. apply m_loader; [|exact ST].
        intros r ->. destruct c1; cbn [mutes] in G; try (destruct G as (? & [=] & _)). eapply N1. reflexivity.
      * eexists. split; [other (apply m_loader_fail; [|exact ST])|reflexivity].
        intros r ->. destruct c1; cbn [mutes] in G; try (destruct G as (? & [=] & _)). eapply N1. reflexivity.
      * destruct G as (q1 & -> & k' & -> & G). eexists. split; [other (apply m_size)|]. eauto.
      * destruct G as (q1 & -> & k' & -> & G). eexists. split; [other (apply m_next)|]. eauto.
      * destruct G as (k' & -> & G). eexists. split; [other (apply m_in_size; exact ST)|]. eauto.
      * destruct G as (k' & -> & G). eexists. split; [other (apply m_in_size_fail; exact ST)|reflexivity].
      * destruct G as (k' & -> & G). eexists. split; [other (apply m_in_next; exact ST)|]. eauto.
      * destruct G as (k' & -> & G). eexists. split; [other (apply m_in_next_fail; exact ST)|reflexivity].
      * destruct G as (k' & -> & G). eexists. split; [other (eapply m_size_back; eassumption)|]. eauto.
      * destruct G as (k' & -> & G). eexists. split; [other (eapply m_next_back; eassumption)|]. eauto.
      * destruct G as (q1 & -> & k' & -> & G). eexists. split; [other (apply m_any; exact O)|]. eauto.
      * destruct G as (q1 & -> & k' & -> & G). eexists. split; [other (apply m_any_fail; exact O)|reflexivity].
      * exfalso. eapply NF; reflexivity.
      * destruct G as (q1 & -> & ->). eexists. split; [other (apply m_end)|reflexivity].
Qed.
Lemma mute_says v ms : forall (w : world) k q f, snd w = f -> (forall w', snd w' = f -> mute f (k w') q) -> mute f (log_says v w ms k) q.
Proof.
  induction ms as [|m ms IH]; intros w k q f E H; cbn [log_says]; [auto|]. destruct (enabled v (fst m)); [|auto].
  cbn [mute]. left. split; [intros d []|]. split; [exact E|]. apply IH; auto.
Qed.
Lemma mute_det {X} (m : res X) f k k' : (forall x, mute f (k x) (k' x)) -> mute f (pdet m k) (pdet m k').
Proof. intros H. unfold pdet. cbn [mute]. eauto. Qed.
Lemma mute_any {X} (o : outcomes X) f k k' : (forall x, mute f (k x) (k' x)) -> mute f (PAny o k) (PAny o k').
Proof. intros H. cbn [mute]. eauto. Qed.
Lemma mute_size f k k' : (forall n, mute f (k n) (k' n)) -> mute f (PSize k) (PSize k').
Proof. intros H. cbn [mute]. eauto. Qed.
Lemma mute_next f k k' : (forall n, mute f (k n) (k' n)) -> mute f (PNext k) (PNext k').
Proof. intros H. cbn [mute]. eauto. Qed.

Lemma reaches_says Q v rem ms : forall w k, reaches Q (fst w ++ visible v ms, snd w) (k (fst w ++ visible v ms, snd w)) rem -> reaches Q w (log_says v w ms k) rem.
Proof.
  induction ms as [|m ms IH]; intros w k H; cbn [log_says].
  - rewrite visible_nil, app_nil_r in H. destruct w. exact H.
  - rewrite visible_filter in H. cbn [filter] in H. destruct (enabled v (fst m)) eqn:EM.
    + cbn [reaches]. apply (IH (fst w ++ [m], snd w)). cbn [fst snd]. rewrite visible_filter, <- app_assoc. exact H.
    + apply IH. rewrite visible_filter. exact H.
Qed.
Lemma reaches_det {R} (Q : res R -> R -> Prop) {X} (m : res X) a k d rem : m = Ok a -> reaches Q d (k a) rem -> reaches Q d (pdet m k) rem.
Proof. intros E H. exists a. split; [symmetry; exact E|exact H]. Qed.

Section Disk.
Context (v : verbosity) (trace : text) (why : fs -> text -> text).
Context (cap : nat) (room : fs -> text -> nat) (pol : nat -> nat) (opens : fs -> text -> bool) (pieces : list N -> list (list N)).
Notation store := (log_store_disk v trace why cap room pol opens pieces).
Notation store_mute := (store_disk cap room pol opens pieces).
Lemma mute_store w p b k k' : (forall w', mute (snd w') (k w') (k' (snd w'))) -> mute (snd w) (store w p b k) (store_mute (snd w) p b k').
Proof.
  intros H. unfold log_store_disk, store_disk. cbv zeta. destruct (write_to_archive _ _ _ _ _ _ _) as [r f'].
  cbn [mute snd]. right. eexists _, _. split; [reflexivity|]. split.
  - intros d [_ HD]. destruct (opens (snd w) p); exact HD.
  - destruct r as [u|e]; [apply (H (_, f'))|]. destruct e; try reflexivity. apply mute_says; reflexivity.
Qed.

Context (T : tfhe) (Y : crypto T).
Ltac say := apply mute_says; [assumption|]; let w := fresh "w" in let E := fresh "E" in intros w E.
Lemma mute_last {St} (ask : St -> outcomes (list Z * St)) ask_ms dir out n s w :
  mute (snd w) (last_output_log T store (log_says v) ask ask_ms dir out n s w) (last_output_on T store_mute ask out dir n s (snd w)).
Proof.
  unfold last_output_log, last_output_on. apply mute_says; [reflexivity|]. intros w' E. apply mute_any. intros [c t]. rewrite <- E.
  destruct out as [o|]; [|destruct dir as [d|]; [|reflexivity]]; apply mute_store; reflexivity.
Qed.
Lemma mute_loop {St} (feed : St -> trgsw T -> outcomes St) (ask : St -> outcomes (list Z * St)) feed_ms ask_ms input dir freq finish finish' :
  (forall s w, mute (snd w) (finish s w) (finish' s (snd w))) ->
  forall fuel i s w, mute (snd w) (monitor_loop_log T Y store (log_says v) feed ask feed_ms ask_ms input dir freq finish fuel i s w)
    (monitor_loop_on T Y store_mute feed ask input dir freq finish' fuel i s (snd w)).
Proof.
  intros HFin. induction fuel as [|fuel IH]; intros i s w; cbn [monitor_loop_log monitor_loop_on]; apply mute_size; intros n; destruct (n =? 0); auto;
    [reflexivity|]. apply mute_says; [reflexivity|]. intros w1 E1. apply mute_next. intros c. apply mute_says; [exact E1|]. intros w2 E2.
  apply mute_any. intros t. rewrite <- E2. destruct dir as [d|]; [|apply IH]. destruct (freq =? 0); [reflexivity|]. destruct (_ =? freq - 1); [|apply IH].
  apply mute_says; [reflexivity|]. intros w3 E3. apply mute_any. intros [c1 t1]. destruct (path_eqb _ _); [reflexivity|]. rewrite <- E3. apply mute_store. intros w'. apply IH.
Qed.
Definition alike (f : fs) (talk : res (@talking world)) (plain : res command) : Prop :=
  match talk, plain with
  | Ok (kd, input, body), Ok c => cmd_kind c = kd /\ cmd_input c = input /\ mute f body (cmd_body c)
  | Fail e, Fail e' => e = e'
  | _, _ => False
  end.
Lemma alike_over f talk plain r w : alike f talk plain -> log_over Y talk f r w -> run_over T Y plain f (hushed r) (snd w).
Proof.
  intros A (kd & input & body & bytes & junk & s & t & -> & HF & HJ & HO & M). destruct plain as [c|e]; [|destruct A]. destruct A as (<- & <- & A).
  destruct (mute_moves _ _ _ _ _ _ _ (A : mute (snd (@nil message, f)) body (cmd_body c)) M) as (c' & M' & E). cbn [fst snd mutes] in *. subst c'.
  exists c, bytes, junk, s, t. auto.
Qed.
Lemma alike_offline f spec input output interval bkey sanitize :
  alike f (do_run_offline_log trace T Y store (log_says v) f ([], f) spec input output interval bkey sanitize)
          (do_run_offline_on T Y store_mute f spec input output interval bkey sanitize).
Proof.
  unfold do_run_offline_log, do_run_offline_on. split; [reflexivity|]. split; [reflexivity|]. cbn [cmd_body].
  assert (E0 : snd (@nil message, f) = f) by reflexivity. revert E0. generalize (@nil message, f) as w. intros w E0.
  say. apply mute_det. intros [ek ik]. say. apply mute_det. intros g. apply mute_size. intros n. say. apply mute_det. intros r. apply mute_size. intros n'.
  say. apply mute_det. intros dl. say. apply mute_size. intros k. clear dl. revert r w4 E4.
  induction k as [|k IH]; intros r w4 E4; cbn [offline_loop_log offline_loop].
  - apply mute_det. intros c. rewrite <- E4. apply mute_store. reflexivity.
  - apply mute_next. intros c. say. apply mute_any. intros x. apply IH. assumption.
Qed.
Lemma alike_reverse f spec input output dir freq interval spec_reversed bkey sanitize :
  alike f (do_run_reverse_log trace T Y store (log_says v) f ([], f) spec input output dir freq interval spec_reversed bkey sanitize)
          (do_run_reverse_on T Y store_mute f spec input output dir freq interval spec_reversed bkey sanitize).
Proof.
  unfold do_run_reverse_log, do_run_reverse_on, assert_. destruct (match output with Some _ => _ | None => _ end); [|reflexivity].
  split; [reflexivity|]. split; [reflexivity|]. cbn [cmd_body].
  assert (E0 : snd (@nil message, f) = f) by reflexivity. revert E0. generalize (@nil message, f) as w. intros w E0.
  say. apply mute_det. intros [ek ik]. say. apply mute_det. intros g. say. apply mute_det. intros r. apply mute_size. intros n. say. apply mute_size. intros h.
  match goal with HE : snd ?w = f |- mute f (?b ?w) _ => rewrite <- HE end. apply mute_loop. intros s w'. apply mute_last.
Qed.
Lemma alike_flut f spec input output dir freq queue_size interval bkey depth debug sanitize :
  alike f (do_run_flut_log trace T Y store (log_says v) f ([], f) spec input output dir freq queue_size interval bkey depth debug sanitize)
          (do_run_flut_on T Y store_mute f spec input output dir freq queue_size interval bkey depth debug sanitize).
Proof.
  unfold do_run_flut_log, do_run_flut_on. split; [reflexivity|]. split; [reflexivity|]. cbn [cmd_body].
  assert (E0 : snd (@nil message, f) = f) by reflexivity. revert E0. generalize (@nil message, f) as w. intros w E0.
  say. apply mute_det. intros g. say. apply mute_det. intros [ek ik]. apply mute_det. intros _. say. apply mute_det. intros _. say. apply mute_det. intros r.
  apply mute_size. intros n. say. apply mute_det. intros _. say. apply mute_size. intros h.
  match goal with HE : snd ?w = f |- mute f (?b ?w) _ => rewrite <- HE end. apply mute_loop. intros s w'. apply mute_last.
Qed.
Lemma alike_block f spec input output queue_size bkey sanitize :
  alike f (do_run_block_log trace T Y store (log_says v) f ([], f) spec input output queue_size bkey sanitize)
          (do_run_block_on T Y store_mute f spec input output queue_size bkey sanitize).
Proof.
  unfold do_run_block_log, do_run_block_on. split; [reflexivity|]. split; [reflexivity|]. cbn [cmd_body].
  assert (E0 : snd (@nil message, f) = f) by reflexivity. revert E0. generalize (@nil message, f) as w. intros w E0.
  say. apply mute_det. intros g. say. apply mute_det. intros [ek ik]. apply mute_det. intros _. say. apply mute_det. intros r.
  apply mute_size. intros n. say.
  match goal with HE : snd ?w = f |- mute f (?b ?w) _ => rewrite <- HE end. apply mute_loop. intros s w'. apply mute_last.
Qed.

(** ** The errors *)
Hypothesis HPC : forall b, concat (pieces b) = b.
Lemma store_disk_reports (B : world -> Prop) (outputs : text -> Prop) :
  (forall w, write_error trace (t_n1 T) room opens outputs w -> B w) ->
  reports_errors v B (fun p b => outputs p /\ exists c, b = archive_tlwe (t_n1 T) c) store.
Proof.
  intros HB w p b k (HP & c & ->) N H. unfold log_store_disk. cbv zeta.
  destruct (write_to_archive _ _ _ _ _ _ _) as [r f'] eqn:EW. cbn [honest fst]. split; [intros d [A _]; exact A|]. split; [auto|].
  destruct r as [u|e]; [apply H; exact N|]. destruct e; try (cbn [honest]; discriminate).
  apply honest_says. cbn [honest fst snd]. intros _. apply HB.
  apply C72_archive in EW. destruct (opens (snd w) p) eqn:EO; [|destruct EW as ([=] & _)]. rewrite HPC in EW. destruct EW as (A & A' & _ & _ & C).
  exists (fst w), (why (snd w) p), p, (snd w), c. cbn [fst snd].
  split. { rewrite visible_filter. destruct v; reflexivity. }
  split; [exact N|]. split; [exact HP|]. split; [exact EO|]. split; [exact A'|]. split; [|exact A].
  destruct (le_lt_dec (length (archive_tlwe (t_n1 T) c)) (room (snd w) p)) as [L|L]; [|exact L]. specialize (C L). discriminate.
Qed.
End Disk.
