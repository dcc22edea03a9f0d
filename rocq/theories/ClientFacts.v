(** Commands that read a ciphertext stream: the stream can be replaced by the list of the
    ciphertexts it delivers. *)
From Coq Require Import List Arith Bool NArith ZArith Lia.
Import ListNotations.
From Verif Require Import Base BaseFacts ParModel StreamModel InputSpec StreamFacts ClientModel.

(** [p], served with the ciphertexts [rem], ends with [r] whatever happens. *)
Fixpoint sure {R} (p : client R) (rem : list (list N)) (r : res R) : Prop :=
  match p with
  | PRet r' => r' = r
  | PSize k => sure (k (length rem)) rem r
  | PNext k => match rem with [] => r = Fail FAssert | c :: rem' => sure (k c) rem' r end
  | PAny o k => (exists a, o a) /\ forall a, o a -> match a with Ok x => sure (k x) rem r | Fail f => r = Fail f end
  | PFiles _ _ q => sure q rem r
  end.

(** A property of what is still to be done (with the ciphertexts still to come) that the steps of
    the process preserve, and the property of its outcome that follows; writing files is treated
    separately. *)
Record kept {R} (S : client R -> list (list N) -> Prop) (F : res R -> Prop) : Prop := mkKept {
  kp_ret : forall r rem, S (PRet r) rem -> F r;
  kp_size : forall k rem, S (PSize k) rem -> S (k (length rem)) rem;
  kp_none : forall k, S (PNext k) [] -> F (Fail FAssert);
  kp_next : forall k c rem, S (PNext k) (c :: rem) -> S (k c) rem;
  kp_any : forall X (o : outcomes X) k rem x, S (PAny o k) rem -> o (Ok x) -> S (k x) rem;
  kp_fail : forall X (o : outcomes X) k rem f, S (PAny o k) rem -> o (Fail f) -> F (Fail f) }.
Lemma kept_sure {R} (r : res R) : kept (fun p rem => sure p rem r) (fun r' => r' = r).
Proof.
  constructor; cbn [sure]; try solve [intros; congruence]; try solve [intros; assumption].
  - intros X o k rem x [_ H] O. apply (H _ O).
  - intros X o k rem f [_ H] O. symmetry. apply (H _ O).
Qed.

(** All states of the files satisfy [P]. *)
Fixpoint always {R} (P : R -> Prop) (d : R) (p : client R) (rem : list (list N)) : Prop :=
  P d /\
  match p with
  | PRet _ => True
  | PSize k => always P d (k (length rem)) rem
  | PNext k => match rem with [] => True | c :: rem' => always P d (k c) rem' end
  | PAny o k => forall a, o a -> match a with Ok x => always P d (k x) rem | Fail _ => True end
  | PFiles t r q => (forall d', t d' -> P d') /\ always P r q rem
  end.
Lemma kept_always {R} (P : R -> Prop) d : kept (always P d) (fun _ => True).
Proof.
  constructor; cbn [always]; try solve [intros; exact I]; try solve [intros; tauto].
  intros X o k rem x [_ H] O. apply (H _ O).
Qed.
Lemma always_here {R} (P : R -> Prop) d p rem : always P d p rem -> P d.
Proof. destruct p; cbn [always]; tauto. Qed.

(** Some execution leads to a state of the files that satisfies [P]. *)
Fixpoint can {R} (P : R -> Prop) (d : R) (p : client R) (rem : list (list N)) : Prop :=
  P d \/
  match p with
  | PRet _ => False
  | PSize k => can P d (k (length rem)) rem
  | PNext k => match rem with [] => False | c :: rem' => can P d (k c) rem' end
  | PAny o k => exists x, o (Ok x) /\ can P d (k x) rem
  | PFiles t r q => (exists d', t d' /\ P d') \/ can P r q rem
  end.

Fixpoint nvalues (out : list event) : nat :=
  match out with [] => 0 | EValue _ :: r => S (nvalues r) | ESize _ :: r => nvalues r end.
Lemma nvalues_app a b : nvalues (a ++ b) = nvalues a + nvalues b.
Proof. induction a as [|[] a IH]; cbn; lia. Qed.
Fixpoint nret (p : list cop) : nat :=
  match p with [] => 0 | CReturn :: r => S (nret r) | _ :: r => nret r end.
Fixpoint ndecr (p : list cop) : nat :=
  match p with [] => 0 | CDecr :: r => S (ndecr r) | _ :: r => ndecr r end.

Section Client.
Variables (k : kind) (words : nat) (cts : list (list N)).
Hypothesis HW : 0 < words.
Hypothesis HB : (Z.of_nat (block_size words) < 2 ^ 63)%Z.
Hypothesis HC : Forall (is_ctxt words) cts.
Let n := length cts.
Let order := delivery k cts.
Notation Inv := (Inv k words cts).

(** current_size_ and the values returned so far add up *)
Definition adds (s : stream) : Prop :=
  s_size s + nvalues (s_out s) + nret (s_prog s) = n + ndecr (s_prog s).

Lemma adds_step E A t s s' : Inv E A s -> adds s -> step k words t s = Some (Ok s') -> adds s'.
Proof.
  intros I J St. unfold adds in *. destruct t; cbn [step] in St.
  - destruct (s_prog s) as [|o rest] eqn:P; [discriminate|]. destruct o; cbn [cstep] in St.
    + injection St as <-. cbn [s_size s_out s_prog nret ndecr] in *. rewrite nvalues_app. cbn. lia.
    + destruct (0 <? s_size s); cbn [assert_] in St; [|discriminate]. injection St as <-. cbn in *. lia.
    + destruct (s_run s) as [[|o os]|]; try discriminate. injection St as <-. cbn in *. lia.
    + destruct (s_run s) as [[|o os]|]; cbn [quiet] in St; try discriminate; injection St as <-; cbn in *; lia.
    + injection St as <-. cbn [s_size s_out s_prog nret ndecr] in *.
      assert (0 < s_size s); [|lia]. pose proof (order_length k words cts) as OL.
      destruct I as [i calls Hi HP HS HL HE|i calls tl Hi HT HP HS HL HE|i calls c tl Hc HT HP HS HR HIs HLo HW' HE|i calls c tl Hc HT HP HS HR HIs HLo HRt HE|i calls c Hc HK HP HS HR HIs HLo HRt HE|i calls c Hc HK HP HS HL HRt HE|i calls c Hc HP HS HL HRt HE];
        rewrite P in HP; try discriminate.
      * exfalso. unfold progs in HP. destruct calls as [|[] calls]; cbn [map concat] in HP; try discriminate.
        destruct (next_ops k) as (o & tl & X). rewrite X in HP. discriminate.
      * assert (i < length (delivery k cts)) by (apply nth_error_Some; congruence). rewrite OL in *. lia.
      * assert (i < length (delivery k cts)) by (apply nth_error_Some; congruence). rewrite OL in *. lia.
    + unfold quiet, start in St.
      destruct (kind_cases k) as [K|K]; rewrite K in St; destruct (s_run s) as [[|o os]|]; cbn [bind] in St;
        repeat match type of St with context [if ?b then _ else _] => destruct b end; try discriminate;
        injection St as <-; cbn in *; lia.
    + injection St as <-. cbn [s_size s_out s_prog nret ndecr] in *. rewrite nvalues_app. cbn. lia.
  - destruct (s_run s) as [[|o os]|]; try discriminate. injection St as H.
    apply bind_ok in H as ([is' l'] & _ & H). injection H as <-. cbn in *. lia.
Qed.

(** between two calls, the first [i] ciphertexts having been delivered *)
Definition idle (i : nat) (s : stream) : Prop :=
  i <= n /\ s_size s = n - i /\ nvalues (s_out s) = i /\ loading k words cts i s.

Lemma idle_inv i s : idle i s -> s_prog s = [] -> Inv (s_out s) false s /\ adds s.
Proof.
  intros (Hi & HS & HV & HL) P. split.
  - eapply (IReady _ _ _ _ _ _ i []); auto. split; cbn; [|auto]. rewrite app_nil_r. reflexivity.
  - unfold adds. rewrite P. cbn. lia.
Qed.

Lemma enter_inv c i s : idle i s ->
  Inv (s_out s ++ fst (observed (skipn i order) [c])) (snd (observed (skipn i order) [c])) (enter k c s) /\
  adds (enter k c s).
Proof.
  intros (Hi & HS & HV & HL). split.
  - eapply (IReady _ _ _ _ _ _ i [c]); unfold enter; sc; auto.
    + unfold progs. cbn. rewrite app_nil_r. reflexivity.
    + split; reflexivity.
  - unfold adds, enter. sc. destruct c; [rewrite size_ops|destruct (kind_cases k) as [-> | ->]]; cbn; lia.
Qed.

Lemma back_idle E A s : Inv E A s -> adds s -> s_prog s = [] ->
  E = s_out s /\ A = false /\ idle (nvalues (s_out s)) s.
Proof.
  intros I J P. destruct (Inv_out _ _ _ _ _ _ I) as [_ O]. destruct (O P) as [-> ->].
  split; auto. split; auto. unfold adds in J. rewrite P in J. cbn in J.
  destruct I as [i calls Hi HP HS HL HE|i calls tl Hi HT HP HS HL HE|i calls c tl Hc HT HP HS HR HIs HLo HW' HE|i calls c tl Hc HT HP HS HR HIs HLo HRt HE|i calls c Hc HK HP HS HR HIs HLo HRt HE|i calls c Hc HK HP HS HL HRt HE|i calls c Hc HP HS HL HRt HE];
    rewrite P in HP; try discriminate.
  - fold n in Hi, HS. assert (nvalues (s_out s) = i) as V by lia. rewrite V. unfold idle. fold n. auto.
  - exfalso. destruct (next_ops k) as (o & tl' & X). rewrite X in HT. injection HT as <-. discriminate.
Qed.

Context {R : Type}.
Implicit Types (p : client R) (r : res R).

(** the invariant of the whole process *)
Definition good (S : client R -> list (list N) -> Prop) (F : res R -> Prop) (x : stream * control R) : Prop :=
  let '(s, c) := x in
  match c with
  | Run p => exists i, idle i s /\ s_prog s = [] /\ S p (skipn i order)
  | InSize g => exists i out, Inv (out ++ fst (observed (skipn i order) [Size])) (snd (observed (skipn i order) [Size])) s /\
                  adds s /\ nvalues out = i /\ i <= n /\ S (g (n - i)) (skipn i order)
  | InNext g => exists i out, Inv (out ++ fst (observed (skipn i order) [Next])) (snd (observed (skipn i order) [Next])) s /\
                  adds s /\ nvalues out = i /\ i <= n /\ S (PNext g) (skipn i order)
  | Over r' => F r'
  end.

Lemma idle_loader i s s' : idle i s -> s_prog s = [] -> step k words Loader s = Some (Ok s') ->
  idle i s' /\ s_prog s' = [].
Proof.
  intros D P St. destruct (idle_inv i s D P) as [I J].
  destruct (Inv_loader _ _ _ HW _ _ _ _ I St) as (s1 & Q & I'). injection Q as <-.
  pose proof (adds_step _ _ _ _ _ I J St) as J'.
  assert (P' : s_prog s' = []).
  { cbn [step] in St. destruct (s_run s) as [[|o os]|]; try discriminate. injection St as H.
    apply bind_ok in H as ([is' l'] & _ & H). injection H as <-. exact P. }
  destruct (back_idle _ _ _ I' J' P') as (EO & _ & D'). split; auto.
  rewrite <- EO in D'. destruct D as (_ & _ & HV & _). rewrite HV in D'. exact D'.
Qed.

Lemma skipn_order i : i <= n -> length (skipn i order) = n - i.
Proof. intros H. rewrite skipn_length. unfold order. rewrite (order_length k words cts). reflexivity. Qed.

Lemma good_move S F x y : kept S F -> good S F x -> move k words x y ->
  (forall t (w : R) q, snd x = Run (PFiles t w q) -> snd y <> Run q) -> good S F y.
Proof.
  intros KP G M NF. destruct M as [s s' c NO St|s f c NO St|s g|s g|s s' g St|s f g St|s s' g St|s f g St|s g out m P O|s g out m P O|X s o g x O|X s o g f O|s t r' p|s r'].
  - destruct c as [p|g|g|r']; cbn [good] in *.
    + destruct G as (i & D & P & SU). destruct (idle_loader i s s' D P St). eauto.
    + destruct G as (i & out & I & J & HV & Hi & SU). exists i, out.
      destruct (Inv_loader _ _ _ HW _ _ _ _ I St) as (s1 & Q & I'). injection Q as <-.
      pose proof (adds_step _ _ _ _ _ I J St). auto.
    + destruct G as (i & out & I & J & HV & Hi & SU). exists i, out.
      destruct (Inv_loader _ _ _ HW _ _ _ _ I St) as (s1 & Q & I'). injection Q as <-.
      pose proof (adds_step _ _ _ _ _ I J St). auto.
    + exfalso. eapply NO; reflexivity.
  - exfalso. assert (X : exists E A, Inv E A s).
    { destruct c as [p|g|g|r']; cbn [good] in *.
      - destruct G as (i & D & P & SU). destruct (idle_inv i s D P). eauto.
      - destruct G as (i & out & I & _). eauto.
      - destruct G as (i & out & I & _). eauto.
      - exfalso. eapply NO; reflexivity. }
    destruct X as (E & A & I). destruct (Inv_loader _ _ _ HW _ _ _ _ I St) as (s1 & Q & I'). discriminate.
  - destruct G as (i & D & P & SU). cbn [good]. exists i, (s_out s).
    destruct (enter_inv Size i s D) as [I J]. apply (kp_size _ _ KP) in SU. destruct D as (Hi & _ & HV & _).
    rewrite skipn_order in SU by auto. auto.
  - destruct G as (i & D & P & SU). cbn [good]. exists i, (s_out s).
    destruct (enter_inv Next i s D) as [I J]. destruct D as (Hi & _ & HV & _). auto.
  - destruct G as (i & out & I & J & HV & Hi & SU). cbn [good]. exists i, out.
    destruct (Inv_caller _ _ _ HW HB HC _ _ _ _ I St) as [(s1 & Q & I')|[Q _]]; [|discriminate].
    injection Q as <-. pose proof (adds_step _ _ _ _ _ I J St). auto.
  - destruct G as (i & out & I & J & HV & Hi & SU). exfalso.
    destruct (Inv_caller _ _ _ HW HB HC _ _ _ _ I St) as [(s1 & Q & I')|[_ Q]]; [discriminate|].
    cbn [observed snd] in Q. discriminate.
  - destruct G as (i & out & I & J & HV & Hi & SU). cbn [good]. exists i, out.
    destruct (Inv_caller _ _ _ HW HB HC _ _ _ _ I St) as [(s1 & Q & I')|[Q _]]; [|discriminate].
    injection Q as <-. pose proof (adds_step _ _ _ _ _ I J St). auto.
  - destruct G as (i & out & I & J & HV & Hi & SU). cbn [good].
    destruct (Inv_caller _ _ _ HW HB HC _ _ _ _ I St) as [(s1 & Q & I')|[E Q]]; [discriminate|].
    injection E as ->. destruct (skipn i order) as [|c0 rem]; [eapply (kp_none _ _ KP); eauto|].
    cbn [observed] in Q. discriminate.
  - destruct G as (i & out' & I & J & HV & Hi & SU). cbn [good]. exists i.
    destruct (back_idle _ _ _ I J P) as (EO & _ & D). cbn [observed fst] in EO.
    rewrite skipn_order in EO by auto. rewrite O in EO. apply app_inj_tail in EO as [-> [= <-]].
    assert (nvalues (s_out s) = i) as V by (rewrite O, nvalues_app; cbn; lia). rewrite V in D. auto.
  - destruct G as (i & out' & I & J & HV & Hi & SU). cbn [good].
    destruct (back_idle _ _ _ I J P) as (EO & EA & D).
    destruct (skipn i order) as [|c0 rem] eqn:SK; [cbn [observed snd] in EA; discriminate|].
    cbn [observed fst] in EO. rewrite O in EO. apply app_inj_tail in EO as [-> [= <-]].
    apply (kp_next _ _ KP) in SU. exists (Datatypes.S i). assert (nvalues (s_out s) = Datatypes.S i) as V by (rewrite O, nvalues_app; cbn; lia).
    rewrite V in D. split; auto. split; auto.
    replace (Datatypes.S i) with (1 + i) by lia. 
    assert (skipn (1 + i) order = rem) as ->; [|auto].
    { clear -SK. revert i SK. induction order as [|a l IH]; intros [|i] SK; cbn in SK; try discriminate.
      - injection SK as _ ->. reflexivity.
      - apply (IH i SK). }
  - destruct G as (i & D & P & SU). cbn [good]. exists i. split; [auto|]. split; [auto|]. eapply (kp_any _ _ KP); eauto.
  - destruct G as (i & D & P & SU). cbn [good]. eapply (kp_fail _ _ KP); eauto.
  - exfalso. apply (NF t r' p); reflexivity.
  - destruct G as (i & D & P & SU). cbn [good]. eapply (kp_ret _ _ KP); eauto.
Qed.

Lemma sure_move r x y : good (fun p rem => sure p rem r) (fun r' => r' = r) x -> move k words x y ->
  good (fun p rem => sure p rem r) (fun r' => r' = r) y.
Proof.
  intros G M. destruct x as [s c], y as [s' c'].
  assert (D : (forall t (w : R) q, c = Run (PFiles t w q) -> c' <> Run q) \/ exists t (w : R) q, c = Run (PFiles t w q) /\ c' = Run q /\ s' = s).
  { destruct c as [[r0|g|g|X o g|t0 r0 p]| | |]; try (left; congruence).
    inversion M; subst; try (left; congruence).
    - left. intros t1 r1 p1 [= <- <- <-] [= C]. assert (W : forall (q : client R) t (w : R), PFiles t w q <> q); [|apply (W _ _ _ C)].
      clear. induction q; intros t1 r1 C; try discriminate. injection C as _ _ C. eapply IHq; eauto.
    - right. do 3 eexists. split; [reflexivity|split; reflexivity]. }
  destruct D as [D|(t0 & r0 & p & -> & -> & ->)].
  - eapply good_move; eauto. apply kept_sure.
  - destruct G as (i & G). exists i. exact G.
Qed.

Lemma good_progress r x : good (fun p rem => sure p rem r) (fun r' => r' = r) x -> (forall y, ~ move k words x y) -> snd x = Over r.
Proof.
  intros G NM. destruct x as [s c]. cbn [snd]. destruct c as [p|g|g|r']; cbn [good] in G.
  - exfalso. destruct p as [r'|g|g|X o g|t r' q].
    + eapply NM. apply m_end.
    + eapply NM. apply m_size.
    + eapply NM. apply m_next.
    + destruct G as (i & _ & _ & ((a & Ha) & _)). destruct a as [x|f]; eapply NM; [eapply m_any|eapply m_any_fail]; eauto.
    + eapply NM. apply m_files.
  - exfalso. destruct G as (i & out & I & J & HV & Hi & SU).
    destruct (s_prog s) as [|o rest] eqn:P.
    + destruct (back_idle _ _ _ I J P) as (EO & _ & _). cbn [observed fst] in EO.
      eapply NM. eapply m_size_back; eauto.
    + assert (NP : s_prog s <> []) by congruence.
      destruct (Inv_progress _ _ _ _ _ _ I NP) as [([s'|f] & St)|([s'|f] & St)]; eapply NM.
      * eapply m_in_size; eauto.
      * eapply m_in_size_fail; eauto.
      * eapply m_loader; eauto. congruence.
      * eapply m_loader_fail; eauto. congruence.
  - exfalso. destruct G as (i & out & I & J & HV & Hi & SU).
    destruct (s_prog s) as [|o rest] eqn:P.
    + destruct (back_idle _ _ _ I J P) as (EO & EA & _). cbn [observed fst snd] in EO, EA.
      destruct (skipn i order) as [|c0 rem]; [discriminate|].
      eapply NM. eapply m_next_back; eauto.
    + assert (NP : s_prog s <> []) by congruence.
      destruct (Inv_progress _ _ _ _ _ _ I NP) as [([s'|f] & St)|([s'|f] & St)]; eapply NM.
      * eapply m_in_next; eauto.
      * eapply m_in_next_fail; eauto.
      * eapply m_loader; eauto. congruence.
      * eapply m_loader_fail; eauto. congruence.
  - congruence.
Qed.

Notation Accm := (Acc (fun y x : stream * control R => move k words x y)).

Lemma acc_over s r : Accm (s, Over r).
Proof. constructor. intros y M. inversion M; subst; exfalso; eapply H1; reflexivity. Qed.

Lemma acc_wait : 
  (forall g : nat -> client R, (forall s m, Accm (s, Run (g m))) -> forall s, Accm (s, InSize g)) /\
  (forall g : list N -> client R, (forall s m, Accm (s, Run (g m))) -> forall s, Accm (s, InNext g)).
Proof.
  split; intros g HG s; remember (measure k words s) as mm eqn:EM; revert s EM;
    induction mm as [mm IH] using lt_wf_ind; intros s ->; constructor; intros y M; inversion M; subst;
    try apply acc_over; try apply HG.
  all: try (match goal with H : step _ _ _ _ = Some (Ok _) |- _ => pose proof (step_measure k words cts HW _ _ _ H) end; eapply IH; eauto).
Qed.

(** (a match instead of an inversion: no axiom about equality is needed) *)
Lemma move_any_inv (x y : stream * control R) : move k words x y ->
  match x with
  | (s, Run (PAny o g)) =>
      (exists s', step k words Loader s = Some (Ok s') /\ y = (s', Run (PAny o g))) \/
      (exists f, y = (s, Over (Fail f))) \/ (exists a, y = (s, Run (g a)))
  | _ => True
  end.
Proof.
  intros M. destruct M; auto; try (destruct c as [[]| | |]; eauto; fail); eauto.
Qed.

Lemma acc_run p : forall s, Accm (s, Run p).
Proof.
  induction p as [r'|g IHp|g IHp|X o g IHp|t r' q IHp]; intros s; remember (measure k words s) as mm eqn:EM; revert s EM;
    induction mm as [mm IH] using lt_wf_ind; intros s ->; constructor; intros y M;
    [inversion M; subst|inversion M; subst|inversion M; subst|
     apply move_any_inv in M as [(s' & St & ->)|[(f & ->)|(a & ->)]]|inversion M; subst];
    try apply acc_over;
    try (match goal with H : step _ _ _ _ = Some (Ok _) |- _ => pose proof (step_measure k words cts HW _ _ _ H) end; eapply IH; eauto).
  - apply acc_wait. auto.
  - apply acc_wait. auto.
  - apply IHp.
  - apply IHp.
Qed.

Lemma sure_ends s p r : idle 0 s -> s_prog s = [] -> sure p order r -> ends_with k words s p r.
Proof.
  intros D P SU. split; [apply acc_run|].
  assert (G0 : good (fun p rem => sure p rem r) (fun r' => r' = r) (s, Run p)) by (exists 0; auto).
  intros x MT NM. apply (good_progress r); auto. clear NM. revert G0.
  induction MT as [x|x y z M MT IH]; intros G0; auto. apply IH. eapply sure_move; eauto.
Qed.

Lemma always_runs P s p d x d' : idle 0 s -> s_prog s = [] -> always P d p order ->
  fmoves_to k words ((s, Run p), d) (x, d') -> P d'.
Proof.
  intros D E A M.
  assert (K : forall z, fmoves_to k words ((s, Run p), d) z -> good (always P (snd z)) (fun _ => True) (fst z) /\ P (snd z)).
  { clear M. intros z M'. remember ((s, Run p), d) as z0 eqn:E0. induction M' as [z|z y z' M' IH N].
    - subst z. cbn [fst snd]. split; [exists 0; auto|eapply always_here; eauto].
    - specialize (IH E0). clear E0 M'. revert IH.
      destruct N as [s' t w q d1 d2 TD|s' t w q d1|x1 y1 d1 MV NF]; cbn [fst snd]; intros [G PD].
      + destruct G as (i & I1 & I2 & _ & I3 & I4). split; [exists i; cbn [always]; auto|auto].
      + destruct G as (i & I1 & I2 & _ & I3 & I4). split; [exists i; auto|eapply always_here; eauto].
      + split; [|exact PD]. eapply good_move; eauto. apply kept_always. }
  apply (K _ M).
Qed.

Lemma ft_front (x y z : (stream * control R) * R) : fmove k words x y -> fmoves_to k words y z -> fmoves_to k words x z.
Proof.
  intros H M. induction M as [y|y y' z M IH N]; [eapply ft_step; [apply ft_refl|exact H]|eapply ft_step; [exact (IH H)|exact N]].
Qed.
Lemma ft_move x y (d : R) z : move k words x y -> (forall t (w : R) q, snd x <> Run (PFiles t w q)) ->
  fmoves_to k words (y, d) z -> fmoves_to k words (x, d) z.
Proof. intros H NF M. eapply ft_front; [apply fm_other; [exact H|]|exact M]. intros t w q E. exfalso. eapply NF; eauto. Qed.

Lemma size_returns (g : nat -> client R) (d : R) i out (G : (stream * control R) * R -> Prop) : i <= n -> nvalues out = i -> forall s,
  Inv (out ++ fst (observed (skipn i order) [Size])) (snd (observed (skipn i order) [Size])) s -> adds s ->
  (forall s', idle i s' -> s_prog s' = [] -> exists z', fmoves_to k words ((s', Run (g (n - i))), d) z' /\ G z') ->
  exists z', fmoves_to k words ((s, InSize g), d) z' /\ G z'.
Proof.
  intros Hi HV s. remember (measure k words s) as mm eqn:EM. revert s EM.
  induction mm as [mm IH] using lt_wf_ind. intros s -> I J HZ.
  destruct (s_prog s) as [|o rest] eqn:P.
  - destruct (back_idle _ _ _ I J P) as (EO & _ & D). cbn [observed fst] in EO. rewrite skipn_order in EO by auto.
    assert (nvalues (s_out s) = i) as V by (rewrite <- EO, nvalues_app; cbn; lia). rewrite V in D.
    destruct (HZ s D P) as (z' & M & EZ). exists z'. split; [|exact EZ]. eapply ft_move; [|cbn; congruence|exact M].
    eapply m_size_back; eauto.
  - assert (NP : s_prog s <> []) by congruence.
    destruct (Inv_progress _ _ _ _ _ _ I NP) as [([s'|f] & St)|([s'|f] & St)].
    + destruct (Inv_caller _ _ _ HW HB HC _ _ _ _ I St) as [(s2 & Q & I')|[Q _]]; [|discriminate]. injection Q as <-.
      destruct (IH _ (step_measure k words cts HW _ _ _ St) s' eq_refl I' (adds_step _ _ _ _ _ I J St) HZ) as (z' & M & EZ).
      exists z'. split; [|exact EZ]. eapply ft_move; [|cbn; congruence|exact M]. apply m_in_size. exact St.
    + destruct (Inv_caller _ _ _ HW HB HC _ _ _ _ I St) as [(s2 & Q & I')|[_ Q]]; [discriminate|]. cbn [observed snd] in Q. discriminate.
    + destruct (Inv_loader _ _ _ HW _ _ _ _ I St) as (s2 & Q & I'). injection Q as <-.
      destruct (IH _ (step_measure k words cts HW _ _ _ St) s' eq_refl I' (adds_step _ _ _ _ _ I J St) HZ) as (z' & M & EZ).
      exists z'. split; [|exact EZ]. eapply ft_move; [|cbn; congruence|exact M]. apply m_loader; [congruence|exact St].
    + destruct (Inv_loader _ _ _ HW _ _ _ _ I St) as (s2 & Q & I'). discriminate.
Qed.
Lemma next_returns (g : list N -> client R) (d : R) i out (G : (stream * control R) * R -> Prop) c rem : skipn i order = c :: rem -> i <= n -> nvalues out = i -> forall s,
  Inv (out ++ fst (observed (skipn i order) [Next])) (snd (observed (skipn i order) [Next])) s -> adds s ->
  (forall s', idle (Datatypes.S i) s' -> s_prog s' = [] -> exists z', fmoves_to k words ((s', Run (g c)), d) z' /\ G z') ->
  exists z', fmoves_to k words ((s, InNext g), d) z' /\ G z'.
Proof.
  intros SK Hi HV s. rewrite SK. remember (measure k words s) as mm eqn:EM. revert s EM.
  induction mm as [mm IH] using lt_wf_ind. intros s -> I J HZ.
  destruct (s_prog s) as [|o rest] eqn:P.
  - destruct (back_idle _ _ _ I J P) as (EO & _ & D). cbn [observed fst] in EO.
    assert (nvalues (s_out s) = Datatypes.S i) as V by (rewrite <- EO, nvalues_app; cbn; lia). rewrite V in D.
    destruct (HZ s D P) as (z' & M & EZ). exists z'. split; [|exact EZ]. eapply ft_move; [|cbn; congruence|exact M].
    eapply m_next_back; eauto.
  - assert (NP : s_prog s <> []) by congruence.
    destruct (Inv_progress _ _ _ _ _ _ I NP) as [([s'|f] & St)|([s'|f] & St)].
    + destruct (Inv_caller _ _ _ HW HB HC _ _ _ _ I St) as [(s2 & Q & I')|[Q _]]; [|discriminate]. injection Q as <-.
      destruct (IH _ (step_measure k words cts HW _ _ _ St) s' eq_refl I' (adds_step _ _ _ _ _ I J St) HZ) as (z' & M & EZ).
      exists z'. split; [|exact EZ]. eapply ft_move; [|cbn; congruence|exact M]. apply m_in_next. exact St.
    + destruct (Inv_caller _ _ _ HW HB HC _ _ _ _ I St) as [(s2 & Q & I')|[_ Q]]; [discriminate|]. cbn [observed snd] in Q. discriminate.
    + destruct (Inv_loader _ _ _ HW _ _ _ _ I St) as (s2 & Q & I'). injection Q as <-.
      destruct (IH _ (step_measure k words cts HW _ _ _ St) s' eq_refl I' (adds_step _ _ _ _ _ I J St) HZ) as (z' & M & EZ).
      exists z'. split; [|exact EZ]. eapply ft_move; [|cbn; congruence|exact M]. apply m_loader; [congruence|exact St].
    + destruct (Inv_loader _ _ _ HW _ _ _ _ I St) as (s2 & Q & I'). discriminate.
Qed.

Lemma can_runs P p : forall s i (d : R), idle i s -> s_prog s = [] -> can P d p (skipn i order) ->
  exists z, fmoves_to k words ((s, Run p), d) z /\ P (snd z).
Proof.
  induction p as [r'|g IHp|g IHp|X o g IHp|t r' q IHp]; intros s i d D E H; cbn [can] in H;
    (destruct H as [H|H]; [match goal with |- exists z, fmoves_to _ _ ?x z /\ _ => exists x; split; [apply ft_refl|exact H] end|]).
  - destruct H.
  - destruct (enter_inv Size i s D) as [I J]. assert (Hi : i <= n) by apply D. assert (HV : nvalues (s_out s) = i) by apply D.
    rewrite skipn_order in H by auto.
    destruct (size_returns g d i (s_out s) (fun z => P (snd z)) Hi HV (enter k Size s) I J) as (z & M & HZ).
    { intros s' D' E'. eapply IHp; eauto. }
    exists z. split; [|exact HZ]. eapply ft_move; [apply m_size|cbn; congruence|exact M].
  - destruct (skipn i order) as [|c rem] eqn:SK; [destruct H|].
    assert (I : Inv (s_out s ++ fst (observed (skipn i order) [Next])) (snd (observed (skipn i order) [Next])) (enter k Next s) /\
                adds (enter k Next s)) by (apply (enter_inv Next i s D)).
    destruct I as [I J]. assert (Hi : i <= n) by apply D. assert (HV : nvalues (s_out s) = i) by apply D.
    destruct (next_returns g d i (s_out s) (fun z => P (snd z)) c rem SK Hi HV (enter k Next s) I J) as (z & M & HZ).
    { intros s' D' E'. apply (IHp c s' (Datatypes.S i) d D' E').
      assert (skipn (Datatypes.S i) order = rem) as ->; [|exact H].
      clear -SK. revert i SK. induction order as [|a l IH]; intros [|i] SK; cbn in SK; try discriminate.
      - injection SK as _ ->. reflexivity.
      - apply (IH i SK). }
    exists z. split; [|exact HZ]. eapply ft_move; [apply m_next|cbn; congruence|exact M].
  - destruct H as (x & O & H). destruct (IHp x s i d D E H) as (z & M & HZ). exists z. split; [|exact HZ].
    eapply ft_move; [apply m_any; exact O|cbn; congruence|exact M].
  - destruct H as [(d' & TD & PD)|H].
    + eexists. split; [eapply ft_front; [apply fm_part; exact TD|apply ft_refl]|exact PD].
    + destruct (IHp s i r' D E H) as (z & M & HZ). exists z. split; [|exact HZ]. eapply ft_front; [apply fm_files|exact M].
Qed.

Hypothesis HF : (Z.of_nat (n * block_size words) < two64)%Z.

Lemma open_idle junk : length junk = words ->
  exists s, open_stream k words (concat (map save cts)) junk [] = Ok s /\ idle 0 s /\ s_prog s = [].
Proof.
  intros HJ. destruct (open_ok k words cts HW HB HC HF junk [] HJ) as (s & E & I).
  exists s. split; auto.
  assert (P : s_prog s = [] /\ s_out s = [] /\ s_size s = n).
  { revert E. unfold open_stream. rewrite seek_zero_end, tell_at by (rewrite ?(file_length words cts HW HC); auto).
    rewrite (file_length words cts HW HC). fold n. assert (0 < block_size words) by (unfold block_size; lia).
    rewrite Nat.mod_mul by lia. rewrite Nat.div_mul by lia. cbn [Nat.eqb bind]. rewrite Nat2Z.id. fold n.
    destruct (kind_cases k) as [-> | ->]; intros E; apply bind_ok in E as (r0 & _ & [= <-]); cbn; auto. }
  destruct P as (P & O & Z). split; [|exact P].
  destruct (back_idle _ _ _ I) as (_ & _ & D); auto.
  - unfold adds. rewrite P, O, Z. cbn. lia.
  - rewrite O in D. exact D.
Qed.
Theorem stream_client p r junk : length junk = words -> sure p order r ->
  exists s, open_stream k words (concat (map save cts)) junk [] = Ok s /\ ends_with k words s p r.
Proof.
  intros HJ SU. destruct (open_idle junk HJ) as (s & E & I & P). exists s. split; [exact E|]. apply sure_ends; auto.
Qed.
Theorem stream_always P p d junk s x d' : length junk = words -> always P d p order ->
  open_stream k words (concat (map save cts)) junk [] = Ok s -> fmoves_to k words ((s, Run p), d) (x, d') -> P d'.
Proof.
  intros HJ A ES M. destruct (open_idle junk HJ) as (s1 & E1 & I1 & P1). rewrite ES in E1. injection E1 as <-.
  apply (always_runs P s p d x d' I1 P1 A M).
Qed.
Theorem stream_can P p (d : R) junk : length junk = words -> can P d p order ->
  exists s x d', open_stream k words (concat (map save cts)) junk [] = Ok s /\
    fmoves_to k words ((s, Run p), d) (x, d') /\ P d'.
Proof.
  intros HJ A. destruct (open_idle junk HJ) as (s & E & I & P1).
  destruct (can_runs P p s 0 d I P1 A) as ([x d'] & M & HZ). exists s, x, d'. auto.
Qed.
End Client.
