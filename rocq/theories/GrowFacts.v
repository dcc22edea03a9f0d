(** C77: lemmas about streams whose file changes in length. *)
From Coq Require Import List Arith Bool NArith ZArith Ascii Lia.
Import ListNotations.
From Verif Require Import Base BaseFacts TextModel TorusModel ParModel StreamModel InputSpec StreamFacts ClientModel ClientFacts
  CmdModel CrashModel GrowModel GrowSpec.

Lemma grown_refl d : grown d d. Proof. exists []. now rewrite app_nil_r. Qed.
Lemma with_same s : with_file (is_data (s_is s)) s = s.
Proof. destruct s as [[]]. reflexivity. Qed.
Lemma with_with d d' s : with_file d (with_file d' s) = with_file d s.
Proof. reflexivity. Qed.

Lemma read_prefix (a b : list N) p k : length (firstn k (skipn p a)) = k ->
  firstn k (skipn p (a ++ b)) = firstn k (skipn p a).
Proof.
  intros H. rewrite firstn_length, skipn_length in H. rewrite skipn_app, firstn_app, skipn_length.
  replace (k - (length a - p)) with 0 by lia. cbn [firstn]. now rewrite app_nil_r.
Qed.
Lemma read_grown (d0 d : list N) p k : grown d0 d -> length (firstn k (skipn p d0)) = k ->
  firstn k (skipn p d) = firstn k (skipn p d0).
Proof. intros (more & ->). apply read_prefix. Qed.

Lemma load_resized d0 d p f x is' : resized d0 d -> load_double (mkIs d0 p f) = Ok (x, is') ->
  (load_double (mkIs d p f) = Ok (x, mkIs d (is_pos is') (is_fail is')) /\ is_data is' = d0) \/
  (load_double (mkIs d p f) = Fail FAssert /\ ~ grown d0 d).
Proof.
  intros RS H. unfold load_double, sgetn in *. cbn [is_data is_pos is_fail] in *.
  destruct (Nat.eqb_spec (length (firstn 8 (skipn p d0))) 8) as [L|L]; cbn [assert_] in H; [|discriminate].
  injection H as <- <-. cbn [is_data is_pos is_fail].
  destruct (Nat.eqb_spec (length (firstn 8 (skipn p d))) 8) as [L'|L']; cbn [assert_].
  - assert (E : firstn 8 (skipn p d) = firstn 8 (skipn p d0)).
    { destruct RS as [G|G]; [now apply read_grown|symmetry; now apply read_grown]. }
    rewrite E. auto.
  - right. split; [reflexivity|]. intros G. apply L'. rewrite (read_grown d0 d p 8 G L). exact L.
Qed.

Lemma loader_resized k words d s s' : resized (is_data (s_is s)) d -> step k words Loader s = Some (Ok s') ->
  is_data (s_is s') = is_data (s_is s) /\
  (step k words Loader (with_file d s) = Some (Ok (with_file d s')) \/
   (step k words Loader (with_file d s) = Some (Fail FAssert) /\ ~ grown (is_data (s_is s)) d)).
Proof.
  intros RS St. destruct s as [[d0 p f] lo sz run ret out prog]. cbn [s_is is_data] in RS.
  unfold with_file. cbn [step s_run s_is s_loaded s_size s_ret s_out s_prog is_pos is_fail is_data] in *.
  destruct run as [[|o os]|]; try discriminate. injection St as H. apply bind_ok in H as ([is1 l1] & E & [= <-]).
  cbn [s_run s_is s_loaded s_size s_ret s_out s_prog].
  destruct o as [|off|i]; cbn [wstep] in E |- *.
  - unfold is_beg, tellg in *. cbn [is_fail is_pos] in *.
    destruct (negb _); cbn [assert_] in E |- *; [|discriminate]. injection E as <- <-. cbn [is_data is_pos is_fail bind]. auto.
  - injection E as <- <-. unfold seek. cbn [is_fail is_pos is_data bind].
    destruct f; cbn [is_data is_pos is_fail]; auto.
    destruct (_ <? 0)%Z; cbn [is_data is_pos is_fail]; auto.
  - apply bind_ok in E as ([x is2] & E1 & E2). apply bind_ok in E2 as (l2 & E2 & [= <- <-]).
    destruct (load_resized d0 d p f x is2 RS E1) as [(A & D)|(A & D)]; rewrite A; cbn [bind].
    + rewrite E2. cbn [bind]. auto.
    + split; [|auto]. clear -E1. unfold load_double, sgetn in E1. cbn [is_data is_pos is_fail] in E1.
      destruct (length _ =? 8); cbn [assert_] in E1; [|discriminate]. injection E1 as _ <-. reflexivity.
Qed.

Definition map_step (d : list N) (o : option (res stream)) : option (res stream) :=
  match o with None => None | Some (Fail f) => Some (Fail f) | Some (Ok s) => Some (Ok (with_file d s)) end.
Lemma caller_resized k words d s : step k words Caller (with_file d s) = map_step d (step k words Caller s).
Proof.
  destruct s as [[d0 p f] lo sz run ret out prog]. unfold with_file. cbn [step s_prog s_is is_pos is_fail].
  destruct prog as [|o rest]; [reflexivity|]. destruct o; cbn [cstep s_run s_size s_is s_out s_loaded s_ret]; try reflexivity.
  - destruct (0 <? sz); reflexivity.
  - destruct run as [[|]|]; reflexivity.
  - destruct run as [[|]|]; reflexivity.
  - unfold is_beg, tellg. cbn [is_fail is_pos]. destruct k; destruct run as [[|]|]; cbn [quiet start bind]; try reflexivity;
      match goal with |- context [if ?b then _ else _] => destruct b end; reflexivity.
Qed.
Lemma caller_data k words s s' : step k words Caller s = Some (Ok s') -> is_data (s_is s') = is_data (s_is s).
Proof.
  destruct s as [[d0 p f] lo sz run ret out prog]. cbn [step s_prog]. destruct prog as [|o rest]; [discriminate|].
  destruct o; cbn [cstep s_run s_size s_is s_out s_loaded s_ret]; intros E;
    try (injection E as <-; reflexivity).
  - destruct (0 <? sz); cbn in E; [injection E as <-; reflexivity|discriminate].
  - destruct run as [[|]|]; try discriminate. injection E as <-; reflexivity.
  - destruct run as [[|]|]; cbn in E; try discriminate; injection E as <-; reflexivity.
  - destruct k; destruct run as [[|]|]; cbn [quiet start bind] in E; try discriminate;
      repeat match type of E with context [if ?b then _ else _] => destruct b end; try discriminate; injection E as <-; reflexivity.
Qed.

Section Grow.
Variables (k : kind) (words : nat) (cts : list (list N)).
Hypothesis HW : 0 < words.
Hypothesis HB : (Z.of_nat (block_size words) < 2 ^ 63)%Z.
Hypothesis HC : Forall (is_ctxt words) cts.
Context {R : Type}.
Notation Good := (@good k words cts R (fun _ _ => True) (fun _ => True)).

Lemma good_any x y : Good x -> move k words x y -> Good y.
Proof.
  intros G M. destruct x as [s c], y as [s' c'].
  assert (D : (forall t (w : R) q, c = Run (PFiles t w q) -> c' <> Run q) \/ exists t (w : R) q, c = Run (PFiles t w q) /\ c' = Run q /\ s' = s).
  { destruct c as [[r0|g|g|X o g|t0 r0 p]| | |]; try (left; congruence).
    inversion M; subst; try (left; congruence).
    - left. intros t1 r1 p1 [= <- <- <-] [= C]. assert (W : forall (q : client R) t (w : R), PFiles t w q <> q); [|apply (W _ _ _ C)].
      clear. induction q; intros t1 r1 C; try discriminate. injection C as _ _ C. eapply IHq; eauto.
    - right. do 3 eexists. split; [reflexivity|split; reflexivity]. }
  destruct D as [D|(t0 & r0 & p & -> & -> & ->)].
  - eapply (good_move k words cts HW HB HC); eauto. constructor; auto.
  - destruct G as (i & G). exists i. exact G.
Qed.

Lemma good_loader s c f : Good (s, c) -> (forall r, c <> Over r) -> step k words Loader s <> Some (Fail f).
Proof.
  intros G NO St. assert (X : exists E A, Inv k words cts E A s).
  { destruct c as [p|g|g|r']; cbn [good] in G.
    - destruct G as (i & D & P & SU). destruct (idle_inv k words cts HW i s D P). eauto.
    - destruct G as (i & out & I & _). eauto.
    - destruct G as (i & out & I & _). eauto.
    - exfalso. eapply NO; reflexivity. }
  destruct X as (E & A & I). destruct (Inv_loader _ _ _ HW _ _ _ _ I St) as (s1 & Q & I'). discriminate.
Qed.

(** A step with another length of the file is the same step, or the process stops because the file
    is too short. *)
Lemma move_resized d s (c : control R) y : Good (s, c) -> resized (is_data (s_is s)) d ->
  move k words (with_file d s, c) y ->
  (exists s' c', y = (with_file d s', c') /\ move k words (s, c) (s', c') /\ is_data (s_is s') = is_data (s_is s)) \/
  (snd y = Over (Fail FAssert) /\ (forall t w q, c <> Run (PFiles t w q) \/ snd y <> Run q) /\ ~ grown (is_data (s_is s)) d).
Proof.
  intros G RS M. remember (with_file d s, c) as x eqn:EX.
  destruct M as [s1 s' c1 NO St|s1 f c1 NO St|s1 g|s1 g|s1 s' g St|s1 f g St|s1 s' g St|s1 f g St|s1 g out m P O|s1 g out m P O|X s1 o g x O|X s1 o g f O|s1 t r' p|s1 r'];
    injection EX as -> <-.
  - destruct (step k words Loader s) as [[s2|f]|] eqn:E0.
    + destruct (loader_resized k words d s s2 RS E0) as (D & [Q|(Q & NG)]); rewrite Q in St; [|discriminate].
      injection St as <-. left. exists s2, c1. split; [reflexivity|]. split; [|exact D]. apply m_loader; auto.
    + exfalso. eapply good_loader; eauto.
    + exfalso. cbn [step] in E0, St. unfold with_file in St. cbn [s_run] in St.
      destruct (s_run s) as [[|]|]; discriminate.
  - destruct (step k words Loader s) as [[s2|f2]|] eqn:E0.
    + destruct (loader_resized k words d s s2 RS E0) as (D & [Q|(Q & NG)]); rewrite Q in St; [discriminate|].
      injection St as <-. right. cbn [snd]. split; [reflexivity|]. split; [|exact NG]. intros. right. discriminate.
    + exfalso. eapply good_loader; eauto.
    + exfalso. cbn [step] in E0, St. unfold with_file in St. cbn [s_run] in St.
      destruct (s_run s) as [[|]|]; discriminate.
  - left. exists (enter k Size s), (InSize g). split; [reflexivity|]. split; [apply m_size|reflexivity].
  - left. exists (enter k Next s), (InNext g). split; [reflexivity|]. split; [apply m_next|reflexivity].
  - rewrite caller_resized in St. destruct (step k words Caller s) as [[s2|f]|] eqn:E0; cbn [map_step] in St; try discriminate.
    injection St as <-. left. exists s2, (InSize g). split; [reflexivity|]. split; [now apply m_in_size|eapply caller_data; eauto].
  - rewrite caller_resized in St. destruct (step k words Caller s) as [[s2|f2]|] eqn:E0; cbn [map_step] in St; try discriminate.
    injection St as <-. left. exists s, (Over (Fail f2)). split; [reflexivity|]. split; [now apply m_in_size_fail|reflexivity].
  - rewrite caller_resized in St. destruct (step k words Caller s) as [[s2|f]|] eqn:E0; cbn [map_step] in St; try discriminate.
    injection St as <-. left. exists s2, (InNext g). split; [reflexivity|]. split; [now apply m_in_next|eapply caller_data; eauto].
  - rewrite caller_resized in St. destruct (step k words Caller s) as [[s2|f2]|] eqn:E0; cbn [map_step] in St; try discriminate.
    injection St as <-. left. exists s, (Over (Fail f2)). split; [reflexivity|]. split; [now apply m_in_next_fail|reflexivity].
  - left. exists s, (Run (g m)). split; [reflexivity|]. split; [eapply m_size_back; eauto|reflexivity].
  - left. exists s, (Run (g m)). split; [reflexivity|]. split; [eapply m_next_back; eauto|reflexivity].
  - left. exists s, (Run (g x)). split; [reflexivity|]. split; [now apply m_any|reflexivity].
  - left. exists s, (Over (Fail f)). split; [reflexivity|]. split; [now apply m_any_fail|reflexivity].
  - left. exists s, (Run p). split; [reflexivity|]. split; [apply m_files|reflexivity].
  - left. exists s, (Over r'). split; [reflexivity|]. split; [apply m_end|reflexivity].
Qed.

Lemma no_move_over s (r : res R) y : ~ move k words (s, Over r) y.
Proof. intros M. inversion M; subst; eapply H1; reflexivity. Qed.
Lemma gacc_over allowed s (r : res R) : Acc (fun y x => gmove k words allowed x y) (s, Over r).
Proof. constructor. intros y (d & _ & M). exfalso. eapply no_move_over; eauto. Qed.

Variable allowed : list N -> Prop.
Variable d0 : list N.
Hypothesis AL : forall d, allowed d -> resized d0 d.
Hypothesis AR : allowed d0.

Lemma gacc x : Acc (fun y x : stream * control R => move k words x y) x -> Good x -> is_data (s_is (fst x)) = d0 ->
  forall d, Acc (fun y x => gmove k words allowed x y) (with_file d (fst x), snd x).
Proof.
  induction 1 as [[s c] _ IH]. intros G D d. cbn [fst snd] in *. constructor. intros y (d1 & A1 & M). cbn [fst snd] in M.
  rewrite with_with in M. destruct (move_resized d1 s c y G) as [(s' & c' & -> & M' & D')|(E & _)].
  - rewrite D. apply AL. exact A1.
  - exact M.
  - specialize (IH (s', c') M' (good_any _ _ G M')). cbn [fst snd] in IH. apply IH. congruence.
  - destruct y as [sy cy]. cbn [snd] in E. subst cy. apply gacc_over.
Qed.

Definition under (x0 x : stream * control R) : Prop :=
  exists s c d, x = (with_file d s, c) /\ moves_to k words x0 (s, c) /\ Good (s, c) /\ is_data (s_is s) = d0.
Lemma mt_snoc (x y z : stream * control R) : moves_to k words x y -> move k words y z -> moves_to k words x z.
Proof. induction 1 as [x|x y y' M _ IH]; intros N; [eapply mt_step; [exact N|apply mt_refl]|eapply mt_step; [exact M|auto]]. Qed.

Lemma gmoves_under x0 x : Good x0 -> is_data (s_is (fst x0)) = d0 -> gmoves_to k words allowed x0 x ->
  under x0 x \/ (snd x = Over (Fail FAssert) /\ exists d, allowed d /\ ~ grown d0 d).
Proof.
  intros G D M. remember x0 as x1 eqn:E1. induction M as [x|x y z M IH (d & Ad & N)].
  - left. subst x. destruct x0 as [s c]. exists s, c, (is_data (s_is s)). rewrite with_same.
    split; [reflexivity|]. split; [apply mt_refl|]. auto.
  - specialize (IH E1 G D). destruct IH as [(s & c & d1 & -> & MT & GS & DS)|(E & _)].
    + cbn [fst snd] in N. rewrite with_with in N.
      destruct (move_resized d s c z GS) as [(s' & c' & -> & M' & D')|(E & _ & NG)].
      * rewrite DS. apply AL. exact Ad.
      * exact N.
      * left. exists s', c', d. split; [reflexivity|]. split; [eapply mt_snoc; eauto|].
        split; [eapply good_any; eauto|congruence].
      * right. split; [exact E|]. exists d. rewrite DS in NG. auto.
    + exfalso. destruct y as [sy cy]. cbn [snd fst] in *. subst cy. eapply no_move_over; eauto.
Qed.

Lemma ends_resized s p (r : res R) : Good (s, Run p) -> is_data (s_is s) = d0 -> ends_with k words s p r ->
  ends_while k words allowed s p (fun r' => r' = r \/ (r' = Fail FAssert /\ exists d, allowed d /\ ~ grown d0 d)).
Proof.
  intros G D (A & E). split.
  - pose proof (gacc _ A G D (is_data (s_is s))) as H. cbn [fst snd] in H. rewrite with_same in H. exact H.
  - intros x M NM. destruct (gmoves_under _ x G D M) as [(s' & c & d & -> & MT & GS & DS)|(EO & X)].
    + cbn [snd]. exists r. split; [|auto]. apply (E (s', c) MT). intros y MY. apply (NM y). exists d0. split; [exact AR|].
      cbn [fst snd]. rewrite with_with. rewrite <- DS, with_same. exact MY.
    + exists (Fail FAssert). auto.
Qed.

(** * with the files *)
Lemma fmove_resized d s (c : control R) (f : R) y f' : Good (s, c) -> resized (is_data (s_is s)) d ->
  fmove k words ((with_file d s, c), f) (y, f') ->
  (exists s' c', y = (with_file d s', c') /\ fmove k words ((s, c), f) ((s', c'), f') /\ Good (s', c') /\ is_data (s_is s') = is_data (s_is s)) \/
  (snd y = Over (Fail FAssert) /\ f' = f).
Proof.
  intros G RS M. remember ((with_file d s, c), f) as x eqn:EX. remember (y, f') as z eqn:EZ.
  destruct M as [s1 t r p f1 f2 H|s1 t r p f1|x1 y1 f1 M NF].
  - injection EX as -> <- <-. injection EZ as <- <-. left. exists s, (Run (PFiles t r p)). split; [reflexivity|].
    split; [now apply fm_part|]. auto.
  - injection EX as -> <- <-. injection EZ as <- <-. left. exists s, (Run p). split; [reflexivity|].
    split; [apply fm_files|]. split; [|reflexivity]. destruct G as (i & G1 & G2 & G3). exists i. auto.
  - injection EX as -> <-. injection EZ as -> <-.
    destruct (move_resized d s c y G RS M) as [(s' & c' & -> & M' & D')|(E & _ & NG)].
    + left. exists s', c'. split; [reflexivity|]. split; [|split; [eapply good_any; eauto|exact D']].
      apply fm_other; [exact M'|]. exact NF.
    + right. auto.
Qed.
Lemma no_fmove_over s (r : res R) f y : ~ fmove k words ((s, Over r), f) y.
Proof. intros M. remember ((s, Over r), f) as x eqn:EX. destruct M; try discriminate. injection EX as -> ->. eapply no_move_over; eauto. Qed.

Lemma fgmoves_under x0 (f : R) z : Good x0 -> is_data (s_is (fst x0)) = d0 -> fgmoves_to k words allowed (x0, f) z ->
  exists w, fmoves_to k words (x0, f) (w, snd z) /\
    ((exists d, fst z = (with_file d (fst w), snd w)) /\ Good w /\ is_data (s_is (fst w)) = d0 \/
     snd (fst z) = Over (Fail FAssert)).
Proof.
  intros G D M. remember (x0, f) as x1 eqn:E1. induction M as [x|x y z M IH (d & Ad & N)].
  - subst x. exists x0. cbn [fst snd]. split; [apply ft_refl|]. left. split; [|auto].
    exists (is_data (s_is (fst x0))). rewrite with_same. now destruct x0.
  - destruct (IH E1) as (w & MT & [((d1 & EY) & GW & DW)|EO]).
    + destruct y as [[sy cy] fy], w as [s c]. cbn [fst snd] in *. injection EY as -> ->. rewrite with_with in N.
      destruct z as [z fz]. cbn [fst snd].
      destruct (fmove_resized d s c fy z fz GW) as [(s' & c' & -> & M' & G' & D')|(EO & ->)].
      * rewrite DW. apply AL. exact Ad.
      * exact N.
      * exists (s', c'). split; [subst; eapply ft_step; eauto|]. left. cbn [fst snd]. split; [eauto|]. split; [exact G'|congruence].
      * exists (s, c). auto.
    + exfalso. destruct y as [[sy cy] fy]. cbn [fst snd] in *. subst cy. eapply no_fmove_over; eauto.
Qed.
End Grow.
