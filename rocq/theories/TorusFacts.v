From Coq Require Import List Arith Bool NArith ZArith Lia Morphisms Setoid.
From Coq Require Import ZifyBool ZifyNat ZifyN.
Import ListNotations.
From Verif Require Import Base BaseFacts TorusModel TfheSpec.
Local Open Scope Z_scope.

Lemma two32_pos : 0 < two32. Proof. reflexivity. Qed.
#[export] Hint Resolve two32_pos : core.

Lemma eqm_iff : forall x y, eqm x y <-> exists q, x = y + q * two32.
Proof.
  intros x y. unfold eqm. split.
  - intros H. apply Z.mod_divide in H; [|discriminate]. destruct H as [q Hq]. exists q. lia.
  - intros [q ->]. replace (y + q * two32 - y) with (q * two32) by lia. apply Z.mod_mul. discriminate.
Qed.
Lemma eqm_w32 : forall x y, eqm x y <-> w32 x = w32 y.
Proof.
  intros x y. rewrite eqm_iff. unfold w32. split.
  - intros [q ->]. apply Z.mod_add. discriminate.
  - intros H. exists (x / two32 - y / two32).
    rewrite (Z.div_mod x two32) at 1 by discriminate.
    rewrite (Z.div_mod y two32) at 1 by discriminate. rewrite H. lia.
Qed.
#[export] Instance eqm_equiv : Equivalence eqm.
Proof.
  split; red; setoid_rewrite eqm_w32; congruence.
Qed.
#[export] Instance add_m : Proper (eqm ==> eqm ==> eqm) Z.add.
Proof. intros a b H c d H1. apply eqm_iff in H as [q ->], H1 as [r ->]. apply eqm_iff. exists (q+r). lia. Qed.
#[export] Instance sub_m : Proper (eqm ==> eqm ==> eqm) Z.sub.
Proof. intros a b H c d H1. apply eqm_iff in H as [q ->], H1 as [r ->]. apply eqm_iff. exists (q-r). lia. Qed.
#[export] Instance opp_m : Proper (eqm ==> eqm) Z.opp.
Proof. intros a b H. apply eqm_iff in H as [q ->]. apply eqm_iff. exists (-q). lia. Qed.
#[export] Instance mul_m : Proper (eqm ==> eqm ==> eqm) Z.mul.
Proof. intros a b H c d H1. apply eqm_iff in H as [q ->], H1 as [r ->]. apply eqm_iff.
  exists (q*d + b*r + q*r*two32). lia. Qed.
Lemma w32_m : forall x, eqm (w32 x) x.
Proof. intros x. apply eqm_w32. unfold w32. apply Z.mod_mod. discriminate. Qed.
Lemma eqm_refl' : forall x y, x = y -> eqm x y. Proof. intros x y ->. reflexivity. Qed.
Lemma cf_m : forall p i, eqm (cf p i) (nth i p 0). Proof. intros. apply w32_m. Qed.

Lemma near_refl : forall e x, 0 <= e -> near e x x.
Proof. intros e x H. exists 0. split; [lia|]. apply eqm_refl'. lia. Qed.
Lemma near_eqm : forall e x y, 0 <= e -> eqm x y -> near e x y.
Proof. intros e x y H H1. exists 0. split; [lia|]. rewrite H1. apply eqm_refl'. lia. Qed.
Lemma near_trans : forall e f x y z, near e x y -> near f y z -> near (e + f) x z.
Proof.
  intros e f x y z [d [Hd H1]] [d' [Hd' H2]]. exists (d' + d). split; [lia|].
  rewrite H1, H2. apply eqm_refl'. lia.
Qed.
Lemma near_le : forall e f x y, near e x y -> e <= f -> near f x y.
Proof. intros e f x y [d [Hd H]] L. exists d. split; [lia|auto]. Qed.
Lemma near_l : forall e x x' y, eqm x x' -> near e x' y -> near e x y.
Proof. intros e x x' y H [d [Hd H1]]. exists d. split; [auto|]. rewrite H. auto. Qed.
Lemma near_r : forall e x y y', near e x y' -> eqm y y' -> near e x y.
Proof. intros e x y y' [d [Hd H1]] H. exists d. split; [auto|]. rewrite H. auto. Qed.
Lemma near_add : forall e f x y z t, near e x y -> near f z t -> near (e + f) (x + z) (y + t).
Proof.
  intros e f x y z t [d [Hd H1]] [d' [Hd' H2]]. exists (d + d'). split; [lia|].
  rewrite H1, H2. apply eqm_refl'. lia.
Qed.
Lemma near_sub_c : forall e x y c, near e x y -> near e (x - c) (y - c).
Proof. intros e x y c [d [Hd H1]]. exists d. split; [auto|]. rewrite H1. apply eqm_refl'. lia. Qed.
Lemma near_opp : forall e x y, near e x y -> near e (- x) (- y).
Proof. intros e x y [d [Hd H1]]. exists (-d). split; [lia|]. rewrite H1. apply eqm_refl'. lia. Qed.
Lemma near_nonneg : forall e x y, near e x y -> 0 <= e.
Proof. intros e x y [d [Hd _]]. lia. Qed.

(** ** Sums *)
Lemma sum_ext : forall n f g, (forall j, (j < n)%nat -> f j = g j) -> sum_upto n f = sum_upto n g.
Proof. induction n; intros f g H; cbn; auto. rewrite (IHn f g), H; auto. Qed.
Lemma sum_m : forall n f g, (forall j, (j < n)%nat -> eqm (f j) (g j)) -> eqm (sum_upto n f) (sum_upto n g).
Proof. induction n; intros f g H; cbn; [reflexivity|]. rewrite (IHn f g), (H n); auto. reflexivity. Qed.
Lemma sum_add : forall n f g, sum_upto n f + sum_upto n g = sum_upto n (fun j => f j + g j).
Proof. induction n; intros f g; cbn; auto. rewrite <- IHn. lia. Qed.
Lemma sum_scale : forall n c f, c * sum_upto n f = sum_upto n (fun j => c * f j).
Proof. induction n; intros c f; cbn; [lia|]. rewrite <- IHn. lia. Qed.
Lemma sum_zero : forall n f, (forall j, (j < n)%nat -> f j = 0) -> sum_upto n f = 0.
Proof. induction n; intros f H; cbn; auto. rewrite IHn, H; auto. Qed.

Lemma fold_sub : forall n f g x, (forall a j, (j < n)%nat -> eqm (f a j) (a - g j)) ->
  eqm (fold_left f (seq 0 n) x) (x - sum_upto n g).
Proof.
  induction n; intros f g x H.
  - cbn. apply eqm_refl'. lia.
  - rewrite seq_S, fold_left_app. cbn [fold_left]. rewrite H by lia.
    rewrite (IHn f g) by (intros; apply H; lia). cbn. apply eqm_refl'. lia.
Qed.

(** ** The code's phases are the specification's *)
Lemma phase_of_TLWE_ok : forall n c s, eqm (phase_of_TLWE n c s) (tlwe_phase n s c).
Proof.
  intros n c s. unfold phase_of_TLWE, tlwe_phase.
  rewrite fold_sub with (g := fun j => nth j c 0 * nth j s 0).
  - rewrite cf_m. reflexivity.
  - intros a j _. rewrite w32_m, !cf_m. reflexivity.
Qed.
Lemma phase_of_TLWE_range : forall n c s, 0 <= phase_of_TLWE n c s < two32.
Proof.
  intros n c s. unfold phase_of_TLWE. destruct n.
  - cbn. apply Z.mod_pos_bound. reflexivity.
  - rewrite seq_S, fold_left_app. cbn [fold_left]. apply Z.mod_pos_bound. reflexivity.
Qed.

Lemma nth_mk_poly : forall n f i, (i < n)%nat -> nth i (mk_poly n f) 0 = f i.
Proof.
  intros n f i H. unfold mk_poly.
  rewrite (nth_indep _ 0 (f 0%nat)) by (rewrite map_length, seq_length; lia).
  rewrite map_nth, seq_nth by lia. f_equal.
Qed.

(** ** ext *)
Section Ext.
Context (n : nat) (Hn : (0 < n)%nat).
Lemma ext_low : forall p m, 0 <= m < Z.of_nat n -> ext n p m = p (Z.to_nat m).
Proof.
  intros p m H. unfold ext. rewrite Z.div_small, Z.mod_small by lia. cbn [Z.even]. lia.
Qed.
Lemma ext_add_n : forall p m, ext n p (m + Z.of_nat n) = - ext n p m.
Proof.
  intros p m. unfold ext.
  replace (m + Z.of_nat n) with (m + 1 * Z.of_nat n) by lia.
  rewrite Z.div_add, Z.mod_add by lia. rewrite Z.even_add. cbn [Z.even].
  destruct (Z.even (m / Z.of_nat n)); cbn [Bool.eqb]; lia.
Qed.
Lemma ext_sub_n : forall p m, ext n p (m - Z.of_nat n) = - ext n p m.
Proof. intros p m. pose proof (ext_add_n p (m - Z.of_nat n)) as H. replace (m - Z.of_nat n + Z.of_nat n) with m in H by lia. lia. Qed.
Lemma ext_m : forall p q m, (forall i, (i < n)%nat -> eqm (p i) (q i)) -> eqm (ext n p m) (ext n q m).
Proof.
  intros p q m H. unfold ext. rewrite H; [reflexivity|].
  pose proof (Z.mod_pos_bound m (Z.of_nat n)). lia.
Qed.
Lemma ext_same : forall p q m, (forall i, (i < n)%nat -> p i = q i) -> ext n p m = ext n q m.
Proof.
  intros p q m H. unfold ext. rewrite H; [reflexivity|].
  pose proof (Z.mod_pos_bound m (Z.of_nat n)). lia.
Qed.
Lemma ext_add : forall p q m, ext n p m + ext n q m = ext n (fun i => p i + q i) m.
Proof. clear Hn. intros. unfold ext. lia. Qed.

(** A function given by shifted coefficients extends to the shifted extension. *)
Lemma ext_shift : forall p q k, (forall i, (i < n)%nat -> eqm (q i) (ext n p (Z.of_nat i - k))) ->
  forall m, eqm (ext n q m) (ext n p (m - k)).
Proof.
  intros p q k H m. unfold ext at 1.
  pose proof (Z.mod_pos_bound m (Z.of_nat n)) as B.
  rewrite H by lia. rewrite Z2Nat.id by lia.
  assert (G : forall c r, 0 <= r -> 0 <= c ->
     ext n p (r + c * Z.of_nat n - k) = (if Z.even c then 1 else -1) * ext n p (r - k)).
  { intros c r Hr Hc. revert c Hc.
    apply (natlike_ind (fun c => ext n p (r + c * Z.of_nat n - k) = (if Z.even c then 1 else -1) * ext n p (r - k))).
    - cbn [Z.even]. replace (r + 0 * Z.of_nat n - k) with (r - k) by lia. lia.
    - intros c Hc IH. replace (r + Z.succ c * Z.of_nat n - k) with (r + c * Z.of_nat n - k + Z.of_nat n) by lia.
      rewrite ext_add_n, IH, Z.even_succ, <- Z.negb_even. destruct (Z.even c); cbn [negb]; lia. }
  assert (G' : forall c r, 0 <= c ->
     ext n p (r - k) = (if Z.even c then 1 else -1) * ext n p (r - c * Z.of_nat n - k)).
  { intros c r. revert c.
    apply (natlike_ind (fun c => ext n p (r - k) = (if Z.even c then 1 else -1) * ext n p (r - c * Z.of_nat n - k))).
    - cbn [Z.even]. replace (r - 0 * Z.of_nat n - k) with (r - k) by lia. lia.
    - intros c Hc IH. replace (r - c * Z.of_nat n - k) with (r - Z.succ c * Z.of_nat n - k + Z.of_nat n) in IH by lia.
      rewrite IH, ext_add_n, Z.even_succ, <- Z.negb_even. destruct (Z.even c); cbn [negb]; lia. }
  pose proof (Z.div_mod m (Z.of_nat n)) as D. specialize (D ltac:(lia)).
  apply eqm_refl'. destruct (Z_le_gt_dec 0 (m / Z.of_nat n)) as [L|L].
  - rewrite <- G by lia. f_equal. lia.
  - rewrite (G' (- (m / Z.of_nat n)) (m mod Z.of_nat n)) by lia.
    rewrite Z.even_opp. replace (m mod Z.of_nat n - - (m / Z.of_nat n) * Z.of_nat n - k) with (m - k) by lia.
    destruct (Z.even (m / Z.of_nat n)); lia.
Qed.
End Ext.

(** ** TRLWE phases *)
Section R.
Context (n : nat) (Hn : (0 < n)%nat) (s : list Z).

Lemma phase_of_TRLWE_ok : forall c i, (i < n)%nat ->
  eqm (nth i (phase_of_TRLWELvl1 n c s) 0) (trlwe_phase n s c i).
Proof.
  intros c i H. unfold phase_of_TRLWELvl1. rewrite nth_mk_poly by auto.
  rewrite w32_m, cf_m. unfold trlwe_phase. apply sub_m; [reflexivity|].
  unfold poly_mul_coef.
  rewrite fold_sub with (g := fun j => - (nth j s 0 * ext n (fun k => nth k (fst c) 0) (Z.of_nat i - Z.of_nat j))).
  - assert (E : forall m f, sum_upto m (fun j => - f j) = - sum_upto m f)
      by (induction m; intros; cbn; [lia|rewrite IHm; lia]).
    rewrite E. apply eqm_refl'. lia.
  - intros a j Hj. destruct (Nat.leb_spec j i).
    + rewrite w32_m, !cf_m, ext_low by lia.
      replace (Z.to_nat (Z.of_nat i - Z.of_nat j)) with (i - j)%nat by lia. apply eqm_refl'. lia.
    + rewrite w32_m, !cf_m.
      replace (Z.of_nat i - Z.of_nat j) with (Z.of_nat (n + i - j) - Z.of_nat n) by lia.
      rewrite ext_sub_n, ext_low, Nat2Z.id by lia. apply eqm_refl'. lia.
Qed.

(** Linear operations on both polynomials act on the phase. *)
Lemma trlwe_phase_add : forall x y z i, (i < n)%nat ->
  (forall k, (k < n)%nat -> eqm (nth k (fst z) 0) (nth k (fst x) 0 + nth k (fst y) 0)) ->
  (forall k, (k < n)%nat -> eqm (nth k (snd z) 0) (nth k (snd x) 0 + nth k (snd y) 0)) ->
  eqm (trlwe_phase n s z i) (trlwe_phase n s x i + trlwe_phase n s y i).
Proof.
  intros x y z i H Ha Hb. unfold trlwe_phase. rewrite Hb by auto.
  rewrite sum_m with (g := fun j => nth j s 0 * ext n (fun k => nth k (fst x) 0) (Z.of_nat i - Z.of_nat j)
     + nth j s 0 * ext n (fun k => nth k (fst y) 0) (Z.of_nat i - Z.of_nat j)).
  - rewrite <- sum_add. apply eqm_refl'. lia.
  - intros j Hj. rewrite (ext_m n Hn (fun k => nth k (fst z) 0) (fun k => nth k (fst x) 0 + nth k (fst y) 0) _ Ha).
    rewrite <- ext_add. apply eqm_refl'. lia.
Qed.

Lemma TRLWE_add_phase : forall x y i, (i < n)%nat ->
  eqm (trlwe_phase n s (TRLWELvl1_add n x y) i) (trlwe_phase n s x i + trlwe_phase n s y i).
Proof.
  intros x y i H. apply trlwe_phase_add; auto; intros k Hk; cbn [fst snd TRLWELvl1_add];
    rewrite nth_mk_poly, w32_m, !cf_m by auto; reflexivity.
Qed.

Lemma mult_X_k_coef : forall p k q, PolyLvl1_mult_X_k n p k = Ok q -> forall i, (i < n)%nat ->
  eqm (nth i q 0) (ext n (fun j => nth j p 0) (Z.of_nat i - Z.of_nat k)).
Proof.
  intros p k q H i Hi. unfold PolyLvl1_mult_X_k in H.
  destruct (Nat.eqb_spec k 0).
  { injection H as <-. subst k. rewrite nth_mk_poly, ext_low, cf_m by lia.
    replace (Z.to_nat (Z.of_nat i - Z.of_nat 0)) with i by lia. reflexivity. }
  destruct (Nat.ltb_spec k n).
  { injection H as <-. rewrite nth_mk_poly by auto. destruct (Nat.ltb_spec i k).
    - rewrite w32_m, cf_m.
      replace (Z.of_nat i - Z.of_nat k) with (Z.of_nat (i + n - k) - Z.of_nat n) by lia.
      rewrite ext_sub_n, ext_low, Nat2Z.id by lia. reflexivity.
    - rewrite cf_m, ext_low by lia. replace (Z.to_nat (Z.of_nat i - Z.of_nat k)) with (i - k)%nat by lia. reflexivity. }
  cbv zeta in H. destruct (Nat.ltb_spec n (k - n)); [discriminate|].
  injection H as <-. rewrite nth_mk_poly by auto. destruct (Nat.ltb_spec i (k - n)).
  - rewrite cf_m.
    replace (Z.of_nat i - Z.of_nat k) with (Z.of_nat (i + n - (k - n)) - Z.of_nat n - Z.of_nat n) by lia.
    rewrite !ext_sub_n, ext_low, Nat2Z.id by lia. apply eqm_refl'. lia.
  - rewrite w32_m, cf_m.
    replace (Z.of_nat i - Z.of_nat k) with (Z.of_nat (i - (k - n)) - Z.of_nat n) by lia.
    rewrite ext_sub_n, ext_low, Nat2Z.id by lia. reflexivity.
Qed.
Lemma mult_X_k_defined : forall c k, (exists c', TRLWELvl1_mult_X_k n c k = Ok c') <-> (k <= 2 * n)%nat.
Proof. clear Hn.
  intros [a b] k. unfold TRLWELvl1_mult_X_k, PolyLvl1_mult_X_k. cbn [fst snd].
  destruct (Nat.eqb_spec k 0); [split; [intros _; lia|intros _; cbn [bind]; eauto]|].
  destruct (Nat.ltb_spec k n); [split; [intros _; lia|intros _; cbn [bind]; eauto]|].
  cbv zeta. destruct (Nat.ltb_spec n (k - n)).
  - split; [intros [c' H1]; discriminate|lia].
  - split; [intros _; lia|intros _; cbn [bind]; eauto].
Qed.
Lemma mult_X_k_undefined : forall c k, (2 * n < k)%nat -> TRLWELvl1_mult_X_k n c k = Fail FUndefined.
Proof. clear Hn.
  intros [a b] k H. unfold TRLWELvl1_mult_X_k, PolyLvl1_mult_X_k. cbn [fst snd].
  destruct (Nat.eqb_spec k 0); [lia|]. destruct (Nat.ltb_spec k n); [lia|].
  cbv zeta. destruct (Nat.ltb_spec n (k - n)); [reflexivity|lia].
Qed.

Lemma TRLWE_mult_X_k_phase : forall c k c', TRLWELvl1_mult_X_k n c k = Ok c' -> forall i, (i < n)%nat ->
  eqm (trlwe_phase n s c' i) (ext n (trlwe_phase n s c) (Z.of_nat i - Z.of_nat k)).
Proof.
  intros [a b] k c' H. unfold TRLWELvl1_mult_X_k in H. cbn [fst snd] in H.
  destruct (PolyLvl1_mult_X_k n a k) as [a'|] eqn:Ea; [|discriminate].
  destruct (PolyLvl1_mult_X_k n b k) as [b'|] eqn:Eb; [|discriminate].
  cbn in H. injection H as <-. intros i Hi.
  pose proof (mult_X_k_coef _ _ _ Ea) as Ha. pose proof (mult_X_k_coef _ _ _ Eb) as Hb.
  (* the extension of the phase, coefficientwise *)
  assert (D : forall m, ext n (trlwe_phase n s (a,b)) m =
     ext n (fun j => nth j b 0) m - sum_upto n (fun j => nth j s 0 * ext n (fun k => nth k a 0) (m - Z.of_nat j))).
  { intros m. unfold ext at 1, trlwe_phase. cbn [fst snd].
    rewrite Z.mul_sub_distr_l. f_equal. rewrite sum_scale. apply sum_ext. intros j Hj.
    pose proof (Z.mod_pos_bound m (Z.of_nat n)) as B. rewrite Z2Nat.id by lia.
    pose proof (Z.div_mod m (Z.of_nat n)) as DM. specialize (DM ltac:(lia)).
    assert (P : forall c r, 0 <= c -> ext n (fun k => nth k a 0) (r + c * Z.of_nat n) = (if Z.even c then 1 else -1) * ext n (fun k => nth k a 0) r).
    { intros c r. revert c. apply (natlike_ind (fun c => ext n (fun k => nth k a 0) (r + c * Z.of_nat n) = (if Z.even c then 1 else -1) * ext n (fun k => nth k a 0) r)).
      - cbn [Z.even]. replace (r + 0 * Z.of_nat n) with r by lia. lia.
      - intros c Hc IH. replace (r + Z.succ c * Z.of_nat n) with (r + c * Z.of_nat n + Z.of_nat n) by lia.
        rewrite ext_add_n, IH, Z.even_succ, <- Z.negb_even by auto. destruct (Z.even c); cbn [negb]; lia. }
    destruct (Z_le_gt_dec 0 (m / Z.of_nat n)) as [L|L].
    - replace (m - Z.of_nat j) with (m mod Z.of_nat n - Z.of_nat j + (m / Z.of_nat n) * Z.of_nat n) by lia.
      rewrite P by auto. lia.
    - replace (m mod Z.of_nat n - Z.of_nat j) with (m - Z.of_nat j + (- (m / Z.of_nat n)) * Z.of_nat n) by lia.
      rewrite P by lia. rewrite Z.even_opp. destruct (Z.even (m / Z.of_nat n)); lia. }
  rewrite D. unfold trlwe_phase. cbn [fst snd]. rewrite (Hb i Hi). apply sub_m; [reflexivity|].
  apply sum_m. intros j Hj.
  rewrite (ext_shift n Hn (fun k => nth k a 0) (fun k => nth k a' 0) (Z.of_nat k) Ha).
  apply eqm_refl'. do 2 f_equal. lia.
Qed.
End R.

(** ** TLWE *)
Lemma TLWE_add_phase : forall n s x y,
  eqm (tlwe_phase n s (TLWE_add n x y)) (tlwe_phase n s x + tlwe_phase n s y).
Proof.
  intros n s x y. unfold tlwe_phase, TLWE_add. rewrite nth_mk_poly by lia. rewrite w32_m, !cf_m.
  rewrite sum_m with (g := fun j => nth j x 0 * nth j s 0 + nth j y 0 * nth j s 0).
  - rewrite <- sum_add. apply eqm_refl'. lia.
  - intros j Hj. rewrite nth_mk_poly, w32_m, !cf_m by lia. apply eqm_refl'. lia.
Qed.

(** ** Trivial ciphertexts *)
Lemma nth_repeat0 : forall n i, nth i (repeat 0 n) 0 = 0.
Proof. induction n; intros [|i]; cbn; auto. Qed.
Lemma trivial_phase : forall n s p i, (0 < n)%nat -> trlwe_phase n s (repeat 0 n, p) i = nth i p 0.
Proof.
  intros n s p i Hn. unfold trlwe_phase. cbn [fst snd]. rewrite sum_zero; [lia|].
  intros j Hj. unfold ext. rewrite nth_repeat0. lia.
Qed.
Lemma nth_upd_Z : forall (p : list Z) i j v,
  nth j (upd i v p) 0 = if ((i =? j) && (i <? length p))%nat then v else nth j p 0.
Proof.
  induction p as [|x p IH]; intros [|i] [|j] v; cbn [upd nth length]; auto.
  - rewrite andb_false_r. reflexivity.
  - rewrite IH. reflexivity.
Qed.
Lemma nth_put_same : forall p i v, (i < length p)%nat -> nth i (put p i v) 0 = w32 v.
Proof. unfold put. intros p i v H. rewrite nth_upd_Z, Nat.eqb_refl. destruct (Nat.ltb_spec i (length p)); [reflexivity|lia]. Qed.
Lemma nth_put_other : forall p i j v, i <> j -> nth j (put p i v) 0 = nth j p 0.
Proof. unfold put. intros. rewrite nth_upd_Z. destruct (Nat.eqb_spec i j); [lia|reflexivity]. Qed.
