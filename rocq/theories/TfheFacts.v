From Coq Require Import List Arith Bool NArith ZArith Lia Morphisms Setoid Ascii.
From Coq Require Import ZifyBool ZifyNat ZifyN.
Import ListNotations.
From Verif Require Import Base BaseFacts TorusModel TfheSpec TorusFacts.
Local Open Scope Z_scope.

Lemma eqm_mod : forall x y, eqm x y -> x mod two32 = y mod two32.
Proof. intros x y H. apply eqm_w32 in H. exact H. Qed.

Lemma near_positive : forall r e x y, near e x y -> r + e < y -> y + e < t_1o2 - r -> 0 <= r -> positive r x.
Proof.
  intros r e x y [d [Hd H]] H1 H2 H3. unfold positive. rewrite (eqm_mod _ _ H).
  unfold t_1o2, two32 in *. rewrite Z.mod_small by lia. lia.
Qed.
Lemma near_negative : forall r e x y, near e x y -> y + e < - r -> - t_1o2 + r < y - e -> 0 <= r -> negative r x.
Proof.
  intros r e x y [d [Hd H]] H1 H2 H3. unfold negative. rewrite (eqm_mod _ _ H).
  unfold t_1o2, two32 in *. replace ((y + d) mod 4294967296) with (y + d + 4294967296); [lia|].
  symmetry. rewrite <- (Z.mod_add _ 1) by lia. apply Z.mod_small. lia.
Qed.

(** ** Decryption *)
Lemma decrypt_iff : forall n c s, decrypt_TLWELvl1_to_bit n c s = true <->
  t_1o4 < tlwe_phase n s c mod two32 < t_1o4 + t_1o2.
Proof.
  intros n c s. unfold decrypt_TLWELvl1_to_bit.
  rewrite <- (eqm_mod _ _ (phase_of_TLWE_ok n c s)).
  pose proof (phase_of_TLWE_range n c s) as B. set (p := phase_of_TLWE n c s) in *. clearbody p.
  rewrite (Z.mod_small p) by lia. rewrite Z.ltb_lt.
  unfold w32, t_1o2, t_1o4, two32 in *.
  destruct (Z_lt_ge_dec (p + 1073741824) 4294967296).
  - rewrite Z.mod_small by lia. lia.
  - rewrite <- (Z.mod_add (p + 1073741824) (-1)) by lia. rewrite Z.mod_small by lia. lia.
Qed.
Lemma decrypt_near : forall n c s e b, near e (tlwe_phase n s c) (msg_0_1o2 b) -> e < t_1o4 ->
  decrypt_TLWELvl1_to_bit n c s = b.
Proof.
  intros n c s e b [d [Hd H]] L.
  assert (G : decrypt_TLWELvl1_to_bit n c s = true <-> b = true); [|destruct b, (decrypt_TLWELvl1_to_bit n c s); intuition].
  rewrite decrypt_iff, (eqm_mod _ _ H). clear H. unfold msg_0_1o2, t_1o2, t_1o4, two32 in *.
  destruct b.
  - rewrite Z.mod_small by lia. lia.
  - destruct (Z_lt_ge_dec d 0).
    + rewrite <- (Z.mod_add _ 1), Z.mod_small by lia. lia.
    + rewrite Z.mod_small by lia. lia.
Qed.

(** ** Shifting the phase of a TLWE *)
Lemma put_b_phase : forall n s c v, length c = S n ->
  eqm (tlwe_phase n s (put c n v)) (tlwe_phase n s c - nth n c 0 + v).
Proof.
  intros n s c v H. unfold tlwe_phase. rewrite nth_put_same by lia. rewrite w32_m.
  rewrite sum_ext with (g := fun j => nth j c 0 * nth j s 0).
  - apply eqm_refl'. lia.
  - intros j Hj. rewrite nth_put_other by lia. reflexivity.
Qed.
Lemma put_0_phase : forall n s c v, (0 < n)%nat -> length (snd c) = n ->
  eqm (trlwe_phase n s (fst c, put (snd c) 0 v) 0) (trlwe_phase n s c 0 - nth 0 (snd c) 0 + v).
Proof.
  intros n s c v Hn H. unfold trlwe_phase. cbn [fst snd]. rewrite nth_put_same by lia. rewrite w32_m.
  apply eqm_refl'. lia.
Qed.

Section Ok.
Context (T : tfhe) (s0 s1 : list Z) (bit : trgsw T -> bool -> Prop) (E : noise).
Hypothesis OK : tfhe_ok T s0 s1 bit E.
Notation ph0 := (tlwe_phase (t_n0 T) s0).
Notation ph1 := (tlwe_phase (t_n1 T) s1).
Notation phR := (trlwe_phase (t_n1 T) s1).

Lemma sub_quarter_phase : forall c, length c = S (t_n0 T) -> eqm (ph0 (sub_quarter T c)) (ph0 c - t_1o4).
Proof.
  intros c H. unfold sub_quarter. rewrite put_b_phase by auto. rewrite cf_m. apply eqm_refl'. lia.
Qed.

Lemma bs_half_half : forall c e b, 0 <= e_round E -> length c = S (t_n0 T) ->
  near e (ph0 c) (msg_0_1o2 b) -> e + e_round E < t_1o4 ->
  near (e_br E) (phR (BS_TLWE_0_1o2_to_TRLWE_0_1o2 T c) 0) (msg_0_1o2 b).
Proof.
  intros c e b HE HL HN He. unfold BS_TLWE_0_1o2_to_TRLWE_0_1o2. cbv zeta.
  pose proof (sub_quarter_phase c HL) as HP.
  pose proof (near_l _ _ _ _ HP (near_sub_c _ _ _ t_1o4 HN)) as HQ.
  set (o := blind_rotate T (sub_quarter T c) (mupolygen T t_1o4)).
  eapply near_l. { apply put_0_phase; [apply (ok_n1 _ _ _ _ _ OK)|apply (ok_br_len _ _ _ _ _ OK)]. }
  assert (near (e_br E) (phR o 0) (msg_0_1o2 b - t_1o4)) as HO.
  { unfold o, mupolygen. destruct b; unfold msg_0_1o2 in *.
    - replace (t_1o2 - t_1o4) with t_1o4 by reflexivity. apply (ok_br_pos _ _ _ _ _ OK).
      apply (near_positive _ _ _ _ HQ); unfold t_1o2, t_1o4 in *; lia.
    - replace (0 - t_1o4) with (- t_1o4) by reflexivity. apply (ok_br_neg _ _ _ _ _ OK).
      apply (near_negative _ _ _ _ HQ); unfold t_1o2, t_1o4 in *; lia. }
  destruct HO as [d [Hd HO]]. exists d. split; [auto|].
  rewrite cf_m, HO. apply eqm_refl'. unfold t_1o4. lia.
Qed.
Lemma bs_half_eighth : forall c e b, 0 <= e_round E -> length c = S (t_n0 T) ->
  near e (ph0 c) (msg_0_1o2 b) -> e + e_round E < t_1o4 ->
  near (e_br E) (phR (BS_TLWE_0_1o2_to_TRLWE_m1o8_1o8 T c) 0) (msg_1o8 b).
Proof.
  intros c e b HE HL HN He. unfold BS_TLWE_0_1o2_to_TRLWE_m1o8_1o8, mupolygen.
  pose proof (sub_quarter_phase c HL) as HP.
  pose proof (near_l _ _ _ _ HP (near_sub_c _ _ _ t_1o4 HN)) as HQ.
  destruct b; unfold msg_0_1o2, msg_1o8 in *.
  - apply (ok_br_pos _ _ _ _ _ OK). apply (near_positive _ _ _ _ HQ); unfold t_1o2, t_1o4 in *; lia.
  - apply (ok_br_neg _ _ _ _ _ OK). apply (near_negative _ _ _ _ HQ); unfold t_1o2, t_1o4 in *; lia.
Qed.

Lemma sei_iks : forall w e m, near e (phR w 0) m -> near (e_iks E + e) (ph0 (iks T (sei T w 0))) m.
Proof.
  intros w e m H. eapply near_trans; [apply (ok_iks _ _ _ _ _ OK)|].
  eapply near_l; [apply (ok_sei _ _ _ _ _ OK); apply (ok_n1 _ _ _ _ _ OK)|exact H].
Qed.
Lemma boot2_ok : forall w e b, 0 <= e_round E -> near e (phR w 0) (msg_0_1o2 b) -> e + e_iks E + e_round E < t_1o4 ->
  near (e_br E) (phR (do_SEI_IKS_GBTLWE2TRLWE_2 T w) 0) (msg_0_1o2 b).
Proof.
  intros w e b HE H L. unfold do_SEI_IKS_GBTLWE2TRLWE_2.
  eapply bs_half_half; [auto|apply (ok_iks_len _ _ _ _ _ OK)|apply sei_iks, H|lia].
Qed.
Lemma boot3_ok : forall w e b, 0 <= e_round E -> near e (phR w 0) (msg_0_1o2 b) -> e + e_iks E + e_round E < t_1o4 ->
  near (e_br E) (phR (do_SEI_IKS_GBTLWE2TRLWE_3 T w) 0) (msg_1o8 b).
Proof.
  intros w e b HE H L. unfold do_SEI_IKS_GBTLWE2TRLWE_3.
  eapply bs_half_eighth; [auto|apply (ok_iks_len _ _ _ _ _ OK)|apply sei_iks, H|lia].
Qed.
Lemma boot1_ok : forall w e b, 0 <= e_round E -> near e (phR w 0) (msg_1o8 b) -> e + e_iks E + e_round E < t_1o8 ->
  near (e_br E) (phR (do_SEI_IKS_GBTLWE2TRLWE T w) 0) (msg_1o8 b).
Proof.
  intros w e b HE H L. unfold do_SEI_IKS_GBTLWE2TRLWE, mupolygen.
  pose proof (sei_iks _ _ _ H) as HQ. destruct b; unfold msg_1o8 in *.
  - apply (ok_br_pos _ _ _ _ _ OK). apply (near_positive _ _ _ _ HQ); unfold t_1o2, t_1o8 in *; lia.
  - apply (ok_br_neg _ _ _ _ _ OK). apply (near_negative _ _ _ _ HQ); unfold t_1o2, t_1o8 in *; lia.
Qed.

Lemma hom_xor_ok : forall x y e a b, 0 <= e_round E ->
  near e (ph0 x) (msg_1o8 a) -> near e (ph0 y) (msg_1o8 b) -> 4 * e + e_round E < t_1o4 ->
  near (e_br E) (phR (HomXORwoSE T x y) 0) (msg_1o8 (xorb a b)).
Proof.
  intros x y e a b HE Hx Hy L. unfold HomXORwoSE. cbv zeta.
  match goal with |- context [blind_rotate T ?t _] => set (u := t) end.
  assert (HU : near (4 * e) (ph0 u) (2 * msg_1o8 a + 2 * msg_1o8 b + t_1o4)).
  { destruct Hx as [d [Hd Hx]], Hy as [d' [Hd' Hy]]. exists (2 * d + 2 * d'). split; [lia|].
    unfold u. rewrite put_b_phase by (unfold mk_poly; rewrite map_length, seq_length; reflexivity).
    rewrite cf_m.
    assert (eqm (ph0 (mk_poly (S (t_n0 T)) (fun i => w32 (2 * cf x i + 2 * cf y i)))) (2 * ph0 x + 2 * ph0 y)) as HS.
    { unfold tlwe_phase. rewrite nth_mk_poly by lia. rewrite w32_m, !cf_m.
      rewrite sum_m with (g := fun j => 2 * (nth j x 0 * nth j s0 0) + 2 * (nth j y 0 * nth j s0 0)).
      - rewrite <- sum_add, <- !sum_scale. apply eqm_refl'. lia.
      - intros j Hj. rewrite nth_mk_poly, w32_m, !cf_m by lia. apply eqm_refl'. lia. }
    rewrite HS, Hx, Hy. apply eqm_refl'. unfold t_1o4, t_1o8. lia. }
  unfold mupolygen. destruct a, b; cbn [xorb]; unfold msg_1o8 in *.
  - apply (ok_br_neg _ _ _ _ _ OK).
    apply near_negative with (e := 4 * e) (y := - t_1o4); try (unfold t_1o2, t_1o4, t_1o8 in *; lia).
    eapply near_r; [exact HU|]. apply eqm_iff. exists (-1). reflexivity.
  - apply (ok_br_pos _ _ _ _ _ OK).
    apply (near_positive _ _ _ _ HU); unfold t_1o2, t_1o4, t_1o8 in *; lia.
  - apply (ok_br_pos _ _ _ _ _ OK).
    apply (near_positive _ _ _ _ HU); unfold t_1o2, t_1o4, t_1o8 in *; lia.
  - apply (ok_br_neg _ _ _ _ _ OK).
    apply (near_negative _ _ _ _ HU); unfold t_1o2, t_1o4, t_1o8 in *; lia.
Qed.
End Ok.

(** ** The toy instance satisfies the contract *)
Lemma triv_tlwe_phase : forall n s x, tlwe_phase n s (triv_tlwe n x) = x.
Proof.
  intros n s x. unfold tlwe_phase, triv_tlwe.
  rewrite app_nth2; rewrite repeat_length; [|lia]. rewrite Nat.sub_diag. cbn [nth].
  rewrite sum_zero; [lia|]. intros j Hj. rewrite app_nth1 by (rewrite repeat_length; lia).
  rewrite nth_repeat0. lia.
Qed.
Lemma triv_trlwe_phase : forall n s f i, (i < n)%nat -> trlwe_phase n s (triv_trlwe n f) i = f i.
Proof.
  intros n s f i H. unfold triv_trlwe. rewrite trivial_phase by lia.
  change (map f (seq 0 n)) with (mk_poly n f). apply nth_mk_poly. auto.
Qed.
Lemma near_plus : forall e x, near (Z.abs e) (x + e) x.
Proof. intros e x. exists e. split; [lia|reflexivity]. Qed.

Theorem toy_ok : forall n0 n1 s0 s1 e, (0 < n1)%nat ->
  tfhe_ok (toy n0 n1 s0 s1 e) s0 s1 (fun c b => c = b) (toy_noise e).
Proof.
  intros n0 n1 s0 s1 e Hn. split; cbn [t_n0 t_n1 trgsw cmux sei iks blind_rotate packks cbfft toy toy_noise e_cmux e_iks e_round e_br e_pk e_cb].
  - exact Hn.
  - intros c b w1 w0 i -> Hi. rewrite triv_trlwe_phase by auto. apply near_plus.
  - intros w i Hi. rewrite triv_tlwe_phase. reflexivity.
  - intros t. unfold triv_tlwe. rewrite app_length, repeat_length. cbn. lia.
  - intros t. rewrite triv_tlwe_phase. apply near_plus.
  - intros t mu. unfold triv_trlwe. cbn [snd]. rewrite map_length, seq_length. reflexivity.
  - intros t mu [H1 H2]. rewrite triv_trlwe_phase by auto.
    destruct (Z.ltb_spec (tlwe_phase n0 s0 t mod two32) t_1o2); [|lia].
    destruct n1; [lia|]. apply near_plus.
  - intros t mu [H1 H2]. rewrite triv_trlwe_phase by auto.
    destruct (Z.ltb_spec (tlwe_phase n0 s0 t mod two32) t_1o2); [lia|].
    destruct n1; [lia|]. apply near_plus.
  - intros t. rewrite triv_trlwe_phase by auto. cbn [Nat.eqb]. apply near_plus.
  - intros t i Hi. rewrite triv_trlwe_phase by lia. destruct (Nat.eqb_spec i 0); [lia|]. apply near_plus.
  - intros t [H1 H2]. apply Z.ltb_lt. lia.
  - intros t [H1 H2]. apply Z.ltb_ge. lia.
Qed.

(** ** Bit strings *)
Definition is_sep (c : ascii) : bool := Ascii.eqb c "010" || Ascii.eqb c " ".
Lemma filter_flat : forall {A B} (p : B -> bool) (f : A -> list B) l,
  filter p (concat (map f l)) = concat (map (fun a => filter p (f a)) l).
Proof. induction l; cbn; auto. rewrite filter_app, IHl. reflexivity. Qed.
Lemma dump_digits : forall n w, filter (fun c => negb (is_sep c)) (dump_weight n w) =
  map (fun i => if between_25_75 (cf w i) then "1"%char else "0"%char) (seq 0 n).
Proof.
  intros n w. unfold dump_weight. rewrite filter_app, filter_flat.
  replace (filter (fun c : ascii => negb (is_sep c)) ["010"%char]) with (@nil ascii) by reflexivity.
  rewrite app_nil_r. induction (seq 0 n) as [|i l IH]; [reflexivity|]. cbn [map concat]. rewrite IH.
  rewrite filter_app. destruct (i mod 32 =? 0)%nat, (i mod 8 =? 0)%nat, (between_25_75 (cf w i)); reflexivity.
Qed.
