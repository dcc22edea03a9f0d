(** Properties C27, C28, C29, C45: ciphertext helpers. *)
From Coq Require Import List Arith Bool NArith Ndigits ZArith Lia Ascii.
From Coq Require Import ZifyBool ZifyNat ZifyN.
Import ListNotations.
From Verif Require Import Base BaseFacts TorusModel TfheSpec TorusFacts TfheFacts.
Local Open Scope Z_scope.

(** * C27: decryption threshold *)
Theorem C27_decrypt_threshold : forall n c s,
  decrypt_TLWELvl1_to_bit n c s = true <->
  t_1o4 < tlwe_phase n s c mod two32 < t_1o4 + t_1o2.
Proof. exact decrypt_iff. Qed.
Print Assumptions C27_decrypt_threshold.

Theorem C27_decrypt_noise : forall n c s e b,
  near e (tlwe_phase n s c) (msg_0_1o2 b) -> e < t_1o4 -> decrypt_TLWELvl1_to_bit n c s = b.
Proof. exact decrypt_near. Qed.
Print Assumptions C27_decrypt_noise.

(** The bound is tight: for every key and dimension a noise of exactly 1/4 flips a 1. *)
Theorem C27_bound_tight : forall n s, exists c,
  near t_1o4 (tlwe_phase n s c) (msg_0_1o2 true) /\ decrypt_TLWELvl1_to_bit n c s = false.
Proof.
  intros n s. exists (triv_tlwe n t_1o4). rewrite triv_tlwe_phase. split.
  - exists (- t_1o4). split; [vm_compute; discriminate|reflexivity].
  - destruct (decrypt_TLWELvl1_to_bit n (triv_tlwe n t_1o4) s) eqn:D; [|reflexivity].
    apply decrypt_iff in D. rewrite triv_tlwe_phase in D. unfold t_1o4, two32 in D.
    rewrite Z.mod_small in D; lia.
Qed.
Print Assumptions C27_bound_tight.

Example C27_witness : decrypt_TLWELvl1_to_bit 2 [3; 5; t_1o2 + 3 + 100] [1; 0] = true /\
  near 100 (tlwe_phase 2 [1; 0] [3; 5; t_1o2 + 3 + 100]) (msg_0_1o2 true).
Proof. split; [reflexivity|]. exists 100. split; [lia|]. vm_compute. reflexivity. Qed.

(** * C28: ring operations *)
Theorem C28_TLWE_add : forall n s x y,
  eqm (tlwe_phase n s (TLWE_add n x y)) (tlwe_phase n s x + tlwe_phase n s y).
Proof. exact TLWE_add_phase. Qed.
Print Assumptions C28_TLWE_add.

Theorem C28_TRLWE_add : forall n s x y i, (0 < n)%nat -> (i < n)%nat ->
  eqm (trlwe_phase n s (TRLWELvl1_add n x y) i) (trlwe_phase n s x i + trlwe_phase n s y i).
Proof. intros n s x y i Hn. exact (TRLWE_add_phase n Hn s x y i). Qed.
Print Assumptions C28_TRLWE_add.

Theorem C28_mult_X_k : forall n s c k, (0 < n)%nat -> (k <= 2 * n)%nat ->
  exists c', TRLWELvl1_mult_X_k n c k = Ok c' /\
  forall i, (i < n)%nat ->
    eqm (trlwe_phase n s c' i) (ext n (trlwe_phase n s c) (Z.of_nat i - Z.of_nat k)).
Proof.
  intros n s c k Hn Hk. destruct (proj2 (mult_X_k_defined n c k) Hk) as [c' E].
  exists c'. split; [exact E|]. exact (TRLWE_mult_X_k_phase n Hn s c k c' E).
Qed.
Print Assumptions C28_mult_X_k.

(** Beyond 2n the two loops leave the arrays: out of contract. *)
Theorem C28_mult_X_k_bound : forall n c k, (2 * n < k)%nat -> TRLWELvl1_mult_X_k n c k = Fail FUndefined.
Proof. apply mult_X_k_undefined. Qed.
Print Assumptions C28_mult_X_k_bound.

(** The code's own phase functions compute the specification's phases. *)
Theorem C28_phase_functions : forall n s, (0 < n)%nat ->
  (forall c, eqm (phase_of_TLWE n c s) (tlwe_phase n s c)) /\
  (forall c i, (i < n)%nat -> eqm (nth i (phase_of_TRLWELvl1 n c s) 0) (trlwe_phase n s c i)).
Proof.
  intros n s Hn. split; [intros c; apply phase_of_TLWE_ok|exact (phase_of_TRLWE_ok n Hn s)].
Qed.
Print Assumptions C28_phase_functions.

Example C28_witness :
  map (trlwe_phase 2 [1; 1] ([5; 7], [11; 13])) [0; 1]%nat = [11 - (5 - 7); 13 - (7 + 5)] /\
  TRLWELvl1_mult_X_k 2 ([5; 7], [11; 13]) 3 = Ok ([7; two32 - 5], [13; two32 - 11]) /\
  map (ext 2 (trlwe_phase 2 [1; 1] ([5; 7], [11; 13]))) [0 - 3; 1 - 3] = [13 - (7 + 5); - (11 - (5 - 7))].
Proof. vm_compute. auto. Qed.

(** Trivial ciphertexts decrypt to their message under every key. *)
Theorem C28_trivial : forall n s, (0 < n)%nat ->
  (forall i, trlwe_phase n s (trivial_TRLWELvl1_zero n) i = 0) /\
  (forall p i, trlwe_phase n s (trivial_TRLWELvl1 n p) i = nth i p 0) /\
  eqm (trlwe_phase n s (trivial_TRLWELvl1_1over2 n) 0) (msg_0_1o2 true) /\
  eqm (trlwe_phase n s (trivial_TRLWELvl1_1over8 n) 0) (msg_1o8 true) /\
  eqm (trlwe_phase n s (trivial_TRLWELvl1_minus_1over8 n) 0) (msg_1o8 false) /\
  (forall i, (0 < i)%nat -> trlwe_phase n s (trivial_TRLWELvl1_1over2 n) i = 0 /\
     trlwe_phase n s (trivial_TRLWELvl1_1over8 n) i = 0 /\
     trlwe_phase n s (trivial_TRLWELvl1_minus_1over8 n) i = 0) /\
  eqm (tlwe_phase n s (trivial_TLWE_1over8 n)) (msg_1o8 true) /\
  eqm (tlwe_phase n s (trivial_TLWE_minus_1over8 n)) (msg_1o8 false).
Proof.
  intros n s Hn.
  assert (R : forall v, eqm (trlwe_phase n s (repeat 0 n, put (repeat 0 n) 0 v) 0) v).
  { intros v. rewrite trivial_phase, nth_put_same by (try rewrite repeat_length; lia). apply w32_m. }
  assert (L : forall v, eqm (tlwe_phase n s (put (repeat 0 (S n)) n v)) v).
  { intros v. rewrite put_b_phase by apply repeat_length. rewrite nth_repeat0.
    unfold tlwe_phase. rewrite nth_repeat0. rewrite sum_zero; [apply eqm_refl'; lia|].
    intros j _. rewrite nth_repeat0. lia. }
  repeat split; try apply R; try apply L.
  - intros i. unfold trivial_TRLWELvl1_zero. rewrite trivial_phase, nth_repeat0; auto.
  - intros p i. unfold trivial_TRLWELvl1. apply trivial_phase. auto.
  - unfold trivial_TRLWELvl1_1over2. rewrite trivial_phase, nth_put_other, nth_repeat0 by lia. reflexivity.
  - unfold trivial_TRLWELvl1_1over8. rewrite trivial_phase, nth_put_other, nth_repeat0 by lia. reflexivity.
  - unfold trivial_TRLWELvl1_minus_1over8. rewrite trivial_phase, nth_put_other, nth_repeat0 by lia. reflexivity.
Qed.
Print Assumptions C28_trivial.

(** * C29: bootstrapping helpers.  Under the contract of the TFHEpp functions, whatever the input
    noise e below the margin, the output noise is that of one blind rotation. *)
Theorem C29_half_to_half : forall T s0 s1 bit E, tfhe_ok T s0 s1 bit E -> 0 <= e_round E ->
  forall w e b, near e (trlwe_phase (t_n1 T) s1 w 0) (msg_0_1o2 b) -> e + e_iks E + e_round E < t_1o4 ->
  near (e_br E) (trlwe_phase (t_n1 T) s1 (do_SEI_IKS_GBTLWE2TRLWE_2 T w) 0) (msg_0_1o2 b).
Proof. intros. eapply boot2_ok; eauto. Qed.
Print Assumptions C29_half_to_half.

Theorem C29_half_to_eighth : forall T s0 s1 bit E, tfhe_ok T s0 s1 bit E -> 0 <= e_round E ->
  forall w e b, near e (trlwe_phase (t_n1 T) s1 w 0) (msg_0_1o2 b) -> e + e_iks E + e_round E < t_1o4 ->
  near (e_br E) (trlwe_phase (t_n1 T) s1 (do_SEI_IKS_GBTLWE2TRLWE_3 T w) 0) (msg_1o8 b).
Proof. intros. eapply boot3_ok; eauto. Qed.
Print Assumptions C29_half_to_eighth.

Theorem C29_eighth_to_eighth : forall T s0 s1 bit E, tfhe_ok T s0 s1 bit E -> 0 <= e_round E ->
  forall w e b, near e (trlwe_phase (t_n1 T) s1 w 0) (msg_1o8 b) -> e + e_iks E + e_round E < t_1o8 ->
  near (e_br E) (trlwe_phase (t_n1 T) s1 (do_SEI_IKS_GBTLWE2TRLWE T w) 0) (msg_1o8 b).
Proof. intros. eapply boot1_ok; eauto. Qed.
Print Assumptions C29_eighth_to_eighth.

Theorem C29_tlwe_variants : forall T s0 s1 bit E, tfhe_ok T s0 s1 bit E -> 0 <= e_round E ->
  forall c e b, length c = S (t_n0 T) ->
  near e (tlwe_phase (t_n0 T) s0 c) (msg_0_1o2 b) -> e + e_round E < t_1o4 ->
  near (e_br E) (trlwe_phase (t_n1 T) s1 (BS_TLWE_0_1o2_to_TRLWE_0_1o2 T c) 0) (msg_0_1o2 b) /\
  near (e_br E) (trlwe_phase (t_n1 T) s1 (BS_TLWE_0_1o2_to_TRLWE_m1o8_1o8 T c) 0) (msg_1o8 b).
Proof. intros. split; [eapply bs_half_half|eapply bs_half_eighth]; eauto. Qed.
Print Assumptions C29_tlwe_variants.

Theorem C29_hom_xor : forall T s0 s1 bit E, tfhe_ok T s0 s1 bit E -> 0 <= e_round E ->
  forall x y e a b, near e (tlwe_phase (t_n0 T) s0 x) (msg_1o8 a) -> near e (tlwe_phase (t_n0 T) s0 y) (msg_1o8 b) ->
  4 * e + e_round E < t_1o4 ->
  near (e_br E) (trlwe_phase (t_n1 T) s1 (HomXORwoSE T x y) 0) (msg_1o8 (xorb a b)).
Proof. intros. eapply hom_xor_ok; eauto. Qed.
Print Assumptions C29_hom_xor.

(** The contract is satisfiable for every key, dimension and noise, and the hypotheses above are
    met by a noisy ciphertext that is not trivial. *)
Example C29_contract_satisfiable : forall n0 n1 s0 s1 e, (0 < n1)%nat ->
  tfhe_ok (toy n0 n1 s0 s1 e) s0 s1 (fun c b => c = b) (toy_noise e) /\ 0 <= e_round (toy_noise e).
Proof. intros. split; [apply toy_ok; auto|cbn; lia]. Qed.

Example C29_witness : let T := toy 3 2 [1; 0; 1] [1; 1] 1000 in
  let w := ([123456; 777], [123456 - 777 + t_1o2 + 500; 0]) in
  near 500 (trlwe_phase 2 [1; 1] w 0) (msg_0_1o2 true) /\
  500 + e_iks (toy_noise 1000) + e_round (toy_noise 1000) < t_1o4 /\
  trlwe_phase 2 [1; 1] (do_SEI_IKS_GBTLWE2TRLWE_2 T w) 0 = t_1o2 + 1000 /\
  trlwe_phase 2 [1; 1] (do_SEI_IKS_GBTLWE2TRLWE_3 T w) 0 = t_1o8 + 1000.
Proof.
  cbv zeta. split; [exists 500; split; [lia|vm_compute; reflexivity]|]. vm_compute. auto.
Qed.

(** * C45: weights and bit strings *)
Theorem C45_digits : forall n x,
  filter (fun c => negb (Ascii.eqb c "010" || Ascii.eqb c " ")) (weight2bitstring n (uint2weight n x)) =
  map (fun i => if (i <? 64)%nat && N.testbit x (N.of_nat i) then "1"%char else "0"%char) (seq 0 n).
Proof.
  intros n x. unfold weight2bitstring. rewrite dump_digits. apply map_ext_in. intros i Hi. apply in_seq in Hi.
  unfold cf, uint2weight. rewrite nth_mk_poly by lia.
  assert (N.testbit_nat x i = N.testbit x (N.of_nat i)) as E.
  { symmetry. apply Ndigits.Ntestbit_Nbit. }
  rewrite E. destruct (i <? 64)%nat; cbn [andb]; [|reflexivity]. destruct (N.testbit x (N.of_nat i)); reflexivity.
Qed.
Print Assumptions C45_digits.

(** The weight sits in the middle of the two ranges: noise below 1/4 in every coefficient, of either sign, leaves the
    digits as they are. *)
Theorem C45_noise : forall n x (e : nat -> Z), (forall i, (i < n)%nat -> - t_1o4 < e i < t_1o4) ->
  filter (fun c => negb (Ascii.eqb c "010" || Ascii.eqb c " "))
    (weight2bitstring n (map (fun i => nth i (uint2weight n x) 0 + e i) (seq 0 n))) =
  map (fun i => if (i <? 64)%nat && N.testbit x (N.of_nat i) then "1"%char else "0"%char) (seq 0 n).
Proof.
  intros n x e He. unfold weight2bitstring. rewrite dump_digits. apply map_ext_in. intros i Hi. apply in_seq in Hi.
  specialize (He i ltac:(lia)). unfold cf, uint2weight.
  assert (forall g : nat -> Z, nth i (map g (seq 0 n)) 0 = g i) as G.
  { intros g. rewrite (nth_indep _ 0 (g 0%nat)) by (rewrite map_length, seq_length; lia). rewrite map_nth, seq_nth by lia. reflexivity. }
  rewrite G. rewrite nth_mk_poly by lia.
  assert (N.testbit_nat x i = N.testbit x (N.of_nat i)) as E by (symmetry; apply Ndigits.Ntestbit_Nbit).
  rewrite E. unfold between_25_75, w32, two32, t_1o4, t_1o2 in *.
  destruct (i <? 64)%nat; cbn [andb]; [destruct (N.testbit x (N.of_nat i))|].
  all: match goal with |- (if ?b then _ else _) = _ => destruct b eqn:B end; try reflexivity; exfalso; revert B;
    match goal with |- context [?a mod ?m] => pose proof (Z.mod_pos_bound a m ltac:(lia)); pose proof (Z.div_mod a m ltac:(lia)) end; lia.
Qed.
Print Assumptions C45_noise.
Example C45_noise_nonvacuous : forall i, (i < 32)%nat -> - t_1o4 < (if Nat.even i then t_1o4 - 1 else 1 - t_1o4) < t_1o4.
Proof. intros i _. unfold t_1o4. destruct (Nat.even i); lia. Qed.

(** Lay-out: a line per 32 coefficients, in groups of 8. *)
Definition digits (w : list Z) (from len : nat) : list ascii :=
  map (fun i => if between_25_75 (cf w i) then "1"%char else "0"%char) (seq from len).
Theorem C45_layout : forall m w,
  weight2bitstring (32 * m) w =
  concat (map (fun l => ["010"%char] ++ digits w (32 * l) 8 ++ [" "%char] ++ digits w (32 * l + 8) 8
                     ++ [" "%char] ++ digits w (32 * l + 16) 8 ++ [" "%char] ++ digits w (32 * l + 24) 8) (seq 0 m))
  ++ ["010"%char].
Proof.
  intros m w. unfold weight2bitstring, dump_weight. f_equal.
  set (f := fun i : nat => _).
  induction m as [|m IH]; [reflexivity|].
  rewrite (seq_S m 0), map_app, concat_app, <- IH. cbn [map concat Nat.add].
  replace (32 * S m)%nat with (32 * m + (8 + (8 + (8 + 8))))%nat by lia.
  rewrite !seq_app, !map_app, !concat_app. f_equal. rewrite app_nil_r, !Nat.add_0_l.
  assert (G : forall g, (g < 4)%nat -> concat (map f (seq (32 * m + 8 * g) 8)) =
     (if (g =? 0)%nat then ["010"%char] else [" "%char]) ++ digits w (32 * m + 8 * g) 8).
  { intros g Hg. unfold digits. cbn [seq map concat]. unfold f. clear f IH.
    assert (forall c, (c < 8)%nat -> ((32 * m + 8 * g + c) mod 32 = 8 * g + c)%nat /\ ((32 * m + 8 * g + c) mod 8 = c)%nat) as M.
    { intros c Hc. split.
      - replace (32 * m + 8 * g + c)%nat with (8 * g + c + m * 32)%nat by lia. rewrite Nat.mod_add, Nat.mod_small; lia.
      - replace (32 * m + 8 * g + c)%nat with (c + (4 * m + g) * 8)%nat by lia. rewrite Nat.mod_add, Nat.mod_small; lia. }
    set (a := (32 * m + 8 * g)%nat) in *.
    pose proof (M 0%nat ltac:(lia)) as [M0 N0]. rewrite Nat.add_0_r in M0, N0.
    assert (forall c, (0 < c < 8)%nat -> (if (a + c) mod 32 =? 0 then ["010"%char] else if (a + c) mod 8 =? 0 then [" "%char] else [])%nat = []) as Z.
    { intros c Hc. destruct (M c ltac:(lia)) as [Mc Nc]. rewrite Mc, Nc.
      destruct (Nat.eqb_spec (8 * g + c) 0); [lia|]. destruct (Nat.eqb_spec c 0); [lia|reflexivity]. }
    rewrite M0, N0.
    replace (S a) with (a + 1)%nat by lia. replace (S (a + 1)) with (a + 2)%nat by lia.
    replace (S (a + 2)) with (a + 3)%nat by lia. replace (S (a + 3)) with (a + 4)%nat by lia.
    replace (S (a + 4)) with (a + 5)%nat by lia. replace (S (a + 5)) with (a + 6)%nat by lia.
    replace (S (a + 6)) with (a + 7)%nat by lia.
    rewrite !Z by lia. replace (8 * g + 0)%nat with (8 * g)%nat by lia. cbn [Nat.eqb].
    replace (8 * g =? 0)%nat with (g =? 0)%nat by (destruct g; reflexivity).
    destruct (g =? 0)%nat; reflexivity. }
  pose proof (G 0%nat ltac:(lia)) as G0. pose proof (G 1%nat ltac:(lia)) as G1.
  pose proof (G 2%nat ltac:(lia)) as G2. pose proof (G 3%nat ltac:(lia)) as G3.
  replace (32 * m + 8 * 0)%nat with (32 * m)%nat in G0 by lia.
  replace (32 * m + 8 * 1)%nat with (32 * m + 8)%nat in G1 by lia.
  replace (32 * m + 8 * 2)%nat with (32 * m + 8 + 8)%nat in G2 by lia.
  replace (32 * m + 8 * 3)%nat with (32 * m + 8 + 8 + 8)%nat in G3 by lia.
  replace (32 * m + 16)%nat with (32 * m + 8 + 8)%nat by lia.
  replace (32 * m + 24)%nat with (32 * m + 8 + 8 + 8)%nat by lia.
  rewrite G0, G1, G2, G3. cbn [Nat.eqb app]. reflexivity.
Qed.
Print Assumptions C45_layout.

(** The same digits decode noisy phases; the bit string and the decryption of a bit only differ at
    phases that are exactly 1/4 or 3/4. *)
Theorem C45_digit_threshold : forall n c s x, eqm x (tlwe_phase n s c) ->
  between_25_75 (w32 x) = true <-> decrypt_TLWELvl1_to_bit n c s = true \/ w32 x = t_1o4 \/ w32 x = t_1o4 + t_1o2.
Proof.
  intros n c s x H. rewrite decrypt_iff, <- (eqm_mod _ _ H). unfold between_25_75, w32, t_1o4, t_1o2. lia.
Qed.
Print Assumptions C45_digit_threshold.

Example C45_witness : weight2bitstring 32 (uint2weight 32 (N.of_nat 1 + 128 + 256)) =
  ["010"; "1";"0";"0";"0";"0";"0";"0";"1"; " "; "1";"0";"0";"0";"0";"0";"0";"0"; " ";
   "0";"0";"0";"0";"0";"0";"0";"0"; " "; "0";"0";"0";"0";"0";"0";"0";"0"; "010"]%char.
Proof. vm_compute. reflexivity. Qed.
