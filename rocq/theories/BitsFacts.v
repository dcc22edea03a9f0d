(** Proofs about input file decoding. *)
From Coq Require Import List Arith Bool NArith Lia.
Import ListNotations.
From Verif Require Import Base GraphModel TextModel BitsModel BaseFacts.

Definition bits8 (v : N) : list bool := map (N.testbit_nat v) (seq 0 8).
Definition all_bits (bytes : list N) : list bool := concat (map bits8 bytes).

Lemma foldM_app {A S} (f : S -> A -> res S) l1 l2 s :
  foldM f (l1 ++ l2) s = do s' <- foldM f l1 s; foldM f l2 s'.
Proof.
  revert s; induction l1 as [|a l1 IH]; intros s; cbn [app foldM bind]; auto.
  destruct (f s a); cbn [bind]; auto.
Qed.

Lemma byte_bits_eq n v rest :
  byte_bits n v rest = (firstn rest (map (N.testbit_nat v) (seq 0 n)), rest - n).
Proof.
  revert v rest; induction n as [|n IH]; intros v rest; cbn [byte_bits].
  - rewrite Nat.sub_0_r. cbn. rewrite firstn_nil. reflexivity.
  - destruct rest as [|r]; [reflexivity|]. rewrite IH. cbn [seq map firstn]. f_equal.
    f_equal; [destruct v as [|[]]; reflexivity|]. f_equal. rewrite <- seq_shift, map_map.
    apply map_ext. intros i. destruct v as [|[]]; reflexivity.
Qed.

Lemma bits8_length v : length (bits8 v) = 8. Proof. reflexivity. Qed.
Lemma all_bits_length b : length (all_bits b) = 8 * length b.
Proof. unfold all_bits. induction b as [|x b IH]; [reflexivity|]. cbn [map concat]. rewrite app_length, IH, bits8_length. cbn [length]. lia. Qed.

Section E.
Context {S : Type} (func : S -> bool -> res S) (ap : nat).
Notation eib := (fun rest bytes s => each_input_bit_from rest ap func bytes s).

Lemma eib_cons rest v b s : 0 < rest ->
  each_input_bit_from rest ap func (v :: b) s =
  do s' <- foldM func (firstn rest (bits8 v)) s; each_input_bit_from (rest - 8) ap func b s'.
Proof.
  intros H. cbn [each_input_bit_from]. destruct (rest =? 0) eqn:E; [apply Nat.eqb_eq in E; lia|].
  rewrite byte_bits_eq. reflexivity.
Qed.
Lemma eib_zero v b s :
  each_input_bit_from 0 ap func (v :: b) s = each_input_bit_from ap ap func (v :: b) s.
Proof. cbn [each_input_bit_from]. destruct (ap =? 0) eqn:E; [apply Nat.eqb_eq in E; rewrite E|]; reflexivity. Qed.

Lemma eib_prefix rest block tl s : 8 * length block < rest ->
  each_input_bit_from rest ap func (block ++ tl) s =
  do s' <- foldM func (all_bits block) s; each_input_bit_from (rest - 8 * length block) ap func tl s'.
Proof.
  revert rest s. induction block as [|v b IH]; intros rest s H; cbn [app].
  - cbn. rewrite Nat.sub_0_r. reflexivity.
  - cbn [length] in *. rewrite eib_cons by lia. rewrite firstn_all2 by (rewrite bits8_length; lia).
    unfold all_bits. cbn [map concat]. rewrite foldM_app. destruct (foldM func (bits8 v) s); cbn [bind]; auto.
    rewrite IH by lia. replace (rest - 8 - 8 * length b) with (rest - 8 * Datatypes.S (length b)) by lia. reflexivity.
Qed.

Lemma eib_block rest block tl s : 0 < rest -> rest <= 8 * length block < rest + 8 ->
  each_input_bit_from rest ap func (block ++ tl) s =
  do s' <- foldM func (firstn rest (all_bits block)) s; each_input_bit_from 0 ap func tl s'.
Proof.
  intros H0 H. destruct (exists_last (l := block)) as (b & v & ->).
  { intros ->. cbn in H. lia. }
  rewrite app_length in H. cbn [length] in H. rewrite <- app_assoc. rewrite eib_prefix by lia.
  unfold all_bits. rewrite map_app, concat_app. fold (all_bits b). rewrite firstn_app, all_bits_length.
  rewrite firstn_all2 by (rewrite all_bits_length; lia). rewrite foldM_app.
  destruct (foldM func (all_bits b) s); cbn [bind]; auto.
  cbn [app]. rewrite eib_cons by lia. cbn [map concat]. rewrite app_nil_r.
  replace (rest - 8 * length b - 8) with 0 by lia. reflexivity.
Qed.
End E.

(** The bits a complete file delivers. *)
Lemma eib_blocks {S} (func : S -> bool -> res S) ap blocks tl s : 0 < ap ->
  (forall b, In b blocks -> ap <= 8 * length b < ap + 8) ->
  each_input_bit_from 0 ap func (concat blocks ++ tl) s =
  do s' <- foldM func (concat (map (fun b => firstn ap (all_bits b)) blocks)) s;
  each_input_bit_from 0 ap func tl s'.
Proof.
  intros H0. revert s. induction blocks as [|b blocks IH]; intros s H; cbn [concat map app foldM bind]; auto.
  pose proof (H b (or_introl eq_refl)) as Hb. rewrite <- app_assoc.
  destruct b as [|v b']; [cbn in Hb; lia|]. cbn [app]. rewrite eib_zero.
  change (v :: b' ++ concat blocks ++ tl) with ((v :: b') ++ concat blocks ++ tl).
  rewrite eib_block by lia. rewrite foldM_app. destruct (foldM func _ s); cbn [bind]; auto.
  apply IH. intros; apply H; cbn; auto.
Qed.

(** Cutting a byte sequence into blocks of k bytes and a shorter rest. *)
Lemma cut_blocks {A} k (bytes : list A) : 0 < k ->
  exists blocks tl, bytes = concat blocks ++ tl /\ (forall b, In b blocks -> length b = k) /\
    length blocks = length bytes / k /\ length tl = length bytes mod k.
Proof.
  intros Hk. remember (length bytes) as n eqn:E. revert bytes E.
  induction n as [n IH] using lt_wf_ind. intros bytes ->.
  destruct (Nat.lt_ge_cases (length bytes) k) as [L|L].
  - exists [], bytes. cbn. rewrite Nat.div_small, Nat.mod_small by auto. firstorder.
  - destruct (IH (length (skipn k bytes))) with (bytes := skipn k bytes) as (bl & tl & E & H & L1 & L2); auto.
    { rewrite skipn_length. lia. }
    exists (firstn k bytes :: bl), tl. rewrite skipn_length in *.
    assert (D : length bytes = (length bytes - k) + 1 * k) by lia.
    split; [|split; [|split]].
    + cbn [concat]. rewrite <- app_assoc, <- E. symmetry. apply firstn_skipn.
    + intros b [<-|Hb]; auto. rewrite firstn_length. lia.
    + cbn [length]. rewrite L1. rewrite D at 2. rewrite Nat.div_add by lia. lia.
    + rewrite L2. rewrite D at 2. rewrite Nat.mod_add by lia. reflexivity.
Qed.

Lemma eib_any ap bytes : 0 < ap ->
  let k := (ap + 7) / 8 in
  exists bits, length bits = length bytes / k * ap + length bytes mod k * 8 /\
    forall S (func : S -> bool -> res S) s,
      each_input_bit bytes ap func s =
      do s' <- foldM func bits s; assert_ (length bytes mod k =? 0) (Ok s').
Proof.
  intros H0 k. assert (K : ap <= 8 * k < ap + 8).
  { unfold k. pose proof (Nat.div_mod (ap + 7) 8). pose proof (Nat.mod_upper_bound (ap + 7) 8). lia. }
  clearbody k.
  destruct (cut_blocks k bytes ltac:(lia)) as (bl & tl & E & H & L1 & L2).
  exists (concat (map (fun b => firstn ap (all_bits b)) bl) ++ all_bits tl). split.
  - rewrite app_length, all_bits_length, L2. f_equal; [|lia]. rewrite <- L1. clear -H K.
    induction bl as [|b bl IH]; cbn [map concat length]; auto.
    rewrite app_length, IH by (intros; apply H; cbn; auto). rewrite firstn_length, all_bits_length.
    rewrite (H b) by (cbn; auto). lia.
  - intros S func s. unfold each_input_bit. rewrite E at 1. rewrite eib_blocks.
    2: auto. 2: intros b Hb; rewrite (H b Hb); lia.
    rewrite foldM_app. destruct (foldM func _ s); cbn [bind]; auto.
    pose proof (Nat.mod_upper_bound (length bytes) k).
    destruct tl as [|v tl].
    + cbn in L2. rewrite <- L2. reflexivity.
    + rewrite eib_zero. pose proof (eib_prefix func ap ap (v :: tl) [] a) as P.
      rewrite app_nil_r in P. rewrite P by lia. clear P. destruct (foldM func _ a); cbn [bind]; auto.
      cbn [each_input_bit_from]. rewrite <- L2. cbn [length Nat.eqb].
      destruct (ap - 8 * Datatypes.S (length tl) =? 0) eqn:X; auto.
      apply Nat.eqb_eq in X. cbn [length] in L2. lia.
Qed.

Lemma eib_ap0 {S} bytes (func : S -> bool -> res S) s : each_input_bit bytes 0 func s = Ok s.
Proof. unfold each_input_bit. revert s. induction bytes; intros s; cbn; auto. Qed.
