(** Facts for C67: every file of whole blocks is a file of ciphertexts; a run on arbitrary
    ciphertexts goes like a run of the noise-free toy scheme on zeros. *)
From Coq Require Import List Arith Bool NArith ZArith Ascii Lia.
Import ListNotations.
From Verif Require Import Base BaseFacts GraphModel Spec GraphFacts Minimize TextModel TorusModel TfheSpec TfheFacts
  RunnerModel RunnerSpec RunnerFacts ReachFacts PropsRunner ParModel SchedFacts StreamModel InputSpec StreamFacts
  ClientModel ClientFacts CmdModel CmdSpec CmdFacts PropsCmd ObliviousSpec ObliviousFacts PropsOblivious.

(** * Bytes and ciphertexts *)
Lemma le_of_le bs : Forall (fun b => (b < 256)%N) bs -> le_bytes (length bs) (of_le bs) = bs.
Proof.
  induction 1 as [|b bs H _ IH]; cbn [length le_bytes of_le]; [reflexivity|].
  assert (E1 : ((b + 256 * of_le bs) mod 256 = b)%N).
  { rewrite N.mul_comm, N.mod_add by discriminate. now apply N.mod_small. }
  assert (E2 : ((b + 256 * of_le bs) / 256 = of_le bs)%N).
  { rewrite N.mul_comm, N.div_add by discriminate. rewrite N.div_small by auto. reflexivity. }
  rewrite E1, E2, IH. reflexivity.
Qed.
Lemma of_le_bound bs : Forall (fun b => (b < 256)%N) bs -> (of_le bs < 256 ^ N.of_nat (length bs))%N.
Proof.
  induction 1 as [|b bs H _ IH]; cbn [length of_le]; [reflexivity|].
  rewrite Nat2N.inj_succ, N.pow_succ_r'. nia.
Qed.
Lemma words_of_bytes k : forall bytes, Forall (fun b => (b < 256)%N) bytes -> length bytes = k * 8 ->
  exists c, is_ctxt k c /\ save c = bytes.
Proof.
  induction k as [|k IH]; intros bytes HB HL.
  - destruct bytes; [|discriminate]. exists []. repeat split; auto.
  - rewrite <- (firstn_skipn 8 bytes) in HB. apply Forall_app in HB as [B1 B2].
    assert (L1 : length (firstn 8 bytes) = 8) by (rewrite firstn_length; lia).
    destruct (IH (skipn 8 bytes) B2) as (c & (C1 & C2) & C3); [rewrite skipn_length; lia|].
    exists (of_le (firstn 8 bytes) :: c). split; [split|].
    + cbn [length]. now rewrite C1.
    + constructor; [|exact C2]. pose proof (of_le_bound _ B1) as X. rewrite L1 in X. exact X.
    + unfold save in *. cbn [map concat]. rewrite C3. rewrite <- L1 at 1. rewrite le_of_le by auto. apply firstn_skipn.
Qed.
Lemma ctxts_of_bytes words n : forall bytes, Forall (fun b => (b < 256)%N) bytes -> length bytes = n * (words * 8) ->
  exists cts, Forall (is_ctxt words) cts /\ length cts = n /\ concat (map save cts) = bytes.
Proof.
  induction n as [|n IH]; intros bytes HB HL.
  - destruct bytes; [|discriminate]. exists []. repeat split; auto.
  - rewrite <- (firstn_skipn (words * 8) bytes) in HB. apply Forall_app in HB as [B1 B2].
    destruct (words_of_bytes words (firstn (words * 8) bytes) B1) as (c & C1 & C2); [rewrite firstn_length; lia|].
    destruct (IH (skipn (words * 8) bytes) B2) as (cts & D1 & D2 & D3); [rewrite skipn_length; lia|].
    exists (c :: cts). split; [constructor; auto|]. split; [cbn; now rewrite D2|].
    cbn [map concat]. rewrite C2, D3. apply firstn_skipn.
Qed.
Lemma le_bytes_byte k : forall w, Forall (fun b => (b < 256)%N) (le_bytes k w).
Proof. induction k as [|k IH]; intros w; cbn [le_bytes]; constructor; auto. apply N.mod_lt. discriminate. Qed.
Lemma archive_size n c : length (archive_tlwe n c) = 1 + 4 * (n + 1) /\ Forall (fun b => (b < 256)%N) (archive_tlwe n c).
Proof.
  unfold archive_tlwe. cbn [length]. split.
  - assert (K : forall l : list nat, length (concat (map (fun i => le_bytes 4 (Z.to_N (cf c i))) l)) = 4 * length l).
    { induction l as [|i l IH]; [reflexivity|]. cbn [map concat]. rewrite app_length, le_bytes_length, IH. cbn [length]. lia. }
    rewrite K, seq_length. lia.
  - constructor; [reflexivity|]. induction (seq 0 (S n)) as [|i l IH]; [constructor|]. cbn [map concat].
    apply Forall_app. split; [apply le_bytes_byte|exact IH].
Qed.

(** * A failure FExit is certain, too: FLUT's refusal comes before its parallel regions. *)
Definition noexit {A} (r : res A) : Prop := r <> Fail FExit.
Definition exits {A} (M : outcomes A) (r : res A) : Prop := r = Fail FExit -> forall x, M x <-> x = Fail FExit.
Lemma noexit_bind {A B} (r : res A) (k : A -> res B) : noexit r -> (forall a, r = Ok a -> noexit (k a)) -> noexit (bind r k).
Proof. unfold noexit. destruct r; cbn; intros; [auto|congruence]. Qed.
Lemma noexit_fold {A S} (f : S -> A -> res S) l : (forall s x, noexit (f s x)) -> forall s, noexit (foldM f l s).
Proof.
  intros H. induction l as [|x l IH]; intros s; cbn [foldM]; [discriminate|]. apply noexit_bind; auto.
Qed.
Lemma noexit_ok {A} (a : A) : noexit (Ok a).
Proof. discriminate. Qed.
Lemma noexit_at {A} (l : list A) i : noexit (at_ l i).
Proof. unfold at_, noexit. destruct (nth_error l i); discriminate. Qed.
Lemma noexit_set {A} (l : list A) i v : noexit (set_at l i v).
Proof. unfold set_at, noexit. destruct (i <? length l); discriminate. Qed.
Lemma noexit_assert {A} b (r : res A) : noexit r -> noexit (assert_ b r).
Proof. unfold assert_, noexit. destruct b; [auto|discriminate]. Qed.
Lemma noexit_par {A} t (f : nat -> res A) l : (forall q, noexit (f q)) -> noexit (par_for t f l).
Proof.
  intros H. unfold par_for. destruct (nodupb t); [|discriminate]. apply noexit_fold.
  intros s x. apply noexit_bind; auto. intros. apply noexit_set.
Qed.
Lemma noexit_mult N a k : noexit (TRLWELvl1_mult_X_k N a k).
Proof.
  unfold TRLWELvl1_mult_X_k, PolyLvl1_mult_X_k, noexit.
  repeat match goal with |- context [if ?b then _ else _] => destruct b; cbn [bind] end; discriminate.
Qed.
Lemma exits_no {A} (M : outcomes A) r : noexit r -> exits M r.
Proof. intros H E. contradiction. Qed.
Lemma exits_det {A} (r : res A) : exits (det r) r.
Proof. intros -> x. reflexivity. Qed.
Lemma exits_bind {A B} (M : outcomes A) r (K : A -> outcomes B) k :
  exact M r -> exits M r -> (forall a, r = Ok a -> exits (K a) (k a)) -> exits (obind M K) (bind r k).
Proof.
  intros HX H1 H2 E x. destruct r as [a|f]; cbn in E.
  - specialize (HX a eq_refl). specialize (H2 a eq_refl E). unfold obind. split.
    + intros (y & Hy & Hx). apply HX in Hy. subst y. now apply H2.
    + intros ->. exists (Ok a). split; [now apply HX|now apply H2].
  - injection E as ->. specialize (H1 eq_refl). unfold obind. split.
    + intros (y & Hy & Hx). apply H1 in Hy. subst y. exact Hx.
    + intros ->. exists (Fail FExit). split; [now apply H1|reflexivity].
Qed.

Section Flut.
Context (T : tfhe).
Notation N1 := (t_n1 T).
Lemma noexit_levels ins : forall t w ti, noexit (lookup_levels T ins t w ti).
Proof.
  induction ins as [|c ins IH]; intros t w ti; cbn [lookup_levels]; [discriminate|].
  apply noexit_bind; [|intros [? ?] _; apply IH]. unfold lookup_level. apply noexit_bind; [|discriminate].
  apply noexit_par. intros q. repeat (apply noexit_bind; [apply noexit_at|intros ? _]). discriminate.
Qed.
Lemma noexit_lookup t ins w : noexit (lookup_table T t ins w).
Proof.
  unfold lookup_table, lookup_table_with_timer. apply noexit_bind; [|intros [[? ?] ?] _; discriminate].
  destruct (31 <=? length ins); [discriminate|]. apply noexit_assert.
  destruct (length ins =? 0); [discriminate|apply noexit_levels].
Qed.
Lemma flut_queued_exits s : exits (flut_eval_queued_any T s) (flut_eval_queued T s).
Proof.
  unfold flut_eval_queued_any, flut_eval_queued.
  destruct (length (f_queue T s) =? 0); [apply exits_det|].
  destruct (31 <=? length (f_queue T s)); [apply exits_det|].
  apply exits_bind; [apply exact_det|apply exits_det|]; intros memo _.
  apply exits_bind; [apply exact_det|apply exits_det|]; intros next _.
  apply exits_bind; [apply exact_det|apply exits_det|]; intros st2idx _.
  destruct (32 <=? f_max T s); [apply exits_det|].
  destruct (if f_max T s =? 31 then false else 2 ^ f_max T s <=? length next); [apply exits_det|].
  apply exits_no. cbv zeta. apply noexit_assert.
  apply noexit_bind.
  { apply noexit_par. intros q. unfold flut_entry. apply noexit_fold. intros a st. apply noexit_fold. intros b i.
    repeat (apply noexit_bind; [first [apply noexit_at|apply noexit_mult]|intros ? _]). discriminate. }
  intros table _. apply noexit_bind; [apply noexit_lookup|]. intros [table2 ws] _.
  apply noexit_bind; [apply noexit_at|]. intros t0 _.
  apply noexit_bind.
  { apply noexit_par. intros q. unfold flut_rotate. destruct (2 * N1 <? q * length next); [discriminate|apply noexit_mult]. }
  intros table3 _. apply noexit_bind; [apply noexit_lookup|]. intros [table4 ws2] _.
  apply noexit_bind; [apply noexit_at|]. intros nt _.
  destruct (f_freq T s =? 0); [discriminate|].
  apply noexit_bind; [|discriminate]. apply noexit_par. intros q. apply noexit_bind; [apply noexit_at|discriminate].
Qed.
Lemma flut_one_exits s c : exits (flut_eval_one_any T s c) (flut_eval_one T s c).
Proof.
  unfold flut_eval_one_any, flut_eval_one. cbv zeta.
  destruct (_ <? _); [apply exits_det|apply flut_queued_exits].
Qed.
Lemma flut_result_exits s : exits (flut_result_any T s) (flut_result T s).
Proof.
  apply exits_bind; [apply flut_queued_any_exact|apply flut_queued_exits|]. intros; apply exits_det.
Qed.
End Flut.
