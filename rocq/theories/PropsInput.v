(** C20 - C26: input files and ciphertext streams. *)
From Coq Require Import List Arith Bool NArith ZArith Lia.
Import ListNotations.
From Verif Require Import Base BaseFacts GraphModel TextModel BitsModel BitsFacts StreamModel InputSpec StreamFacts.

Lemma nth_error_firstn {A} (l : list A) n i : i < n -> nth_error (firstn n l) i = nth_error l i.
Proof. revert n i; induction l; intros [|n] [|i] H; cbn; auto; try lia. apply IHl. lia. Qed.
Lemma nth_error_skipn {A} (l : list A) n i : nth_error (skipn n l) i = nth_error l (n + i).
Proof. revert n; induction l; intros [|n]; cbn; auto. destruct i; auto. Qed.

Lemma nth_all_bits b i : nth_error (all_bits b) i =
  match nth_error b (i / 8) with Some v => Some (N.testbit_nat v (i mod 8)) | None => None end.
Proof.
  revert i; induction b as [|v b IH]; intros i.
  - unfold all_bits. cbn [map concat]. destruct (i / 8); destruct i; reflexivity.
  - unfold all_bits. cbn [map concat]. fold (all_bits b). destruct (Nat.lt_ge_cases i 8) as [L|L].
    + rewrite nth_error_app1 by (rewrite bits8_length; auto). rewrite Nat.div_small, Nat.mod_small by auto.
      cbn [nth_error]. unfold bits8. rewrite nth_error_map. do 8 (destruct i; [reflexivity|]). lia.
    + rewrite nth_error_app2 by (rewrite bits8_length; auto). rewrite bits8_length, IH.
      assert (D : i / 8 = S ((i - 8) / 8)).
      { replace i with (i - 8 + 1 * 8) at 1 by lia. rewrite Nat.div_add by lia. lia. }
      assert (M : i mod 8 = (i - 8) mod 8).
      { replace i with (i - 8 + 1 * 8) at 1 by lia. rewrite Nat.mod_add by lia. reflexivity. }
      rewrite D, M. reflexivity.
Qed.

Lemma packs_bits ap v b : packs ap v b -> firstn ap (all_bits b) = v.
Proof.
  intros (L & HB & H). apply nth_error_ext. intros i.
  destruct (Nat.lt_ge_cases i ap) as [Hi|Hi].
  - rewrite nth_error_firstn by auto. rewrite nth_all_bits.
    destruct (nth_error v i) as [x|] eqn:E.
    + destruct (H i x E) as (byte & -> & <-). reflexivity.
    + apply nth_error_None in E. lia.
  - rewrite (proj2 (nth_error_None v i)) by lia. apply nth_error_None.
    rewrite firstn_length, all_bits_length. lia.
Qed.

(** * C20: a file that packs valuations feeds exactly their concatenation, in order, to the
    consumer [func] (the plaintext run, or the encryption of the bits), whatever the padding. *)
Theorem C20_input_decoding ap vals blocks S (func : S -> bool -> res S) s :
  0 < ap -> Forall2 (packs ap) vals blocks ->
  each_input_bit (concat blocks) ap func s = foldM func (concat vals) s.
Proof.
  intros H0 F. unfold each_input_bit. rewrite <- (app_nil_r (concat blocks)). rewrite eib_blocks; auto.
  - assert (E : map (fun b => firstn ap (all_bits b)) blocks = vals).
    { induction F as [|v b vs bs P F IH]; cbn [map]; auto. rewrite IH, (packs_bits ap v b P). reflexivity. }
    rewrite E. destruct (foldM func (concat vals) s); reflexivity.
  - intros b Hb. induction F as [|v b' vs bs P F IH]; [destruct Hb|]. destruct Hb as [<-|Hb]; auto. apply P.
Qed.

(** Every list of valuations can be written this way, so the hypothesis is no restriction: the
    canonical encoding with zero padding. *)
Fixpoint byte_of (bits : list bool) : N :=
  match bits with [] => 0%N | b :: r => ((if b then 1 else 0) + 2 * byte_of r)%N end.
Fixpoint encode (k : nat) (bits : list bool) : list N :=
  match k with O => [] | Datatypes.S k' => byte_of (firstn 8 bits) :: encode k' (skipn 8 bits) end.
Lemma byte_of_bit bits i b : nth_error bits i = Some b -> N.testbit_nat (byte_of bits) i = b.
Proof.
  revert i; induction bits as [|x bits IH]; intros [|i]; cbn [nth_error]; try discriminate.
  - intros [= ->]. cbn [byte_of]. destruct b, (byte_of bits); reflexivity.
  - intros H. rewrite <- (IH i H). cbn [byte_of]. destruct x, (byte_of bits) as [|[]]; reflexivity.
Qed.
Lemma encode_length k bits : length (encode k bits) = k.
Proof. revert bits; induction k; intros; cbn; auto. Qed.
Lemma encode_bit k bits i b : nth_error bits i = Some b -> i < 8 * k ->
  exists byte, nth_error (encode k bits) (i / 8) = Some byte /\ N.testbit_nat byte (i mod 8) = b.
Proof.
  revert bits i; induction k as [|k IH]; intros bits i H L; [lia|]. cbn [encode].
  destruct (Nat.lt_ge_cases i 8) as [L8|L8].
  - rewrite Nat.div_small, Nat.mod_small by auto. eexists; split; [reflexivity|].
    apply byte_of_bit. rewrite nth_error_firstn by auto. exact H.
  - replace i with (i - 8 + 1 * 8) by lia. rewrite Nat.div_add, Nat.mod_add by lia. rewrite Nat.add_1_r.
    cbn [nth_error]. apply IH; [|lia]. rewrite nth_error_skipn. replace (8 + (i - 8)) with i by lia. exact H.
Qed.
Theorem C20_every_word_has_a_file ap vals : 0 < ap -> Forall (fun v => length v = ap) vals ->
  exists blocks, Forall2 (packs ap) vals blocks.
Proof.
  intros H0 F. exists (map (encode ((ap + 7) / 8)) vals).
  assert (K : ap <= 8 * ((ap + 7) / 8) < ap + 8).
  { pose proof (Nat.div_mod (ap + 7) 8). pose proof (Nat.mod_upper_bound (ap + 7) 8). lia. }
  induction F as [|v vs L F IH]; cbn [map]; constructor; auto.
  split; [auto|]. rewrite encode_length. split; [auto|]. intros i b H. apply encode_bit; auto.
  assert (i < length v) by (apply nth_error_Some; congruence). lia.
Qed.
Example C20_nonvacuous :   (* ap = 10: two bytes per valuation, padding bits set in the second one *)
  Forall2 (packs 10) [[true;false;false;true;true;false;false;false;true;true];
                      [false;false;false;false;false;false;false;true;false;false]]
                     [[25; 255]; [128; 0]]%N.
Proof.
  constructor; [|constructor; [|constructor]]; (split; [reflexivity|split; [cbn; lia|]]);
    intros i b; do 10 (destruct i; [cbn; intros [= <-]; eexists; split; reflexivity|]); destruct i; discriminate.
Qed.

(** * C21: for a consumer that never fails, reading aborts iff the length is not a multiple of
    the valuation size; the number of bits delivered before that depends on the length only. *)
Theorem C21_truncated_input ap bytes : 0 < ap ->
  let k := (ap + 7) / 8 in
  exists bits,
    (* these bits, and no others, are delivered, to any consumer *)
    (forall S (func : S -> bool -> res S) s,
       each_input_bit bytes ap func s =
       do s' <- foldM func bits s; if length bytes mod k =? 0 then Ok s' else Fail FAssert) /\
    length bits = length bytes / k * ap + length bytes mod k * 8 /\
    (forall S (func : S -> bool -> res S) s, (forall s b, exists s', func s b = Ok s') ->
       (each_input_bit bytes ap func s = Fail FAssert <-> length bytes mod k <> 0) /\
       ((exists s', each_input_bit bytes ap func s = Ok s') <-> length bytes mod k = 0)).
Proof.
  intros H0 k. destruct (eib_any ap bytes H0) as (bits & L & H). fold k in L, H. exists bits.
  split; [exact H|]. split; [exact L|]. intros S func s Hf. rewrite H.
  assert (X : exists s', foldM func bits s = Ok s').
  { clear -Hf. revert s; induction bits as [|b bits IH]; intros s; cbn [foldM]; eauto.
    destruct (Hf s b) as (s1 & ->). cbn [bind]. apply IH. }
  destruct X as (s' & ->). cbn [bind]. destruct (Nat.eqb_spec (length bytes mod k) 0) as [E|E]; cbn [assert_].
  - split; split; intros X; eauto; try discriminate. contradiction.
  - split; split; intros X; eauto; try contradiction. destruct X; discriminate.
Qed.
Example C21_nonvacuous :
  each_input_bit [1; 2; 3]%N 10 (fun (s : list bool) b => Ok (s ++ [b])) [] = Fail FAssert /\
  each_input_bit [1; 2]%N 10 (fun (s : list bool) b => Ok (s ++ [b])) []
    = Ok [true;false;false;false;false;false;false;false;false;true].
Proof. split; reflexivity. Qed.

(** The plain run of the command line computes acceptance of the delivered word. *)
Theorem C20_plain_run spec g ap vals blocks :
  0 < ap -> Forall2 (packs ap) vals blocks -> from_istream spec = Ok g ->
  do_run_dfa_plain spec (concat blocks) ap = accepts g (concat vals).
Proof.
  intros H0 F E. unfold do_run_dfa_plain. rewrite E. cbn [bind].
  rewrite (C20_input_decoding ap vals blocks _ _ _ H0 F). reflexivity.
Qed.

(** * C22: serialisation round trip, wherever the ciphertext is in the stream and whatever
    follows; exactly one block is consumed; a short stream aborts. *)
Theorem C22_serialisation words c pre post f :
  is_ctxt words c ->
  load words (mkIs (pre ++ save c ++ post) (length pre) f)
    = Ok (c, mkIs (pre ++ save c ++ post) (length pre + block_size words) f)
  /\ length (save c) = block_size words.
Proof.
  intros [<- F]. rewrite save_length. split; auto. eapply load_at; eauto.
Qed.
Theorem C22_short_stream words data p f :
  p <= length data -> length data < p + block_size words -> load words (mkIs data p f) = Fail FAssert.
Proof. apply load_short. Qed.
Example C22_nonvacuous : is_ctxt 2 [0x7FF8000000000001; 0xFFF0000000000000]%N  (* a NaN and -inf *).
Proof. split; [reflexivity|]. repeat constructor. Qed.

(** * C23, C24: the prefetching streams, under every interleaving of the two threads.
    [calls] is any program of size() and next() calls.  In every reachable state the events seen
    so far are a prefix of the specified ones; when the caller is done they are the specified
    ones; if the specification says that a call aborts then no execution gets past it, and the
    only failure is that abort (in particular: no data race, no seek error, no use of an invalid
    future); no deadlock, and only
    boundedly many steps. *)
Definition stream_ok (k : kind) (words : nat) (ev : list event) (aborts : bool) (s0 : stream) : Prop :=
  (exists bound, forall sched, moves k words sched s0 <= bound) /\
  forall sched,
    match exec k words sched s0 with
    | Ok s => (exists later, ev = s_out s ++ later) /\
              (s_prog s = [] -> s_out s = ev /\ aborts = false) /\
              (s_prog s <> [] -> exists t r, step k words t s = Some r) /\
              is_fail (s_is s) = false /\
              (exists sched', match exec k words sched' s with
                              | Ok s' => s_prog s' = []
                              | Fail f => f = FAssert
                              end)
    | Fail f => f = FAssert /\ aborts = true
    end.

Lemma stream_correct k words cts junk calls :
  0 < words -> (Z.of_nat (block_size words) < 2 ^ 63)%Z -> Forall (is_ctxt words) cts ->
  (Z.of_nat (length cts * block_size words) < 2 ^ 64)%Z -> length junk = words ->
  exists s0, open_stream k words (concat (map save cts)) junk calls = Ok s0 /\
    stream_ok k words (fst (observed (delivery k cts) calls)) (snd (observed (delivery k cts) calls)) s0.
Proof.
  intros HW HB HC HF HJ. destruct (open_ok k words cts HW HB HC HF junk calls HJ) as (s0 & E & I).
  exists s0. split; [exact E|]. split; [exists (measure k words s0); intros sch; apply (moves_bound k words cts HW)|]. intros sched.
  pose proof (Inv_exec k words cts HW HB HC _ _ sched s0 I) as X.
  destruct (exec k words sched s0) as [s|f]; auto.
  destruct (Inv_out k words cts _ _ s X) as [A1 A2].
  split; auto. split; [intros P; destruct (A2 P); split; auto|]. split.
  { intros NP. destruct (Inv_progress k words cts _ _ s X NP) as [(r & H)|(r & H)]; eauto. }
  split; [eapply (Inv_fail k words cts); eauto|]. apply (Inv_complete k words cts HW HB HC _ _ _ s (le_n _) X).
Qed.

Theorem C23_forward_stream words cts junk calls :
  0 < words -> (Z.of_nat (block_size words) < 2 ^ 63)%Z -> Forall (is_ctxt words) cts ->
  (Z.of_nat (length cts * block_size words) < 2 ^ 64)%Z -> length junk = words ->
  exists s0, open_stream Forward words (concat (map save cts)) junk calls = Ok s0 /\
    stream_ok Forward words (fst (observed cts calls)) (snd (observed cts calls)) s0.
Proof. apply (stream_correct Forward). Qed.

Theorem C24_reversed_stream words cts junk calls :
  0 < words -> (Z.of_nat (block_size words) < 2 ^ 63)%Z -> Forall (is_ctxt words) cts ->
  (Z.of_nat (length cts * block_size words) < 2 ^ 64)%Z -> length junk = words ->
  exists s0, open_stream Reversed words (concat (map save cts)) junk calls = Ok s0 /\
    stream_ok Reversed words (fst (observed (rev cts) calls)) (snd (observed (rev cts) calls)) s0.
Proof. apply (stream_correct Reversed). Qed.

(** the library parameters lvl1: l = 3, n = 1024 give a block of 98304 bytes *)
Example C23_nonvacuous : exists words cts (junk : list N),
  words = 4 * 3 * 4 /\ 0 < words /\ (Z.of_nat (block_size words) < 2 ^ 63)%Z /\
  Forall (is_ctxt words) cts /\ length cts = 3 /\ (Z.of_nat (length cts * block_size words) < 2 ^ 64)%Z /\
  length junk = words /\
  observed cts [Size; Next; Next; Size; Next; Next]
    = ([ESize 3; EValue (repeat 7%N words); EValue (repeat 8%N words); ESize 1; EValue (repeat 9%N words)], true).
Proof.
  exists 48, [repeat 7%N 48; repeat 8%N 48; repeat 9%N 48], (repeat 0%N 48).
  repeat split; try lia; try reflexivity; repeat constructor.
Qed.

(** * C25: a file with a partial block is refused when the stream is opened. *)
Theorem C25_partial_block k words file junk calls :
  0 < words -> (Z.of_nat (length file) < 2 ^ 64)%Z -> length file mod block_size words <> 0 ->
  open_stream k words file junk calls = Fail FAssert.
Proof.
  intros HW HF HM. unfold open_stream. rewrite seek_zero_end, tell_at by auto.
  destruct (Nat.eqb_spec (length file mod block_size words) 0); [contradiction|reflexivity].
Qed.
Example C25_nonvacuous : length (repeat 0%N 17) mod block_size 2 <> 0.
Proof. discriminate. Qed.

(** * C26: is_beg() is right on every stream that has not failed ... *)
Theorem C26_is_beg_partial is : is_fail is = false -> (is_beg is = true <-> is_pos is = 0).
Proof. destruct is as [d p f]. cbn. intros ->. rewrite is_beg_at. apply Nat.eqb_eq. Qed.
(** ... but is_end() compares the position with the constant std::ios_base::end, i.e. with 2.  It
    says nothing about the end of the stream: *)
Theorem C26_is_end_actual is : is_fail is = false -> (is_end is = true <-> is_pos is = 2).
Proof.
  destruct is as [d p f]. cbn. intros ->. unfold is_end, tellg, dir_value. cbn [is_fail is_pos].
  rewrite Z.eqb_eq. lia.
Qed.
Theorem C26_is_end_refuted :
  (exists is, is_fail is = false /\ is_pos is = length (is_data is) /\ is_end is = false) /\
  (exists is, is_fail is = false /\ is_pos is < length (is_data is) /\ is_end is = true).
Proof.
  split; [exists (mkIs [1;2;3;4]%N 4 false)|exists (mkIs [1;2;3;4]%N 2 false)]; cbn; auto.
Qed.

Print Assumptions C20_input_decoding.
Print Assumptions C20_every_word_has_a_file.
Print Assumptions C20_plain_run.
Print Assumptions C21_truncated_input.
Print Assumptions C22_serialisation.
Print Assumptions C22_short_stream.
Print Assumptions C23_forward_stream.
Print Assumptions C24_reversed_stream.
Print Assumptions C25_partial_block.
Print Assumptions C26_is_beg_partial.
Print Assumptions C26_is_end_actual.
Print Assumptions C26_is_end_refuted.
