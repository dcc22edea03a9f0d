(** Property theorems C72: commands whose output does not fit on the disk. *)
From Coq Require Import String.
From Coq Require Import List Arith Bool NArith ZArith Ascii Lia.
Import ListNotations.
From Verif Require Import Base BaseFacts GraphModel Spec TextModel TextSpec BitsModel BitsFacts TorusModel TfheSpec StreamModel InputSpec StreamFacts
  PropsInput RunnerModel PropsRunner ClientModel CmdModel CmdSpec CmdFacts PropsCmd CrashModel CrashFacts PropsCrash LtlModel MainModel DotModel PropsText
  NumberSpec PropsNumber CutSpec PropsCut DiskModel DiskFacts.
Local Open Scope list_scope.

Lemma do_enc_eq T (Y : crypto T) f skey input output ap coin :
  do_enc T Y f skey input output ap coin =
  do _ <- read_skey T Y f skey;
  do bytes <- open_file (write f output []) input;
  do _ <- each_input_bit bytes ap (fun s _ => Ok s) tt;
  Ok (write (write f output []) output (enc_output T Y coin (bits_passed 0 ap bytes))).
Proof.
  unfold do_enc. destruct (read_skey T Y f skey); cbn [bind]; [|reflexivity].
  destruct (open_file (write f output []) input) as [bytes|]; cbn [bind]; [|reflexivity].
  unfold each_input_bit. rewrite each_bit_passed.
  assert (F : forall bits c acc, exists c', foldM (fun '(coin, bytes) b => Ok (S coin, bytes ++ save (c_save T Y (c_enc T Y coin b)))) bits (c, acc)
            = Ok (c', acc ++ enc_output T Y c bits)).
  { induction bits as [|b bits IH]; intros c acc; cbn [foldM enc_output bind].
    - exists c. rewrite app_nil_r. reflexivity.
    - destruct (IH (S c) (acc ++ save (c_save T Y (c_enc T Y c b)))) as (c' & ->). exists c'. rewrite <- app_assoc. reflexivity. }
  destruct (F (bits_passed 0 ap bytes) coin []) as (c' & ->). cbn [bind app].
  assert (G : forall A B l rest (a : A) (b : B), match each_input_bit_from rest ap (fun s _ => Ok s) l a with Ok _ => each_input_bit_from rest ap (fun s _ => Ok s) l b = Ok b | Fail e => each_input_bit_from rest ap (fun s _ => Ok s) l b = Fail e end
     /\ (forall x, each_input_bit_from rest ap (fun s _ => Ok s) l a = Ok x -> x = a)).
  { intros A B l. induction l as [|v l IH]; intros rest u w; cbn [each_input_bit_from].
    - destruct (rest =? 0); cbn; split; auto; congruence.
    - destruct (byte_bits 8 v (if rest =? 0 then ap else rest)) as [bs r].
      assert (X : forall C (c : C), foldM (fun (t : C) (_ : bool) => Ok t) bs c = Ok c) by (clear; induction bs; cbn; auto).
      rewrite !X. cbn [bind]. apply IH. }
  destruct (G unit (nat * list N)%type bytes 0 tt (c', enc_output T Y coin (bits_passed 0 ap bytes))) as [G1 _].
  destruct (each_input_bit_from 0 ap (fun s _ => Ok s) bytes tt) as [[]|e] eqn:EE; rewrite G1; reflexivity.
Qed.

Section Full.
Context (T : tfhe) (s0 s1 : list Z) (bit : trgsw T -> bool -> Prop) (E : noise) (Y : crypto T).
Hypothesis YO : crypto_ok T Y s1 bit.
Notation words := (c_words T Y).

(** * C72: enc.  Whatever the size of the disk and however the stream passes its bytes on: other files stay as they
    are; what is left is what a killed enc could leave (so C58_enc describes it); and if enc reports success and the
    buffer is smaller than a ciphertext, the output is complete or every run command refuses it. *)
Theorem C72_enc cap room pol opens f skey input cipher ap coin bytes r f' :
  f input = Some bytes -> input <> cipher -> 0 < ap ->
  (Z.of_nat (length (bits_passed 0 ap bytes) * (words * 8)) < 2 ^ 64)%Z ->
  enc_disk cap room pol opens T Y f skey input cipher ap coin = (r, f') ->
  (forall p, p <> cipher -> f' p = f p) /\
  (opens = false -> (forall p, f' p = f p) /\ r <> Ok tt) /\
  enc_left T Y f skey input cipher ap coin f' /\
  (r = Ok tt -> cap < words * 8 ->
     exists f2, do_enc T Y f skey input cipher ap coin = Ok f2 /\
       ((forall p, f' p = f2 p) \/
        (forall c, cmd_input c = cipher -> run_ends T Y (Ok c) f' (Fail FAssert)))).
Proof.
  intros HI NC H0 HB ED. pose proof (y_words _ _ _ _ YO) as HW.
  assert (BS : block_size words = words * 8) by (unfold block_size; lia).
  assert (LEFT : enc_left T Y f skey input cipher ap coin f' /\
    (r = Ok tt -> cap < words * 8 -> exists k f2, (forall p, f' p = write f cipher (firstn k (enc_output T Y coin (bits_passed 0 ap bytes))) p) /\
       do_enc T Y f skey input cipher ap coin = Ok f2 /\
       (forall p, f2 p = write f cipher (enc_output T Y coin (bits_passed 0 ap bytes)) p) /\
       length (enc_output T Y coin (bits_passed 0 ap bytes)) - k <= cap)).
  { unfold enc_disk in ED. rewrite do_enc_eq. unfold enc_left.
    destruct (read_skey T Y f skey) as [[]|e] eqn:RS; cbn [bind].
    2:{ injection ED as <- <-. split; [left; intros p; reflexivity|discriminate]. }
    destruct opens; cbn [negb] in ED.
    2:{ injection ED as <- <-. split; [left; intros p; reflexivity|discriminate]. }
    assert (OI : open_file (write f cipher []) input = Ok bytes) by (unfold open_file; rewrite write_other, HI by auto; reflexivity).
    rewrite OI in *. cbn [bind]. cbv zeta in ED.
    destruct (put_all cap room pol FAssert (mkOfile [] []) (doubles T Y coin (bits_passed 0 ap bytes))) as [o r0] eqn:EP.
    pose proof (whole cap room pol FAssert _ o r0 EP) as WH. cbv zeta in WH. rewrite doubles_output in WH.
    assert (LF : forall b, (exists k, b = firstn k (enc_output T Y coin (bits_passed 0 ap bytes))) ->
       same_files f (write f cipher b) \/ Ok tt = Ok tt /\ (same_files (write f cipher []) (write f cipher b) \/
         exists inp, Ok bytes = Ok inp /\ part_written f cipher (enc_output T Y coin (bits_passed 0 ap inp)) (write f cipher b))).
    { intros b (k & ->). right. split; auto. right. exists bytes. split; auto. exists k. intros q. reflexivity. }
    destruct WH as [(-> & HC & HL & (k & HF) & _)|(-> & HF & _ & _)].
    - destruct (each_input_bit bytes ap (fun s _ => Ok s) tt) as [[]|e]; injection ED as <- <-; cbn [bind].
      + split; [apply LF; eauto|]. intros _ _. exists room. eexists. split; [intros p; rewrite HC; reflexivity|].
        split; [reflexivity|]. split; [|exact HL]. intros p. unfold write. destruct (path_eqb p cipher); reflexivity.
      + split; [apply LF; eauto|discriminate].
    - injection ED as <- <-. split; [apply LF; eauto|discriminate]. }
  destruct LEFT as [LEFT FIN]. split; [|split; [|split; [exact LEFT|]]].
  - destruct LEFT as [H|(_ & [H|(inp & _ & (k & H))])]; intros p P; rewrite H; auto; apply write_other; auto.
  - intros ->. unfold enc_disk in ED. cbn [negb] in ED. destruct (read_skey T Y f skey); injection ED as <- <-; split; auto; discriminate.
  - intros Hr HC. destruct (FIN Hr HC) as (k & f2 & F' & DE & F2 & HL). exists f2. split; auto.
    set (out := enc_output T Y coin (bits_passed 0 ap bytes)) in *.
    assert (LO : length out = length (bits_passed 0 ap bytes) * (words * 8)) by (unfold out; rewrite (ct_file_length T Y s1 bit YO), BS; reflexivity).
    destruct (le_lt_dec (length out) k) as [LK|LK].
    + left. intros p. rewrite F', F2, firstn_all2 by auto. reflexivity.
    + right. intros c EC. assert (FC : f' cipher = Some (firstn k out)) by (rewrite F'; apply write_same).
      cbn [run_ends]. rewrite EC, FC. intros junk _.
      rewrite C25_partial_block; [reflexivity|exact HW| |].
      * rewrite firstn_length. rewrite <- LO in HB. lia.
      * rewrite BS, firstn_length. rewrite Nat.min_l by lia.
        intros M. apply Nat.mod_divides in M as (m & ->); [|lia].
        set (nb := length (bits_passed 0 ap bytes)) in *. rewrite LO in LK, HL. clear - LK HL HC HW.
        generalize dependent (words * 8). intros w8 LK HL HC.
        destruct (le_lt_dec nb m); [nia|]. assert (S m * w8 <= nb * w8) by (apply Nat.mul_le_mono_r; lia). lia.
Qed.

(** With room for the ciphertexts, enc does what it does on a disk without limits. *)
Theorem C72_enc_room cap room pol f skey input cipher ap coin bytes :
  f input = Some bytes -> input <> cipher ->
  length (enc_output T Y coin (bits_passed 0 ap bytes)) <= room ->
  let '(r, f') := enc_disk cap room pol true T Y f skey input cipher ap coin in
  match do_enc T Y f skey input cipher ap coin with
  | Ok f2 => r = Ok tt /\ forall p, f' p = f2 p
  | Fail e => r = Fail e
  end.
Proof.
  intros HI NC HR. rewrite do_enc_eq. unfold enc_disk.
  destruct (read_skey T Y f skey) as [[]|e]; cbn [bind]; [|reflexivity].
  assert (OI : open_file (write f cipher []) input = Ok bytes) by (unfold open_file; rewrite write_other, HI by auto; reflexivity).
  cbn [negb]. rewrite OI. cbn [bind]. cbv zeta.
  destruct (put_all cap room pol FAssert (mkOfile [] []) (doubles T Y coin (bits_passed 0 ap bytes))) as [o r0] eqn:EP.
  destruct (put_all_room cap room pol FAssert _ o r0 EP) as [-> HC]; [rewrite doubles_output; auto|].
  rewrite doubles_output in HC.
  destruct (each_input_bit bytes ap (fun s _ => Ok s) tt) as [[]|e]; cbn [bind]; [|reflexivity].
  split; auto. intros p. rewrite HC. unfold write. destruct (path_eqb p cipher); reflexivity.
Qed.

(** * C72: archives (keys and results), handed over in any pieces: other files stay as they are, the file has a prefix
    of the archive; a failure is reported unless at most [cap] bytes are missing; with enough room it is complete and
    success is reported.  If the file cannot be opened, the program ends and no file changes. *)
Theorem C72_archive cap room pol opens f path pieces r f' :
  write_to_archive cap room pol opens f path pieces = (r, f') ->
  if opens
  then (forall p, p <> path -> f' p = f p) /\
       f' path = Some (firstn room (concat pieces)) /\
       (r = Ok tt \/ r = Fail FExit) /\
       (r = Ok tt -> length (concat pieces) - room <= cap) /\
       (length (concat pieces) <= room -> r = Ok tt)
  else r = Fail FAssert /\ forall p, f' p = f p.
Proof.
  unfold write_to_archive. destruct opens; [|intros [= <- <-]; auto]. destruct (put_all cap room pol FExit (mkOfile [] []) pieces) as [o r0] eqn:EP.
  intros [= <- <-]. pose proof (whole cap room pol FExit _ o r0 EP) as WH. cbv zeta in WH.
  split; [intros p P; apply write_other; auto|]. split; [rewrite write_same; f_equal; destruct WH as [(_ & H & _)|(_ & _ & H & _)]; auto|].
  destruct WH as [(-> & _ & H & _)|(-> & _ & _ & H)]; repeat split; auto; try discriminate. lia.
Qed.

(** C72: dec refuses a result that did not fit, whether or not this was reported, and otherwise prints what it
    prints for the complete file. *)
Theorem C72_dec cap room pol opens f skey output c pieces r f' :
  (exists b, f skey = Some b /\ c_read_skey T Y b = true) -> skey <> output ->
  concat pieces = archive_tlwe (t_n1 T) c ->
  write_to_archive cap room pol opens f output pieces = (r, f') ->
  (opens = false /\ r = Fail FAssert /\ do_dec T Y f' skey output = do_dec T Y f skey output) \/
  do_dec T Y f' skey output = Fail FExit \/
  (r = Ok tt /\ do_dec T Y f' skey output = do_dec T Y (write f output (archive_tlwe (t_n1 T) c)) skey output).
Proof.
  intros HK NS HP EW. pose proof (C72_archive _ _ _ _ _ _ _ _ _ EW) as FA. destruct opens.
  2:{ destruct FA as (-> & FA). left. split; auto. split; auto. unfold do_dec, read_skey, open_file. rewrite !FA. reflexivity. }
  destruct FA as (F1 & F2 & _ & _ & F4). rewrite HP in F2, F4. right.
  destruct (le_lt_dec (length (archive_tlwe (t_n1 T) c)) room) as [L|L].
  - right. split; auto. unfold do_dec, read_skey, open_file. rewrite (F1 skey NS), F2, firstn_all2 by auto.
    rewrite write_other, write_same by auto. reflexivity.
  - left. apply (C58_dec_short T Y f' skey output c room); auto.
    destruct HK as (b & HK & HR). exists b. rewrite F1 by auto. auto.
Qed.

(** C72: a key that cannot be opened for writing stays as it is and this is reported.
    A key that did not fit is refused by every command that reads it, if the reader refuses every proper prefix
    of the archive (as cereal's does). *)
Theorem C72_genkey cap room pol opens f skey pieces r f' :
  (forall k, k < length (c_skey T Y) -> c_read_skey T Y (firstn k (c_skey T Y)) = false) ->
  concat pieces = c_skey T Y -> genkey_disk cap room pol opens f skey pieces = (r, f') ->
  (forall p, p <> skey -> f' p = f p) /\
  ((opens = false /\ r = Fail FAssert /\ f' skey = f skey) \/
   (r = Ok tt /\ f' skey = Some (c_skey T Y)) \/
   (forall bkey, do_genbkey T Y f' skey bkey = Fail FExit) /\
   (forall input cipher ap coin, do_enc T Y f' skey input cipher ap coin = Fail FExit) /\
   (forall output, do_dec T Y f' skey output = Fail FExit)).
Proof.
  intros HR HP EW. pose proof (C72_archive _ _ _ _ _ _ _ _ _ EW) as FA. destruct opens.
  2:{ destruct FA as (-> & FA). split; auto. }
  destruct FA as (F1 & F2 & _ & _ & F4). rewrite HP in F2, F4.
  split; auto. right. destruct (le_lt_dec (length (c_skey T Y)) room) as [L|L].
  - left. split; auto. rewrite F2, firstn_all2 by auto. reflexivity.
  - right. assert (X : read_skey T Y f' skey = Fail FExit).
    { unfold read_skey, open_file. rewrite F2. cbn [bind]. rewrite HR by exact L. reflexivity. }
    split; [|split]; intros; [unfold do_genbkey|unfold do_enc|unfold do_dec]; rewrite X; reflexivity.
Qed.
Theorem C72_genbkey cap room pol opens f skey bkey pieces r f' :
  (forall k, k < length (c_bkey T Y) -> c_read_bkey T Y (firstn k (c_bkey T Y)) = None) ->
  concat pieces = c_bkey T Y -> genbkey_disk cap room pol opens T Y f skey bkey pieces = (r, f') ->
  (forall p, p <> bkey -> f' p = f p) /\
  (opens = false -> (forall p, f' p = f p) /\ r <> Ok tt) /\
  (r = Ok tt -> f' bkey = Some (c_bkey T Y) \/ read_bkey T Y f' bkey = Fail FExit).
Proof.
  intros HR HP EW. unfold genbkey_disk in EW. destruct (read_skey T Y f skey) as [[]|e].
  2:{ injection EW as <- <-. split; [auto|]. split; [split; auto; discriminate|discriminate]. }
  pose proof (C72_archive _ _ _ _ _ _ _ _ _ EW) as FA. destruct opens.
  2:{ destruct FA as (-> & FA). split; auto. split; [split; auto; discriminate|discriminate]. }
  destruct FA as (F1 & F2 & _ & _ & F4). rewrite HP in F2, F4.
  split; auto. split; [discriminate|]. intros _. destruct (le_lt_dec (length (c_bkey T Y)) room) as [L|L].
  - left. rewrite F2, firstn_all2 by auto. reflexivity.
  - right. unfold read_bkey, open_file. rewrite F2. cbn [bind]. rewrite HR by exact L. reflexivity.
Qed.
End Full.

(** * C72: a specification printed to a full disk (nondeterministic input or --reversed, at most ten states):
    a plaintext run over the file fails or answers as over the complete one. *)
Theorem C72_spec2spec T (Y : crypto T) spot f coin room minimize reverse negate spec rows out ls :
  describes spec rows -> rows <> [] -> ~ deterministic rows \/ reverse = true ->
  spec2spec_with T Y spot f coin minimize reverse negate spec = Ok (Prints out) ->
  lines_of out ls -> length ls <= 10 ->
  run_fails_or_agrees (printed_disk room out) out.
Proof.
  intros HD NE HT P HL H10. eapply (C71_spec2spec T Y spot f coin minimize reverse negate spec rows out ls _ (skipn room out)); eauto.
  symmetry. apply firstn_skipn.
Qed.

(** * What is not noticed *)
(** A result or key smaller than the buffer: success is reported and the file is empty. *)
Theorem C72_reported_refuted :
  ~ (forall cap room pol f path pieces f', write_to_archive cap room pol true f path pieces = (Ok tt, f') ->
       f' path = Some (concat pieces)).
Proof.
  intros H. specialize (H 8 0 (fun _ => 0) (fun _ => None) (lit "out") [[1%N]; [2%N; 3%N]] _ eq_refl).
  vm_compute in H. discriminate.
Qed.

(** With a buffer of at least one ciphertext, enc can report success and leave a ciphertext file that is too short
    and that no run command refuses. *)
Theorem C72_buffer_refuted T (Y : crypto T) s1 bit f skey input cipher ap coin bytes n :
  crypto_ok T Y s1 bit ->
  (exists b, f skey = Some b /\ c_read_skey T Y b = true) -> f input = Some bytes -> input <> cipher ->
  each_input_bit bytes ap (fun s _ => Ok s) tt = Ok tt -> n < length (bits_passed 0 ap bytes) ->
  exists cap room pol f', enc_disk cap room pol true T Y f skey input cipher ap coin = (Ok tt, f') /\
    f' cipher = Some (enc_output T Y coin (firstn n (bits_passed 0 ap bytes))).
Proof.
  intros YO (sb & HS & RS) HI NI EB HN.
  set (out := enc_output T Y coin (bits_passed 0 ap bytes)).
  exists (length out), (n * block_size (c_words T Y)), (fun _ => 0).
  unfold enc_disk, read_skey. unfold open_file at 1. rewrite HS. cbn [bind]. rewrite RS.
  assert (OI : open_file (write f cipher []) input = Ok bytes) by (unfold open_file; rewrite write_other, HI by auto; reflexivity).
  cbn [negb]. rewrite OI. cbv zeta.
  assert (PA : forall pieces b, length b + length (concat pieces) <= length out ->
     put_all (length out) (n * block_size (c_words T Y)) (fun _ => 0) FAssert (mkOfile [] b) pieces = (mkOfile [] (b ++ concat pieces), Ok tt)).
  { induction pieces as [|d pieces IH]; intros b L; cbn [put_all concat] in *; [rewrite app_nil_r; reflexivity|].
    rewrite app_length in L. unfold sputn. destruct d as [|x d].
    - cbn [length Nat.eqb app]. rewrite IH; auto.
    - cbn [o_file o_buf]. rewrite !app_length.
      replace (Nat.max (length b + length (x :: d) - length out) (Nat.min 0 (length b + length (x :: d)))) with 0 by lia.
      cbn [length Nat.add Nat.leb firstn skipn app]. rewrite Nat.eqb_refl.
      rewrite IH by (rewrite app_length; cbn [length] in *; lia). rewrite <- app_assoc. reflexivity. }
  rewrite PA by (rewrite doubles_output; apply le_n). rewrite EB. eexists. split; [reflexivity|].
  rewrite write_same. unfold close. cbn [o_file o_buf app length]. rewrite Nat.sub_0_r, doubles_output.
  f_equal. apply (enc_output_firstn T Y s1 bit YO). lia.
Qed.

(** * The hypotheses are met: the example of C58; a ciphertext has one double here.  enc with room for two and a half
    of six ciphertexts: with no buffer it fails; with a buffer of 40 bytes it reports success, the file has 20 bytes. *)
Example C72_enc_nonvacuous :
  (let '(r, f') := enc_disk 0 20 (fun _ => 0) true ex_T ex_Y ex_f ["k"%char] ["i"%char] ["c"%char] 2 0 in
   r = Fail FAssert /\ option_map (@length N) (f' ["c"%char]) = Some 20) /\
  (let '(r, f') := enc_disk 40 20 (fun _ => 0) true ex_T ex_Y ex_f ["k"%char] ["i"%char] ["c"%char] 2 0 in
   r = Ok tt /\ option_map (@length N) (f' ["c"%char]) = Some 20) /\
  (let '(r, f') := enc_disk 7 47 (fun _ => 0) true ex_T ex_Y ex_f ["k"%char] ["i"%char] ["c"%char] 2 0 in
   r = Ok tt /\ option_map (@length N) (f' ["c"%char]) = Some 47) /\
  (let '(r, f') := enc_disk 7 48 (fun n => n / 3) true ex_T ex_Y ex_f ["k"%char] ["i"%char] ["c"%char] 2 0 in
   r = Ok tt /\ option_map (@length N) (f' ["c"%char]) = Some 48).
Proof. vm_compute. auto 10. Qed.
Example C72_archive_nonvacuous :
  fst (write_to_archive 2 4 (fun _ => 0) true (fun _ => None) (lit "o") [[1%N; 2%N]; [3%N; 4%N; 5%N; 6%N]; [7%N]]) = Fail FExit /\
  fst (write_to_archive 3 4 (fun _ => 0) true (fun _ => None) (lit "o") [[1%N; 2%N]; [3%N; 4%N; 5%N; 6%N]; [7%N]]) = Ok tt /\
  fst (write_to_archive 0 7 (fun _ => 0) true (fun _ => None) (lit "o") [[1%N; 2%N]; [3%N; 4%N; 5%N; 6%N]; [7%N]]) = Ok tt.
Proof. vm_compute. auto. Qed.
(** A file that cannot be opened: enc and genkey fail and leave it as it is; with a bad key enc fails before that. *)
Example C72_opens_nonvacuous :
  (let '(r, f') := enc_disk 40 48 (fun _ => 0) false ex_T ex_Y ex_f ["k"%char] ["i"%char] ["i"%char] 2 0 in
   r = Fail FAssert /\ f' ["i"%char] = ex_f ["i"%char] /\ f' ["i"%char] <> None) /\
  fst (enc_disk 40 48 (fun _ => 0) false ex_T ex_Y ex_f ["i"%char] ["i"%char] ["c"%char] 2 0) = Fail FExit /\
  fst (genkey_disk 3 4 (fun _ => 0) false (fun _ => None) (lit "o") [[1%N; 2%N]]) = Fail FAssert.
Proof. vm_compute. repeat split. discriminate. Qed.
Print Assumptions C72_enc.
Print Assumptions C72_enc_room.
Print Assumptions C72_archive.
Print Assumptions C72_dec.
Print Assumptions C72_genkey.
Print Assumptions C72_genbkey.
Print Assumptions C72_spec2spec.
Print Assumptions C72_reported_refuted.
Print Assumptions C72_buffer_refuted.
