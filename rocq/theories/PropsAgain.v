(** C59: a session whose commands are killed, any number of times and at any moments, and run
    again until they finish, gives the right answer.

    [enc_left T Y … f'], [run_left T Y c f f'], …: as in PropsCrash.v. *)
From Coq Require Import List Arith Bool NArith ZArith Ascii Lia.
Import ListNotations.
From Verif Require Import Base BaseFacts GraphModel Spec GraphFacts TextModel BitsModel TorusModel TfheSpec
  RunnerModel RunnerSpec RunnerFacts LookupFacts ReachFacts PropsRunner ParModel StreamModel InputSpec PropsText PropsInput
  ClientModel CmdModel CmdSpec CmdFacts PropsCmd CrashModel CrashFacts PropsCrash.

(** Any number of attempts, each of which may be killed. *)
Inductive tries (left : fs -> fs -> Prop) : fs -> fs -> Prop :=
| no_more f : tries left f f
| one_more f f' f'' : left f f' -> tries left f' f'' -> tries left f f''.

Lemma tries_keep (left : fs -> fs -> Prop) (Inv : fs -> Prop) (own : text) f f' :
  (forall a b, Inv a -> left a b -> forall p, p <> own -> b p = a p) ->
  (forall a b, Inv a -> (forall p, p <> own -> b p = a p) -> Inv b) ->
  tries left f f' -> Inv f -> Inv f' /\ forall p, p <> own -> f' p = f p.
Proof.
  intros H1 H2 H. induction H as [f|f f' f'' L _ IH]; intros I; [auto|].
  pose proof (H1 _ _ I L) as K. destruct IH as (I' & K'); [eapply H2; eauto|]. split; [exact I'|].
  intros p P. rewrite K', K; auto.
Qed.

Section Again.
Context (T : tfhe) (s0 s1 : list Z) (bit : trgsw T -> bool -> Prop) (E : noise) (Y : crypto T).
Hypothesis OK : tfhe_ok T s0 s1 bit E.
Hypothesis NN : noise_nonneg E.
Hypothesis YO : crypto_ok T Y s1 bit.
Notation words := (c_words T Y).

(** The session genkey, genbkey, enc, run, dec started with the files f0: before each command is
    run to its end it is attempted in vain any number of times; every command then succeeds, and
    dec prints the verdict.  [cmd f] is the run command started with the files f; every attempt at
    enc draws its own random numbers. *)
Definition session_right (cmd : fs -> res command) (f0 : fs) (skey bkey input cipher output : text) (ap : nat) (verdict : bool) : Prop :=
  forall a1, tries (fun f => genkey_left T Y f skey) f0 a1 ->
  exists f1, do_genkey T Y a1 skey = Ok f1 /\
  forall a2, tries (fun f => genbkey_left T Y f skey bkey) f1 a2 ->
  exists f2, do_genbkey T Y a2 skey bkey = Ok f2 /\
  forall a3 coin, tries (fun f f' => exists coin, enc_left T Y f skey input cipher ap coin f') f2 a3 ->
  exists f3, do_enc T Y a3 skey input cipher ap coin = Ok f3 /\
  forall a4, tries (fun f f' => run_left T Y (cmd f) f f') f3 a4 ->
  exists f4, run_ends T Y (cmd a4) a4 (Ok f4) /\
  do_dec T Y f4 skey output = Ok (answer verdict).

Lemma session cmd f0 skey bkey spec input cipher output ap g vals blocks :
  NoDup [skey; bkey; cipher; output] -> (forall p, In p [spec; input] -> ~ In p [skey; bkey; cipher; output]) ->
  f0 input = Some (concat blocks) -> Forall2 (packs ap) vals blocks -> 0 < ap ->
  from_file f0 spec = Ok g ->
  (forall f coin, keys_at Y f skey bkey -> f cipher = Some (enc_output T Y coin (concat vals)) -> from_file f spec = Ok g ->
     (exists f2 b, run_ends T Y (cmd f) f (Ok f2) /\ accepts g (concat vals) = Ok b /\ do_dec T Y f2 skey output = Ok (answer b)) /\
     (forall f', run_left T Y (cmd f) f f' -> out_left T Y f skey output g (concat vals) f')) ->
  exists b, accepts g (concat vals) = Ok b /\ session_right cmd f0 skey bkey input cipher output ap b.
Proof.
  intros ND NS HI HP H0 EG HC.
  assert (NK : skey <> bkey /\ skey <> cipher /\ skey <> output /\ bkey <> cipher /\ bkey <> output /\ cipher <> output).
  { repeat match goal with H : NoDup (_ :: _) |- _ => apply NoDup_cons_iff in H as (? & H) end. cbn [In] in *. intuition. }
  destruct NK as (N1 & N2 & N3 & N4 & N5 & N6).
  assert (NI : input <> skey /\ input <> bkey /\ input <> cipher /\ input <> output).
  { pose proof (NS input ltac:(cbn; auto)) as H. cbn [In] in H. intuition. }
  assert (NP : spec <> skey /\ spec <> bkey /\ spec <> cipher /\ spec <> output).
  { pose proof (NS spec ltac:(cbn; auto)) as H. cbn [In] in H. intuition. }
  set (bits := concat vals) in *.
  assert (HB : exists b, accepts g bits = Ok b).
  { set (f := write (write (write f0 skey (c_skey T Y)) bkey (c_bkey T Y)) cipher (enc_output T Y 0 bits)).
    destruct (HC f 0) as ((f2 & b & _ & A & _) & _); eauto.
    - split; eexists; (split; [|]).
      + unfold f. rewrite write_other, write_other, write_same by auto. reflexivity.
      + apply (y_skey _ _ _ _ YO).
      + unfold f. rewrite write_other, write_same by auto. reflexivity.
      + apply (y_bkey _ _ _ _ YO).
    - apply write_same.
    - rewrite <- EG. apply from_file_eq. unfold f. rewrite !write_other by intuition. reflexivity. }
  destruct HB as (b & HB). exists b. split; [exact HB|].
  intros a1 T1.
  destruct (fun H => tries_keep _ (fun _ => True) skey _ _ H (fun _ _ _ _ => I) T1 I) as (_ & K1).
  { intros x y _ L. destruct L as [L|(k & L)]; intros p P; rewrite L; [reflexivity|apply write_other; exact P]. }
  eexists. split; [reflexivity|]. set (f1 := write a1 skey (c_skey T Y)). intros a2 T2.
  assert (F1 : f1 skey = Some (c_skey T Y)) by apply write_same.
  assert (O1 : forall p, p <> skey -> f1 p = f0 p) by (intros p P; unfold f1; rewrite write_other; auto).
  clearbody f1. clear T1 K1.
  destruct (fun H => tries_keep _ (fun _ => True) bkey _ _ H (fun _ _ _ _ => I) T2 I) as (_ & K2).
  { intros x y _ L. destruct L as [L|(_ & k & L)]; intros p P; rewrite L; [reflexivity|apply write_other; exact P]. }
  exists (write a2 bkey (c_bkey T Y)). split.
  { unfold do_genbkey, read_skey, open_file. rewrite K2, F1 by auto. cbn [bind]. rewrite (y_skey _ _ _ _ YO). reflexivity. }
  set (f2 := write a2 bkey (c_bkey T Y)). intros a3 coin T3.
  assert (F2 : f2 skey = Some (c_skey T Y) /\ f2 bkey = Some (c_bkey T Y)).
  { unfold f2. rewrite write_same, write_other, K2 by auto. auto. }
  assert (O2 : forall p, p <> skey -> p <> bkey -> f2 p = f0 p) by (intros p P Q; unfold f2; rewrite write_other, K2; auto).
  clearbody f2. clear T2 K2.
  assert (HW : forall S (func : S -> bool -> res S) s, each_input_bit (concat blocks) ap func s = foldM func bits s)
    by (intros; apply C20_input_decoding; auto).
  destruct (fun H => tries_keep _ (fun _ => True) cipher _ _ H (fun _ _ _ _ => I) T3 I) as (_ & K3).
  { intros x y _ L. destruct L as (c & [L|(_ & [L|(i & _ & k & L)])]); intros p P; rewrite L; [reflexivity|apply write_other; exact P|apply write_other; exact P]. }
  exists (write (write a3 cipher []) cipher (ct_file T Y coin bits)). split.
  { eapply do_enc_ok; [rewrite K3 by auto; apply F2|apply (y_skey _ _ _ _ YO)|apply NI| |exact HW].
    rewrite K3, O2 by apply NI. exact HI. }
  set (f3 := write (write a3 cipher []) cipher (ct_file T Y coin bits)). intros a4 T4.
  assert (F3 : keys_at Y f3 skey bkey /\ f3 cipher = Some (enc_output T Y coin bits) /\ from_file f3 spec = Ok g).
  { unfold f3. split; [|split].
    - split; eexists; rewrite !write_other, K3 by auto; (split; [apply F2|apply YO]).
    - rewrite write_same, enc_output_file. reflexivity.
    - rewrite <- EG. apply from_file_eq. rewrite !write_other, K3, O2 by intuition. reflexivity. }
  destruct (tries_keep (fun f f' => run_left T Y (cmd f) f f') (fun f => keys_at Y f skey bkey /\ f cipher = Some (enc_output T Y coin bits) /\ from_file f spec = Ok g)
              output f3 a4) as ((H1 & H2 & H3) & _); auto.
  - intros x y (H1 & H2 & H3) L. apply (proj2 (HC x coin H1 H2 H3) y L).
  - intros x y (((s & H1 & HR) & H1') & H2 & H3) K. split; [split|split].
    + exists s. rewrite K by auto. auto.
    + destruct H1' as (bb & B1 & B2). exists bb. rewrite K by auto. auto.
    + rewrite K by auto. exact H2.
    + rewrite <- H3. apply from_file_eq. apply K. apply NP.
  - destruct (HC a4 coin H1 H2 H3) as ((f4 & v & R & A & D) & _). exists f4. split; [exact R|].
    rewrite HB in A. injection A as <-. exact D.
Qed.

(** ** C59, one theorem for each mode. *)
Theorem C59_offline f0 skey bkey spec input cipher output ap interval g vals blocks :
  NoDup [skey; bkey; cipher; output] -> (forall p, In p [spec; input] -> ~ In p [skey; bkey; cipher; output]) ->
  f0 input = Some (concat blocks) -> Forall2 (packs ap) vals blocks -> 0 < ap ->
  from_file f0 spec = Ok g -> 0 < size g -> 0 < interval -> back_margin E interval ->
  (Z.of_nat (length (concat vals)) < 2 ^ 31)%Z -> (Z.of_nat (length (concat vals) * (words * 8)) < 2 ^ 64)%Z ->
  exists b, accepts g (concat vals) = Ok b /\
    session_right (fun f => do_run_offline T Y f spec cipher output interval bkey false) f0 skey bkey input cipher output ap b.
Proof.
  intros ND NS HI HP H0 EG SG HI0 HM L31 L64. eapply session; eauto. intros f coin HK FC EG'.
  apply (C58_offline T s0 s1 bit E Y OK NN YO f skey bkey spec cipher output interval g coin); auto.
  inversion ND as [|? ? NI _]; subst. cbn [In] in NI. intuition.
Qed.
Theorem C59_reverse f0 skey bkey spec input cipher output ap freq interval g vals blocks :
  NoDup [skey; bkey; cipher; output] -> (forall p, In p [spec; input] -> ~ In p [skey; bkey; cipher; output]) ->
  f0 input = Some (concat blocks) -> Forall2 (packs ap) vals blocks -> 0 < ap ->
  from_file f0 spec = Ok g -> 0 < size g -> 0 < interval -> back_margin E interval ->
  (Z.of_nat (length (concat vals) * (words * 8)) < 2 ^ 64)%Z ->
  exists b, accepts g (concat vals) = Ok b /\
    session_right (fun f => do_run_reverse T Y f spec cipher (Some output) None freq interval false bkey false)
      f0 skey bkey input cipher output ap b.
Proof.
  intros ND NS HI HP H0 EG SG HI0 HM L64. eapply session; eauto. intros f coin HK FC EG'.
  apply (C58_reverse T s0 s1 bit E Y OK NN YO f skey bkey spec cipher output freq interval g coin); auto.
  inversion ND as [|? ? NI _]; subst. cbn [In] in NI. intuition.
Qed.
Theorem C59_flut f0 skey bkey spec input cipher output ap freq queue_size interval max_depth g vals blocks :
  NoDup [skey; bkey; cipher; output] -> (forall p, In p [spec; input] -> ~ In p [skey; bkey; cipher; output]) ->
  f0 input = Some (concat blocks) -> Forall2 (packs ap) vals blocks -> 0 < ap ->
  from_file f0 spec = Ok g -> 0 < size g ->
  0 < queue_size < 31 -> 0 < interval -> max_depth < 31 -> table_fits (t_n1 T) max_depth queue_size g ->
  flut_margin (size g * 2 ^ (queue_size / 2)) queue_size interval E ->
  (forall n k, In n (flushes queue_size 0 0 (asked None 0 (concat vals))) -> width g n k -> k < 2 ^ max_depth) ->
  (Z.of_nat (length (concat vals) * (words * 8)) < 2 ^ 64)%Z ->
  exists b, accepts g (concat vals) = Ok b /\
    session_right (fun f => do_run_flut T Y f spec cipher (Some output) None freq queue_size interval bkey (Some max_depth) None false)
      f0 skey bkey input cipher output ap b.
Proof.
  intros ND NS HI HP H0 EG SG HQ HI0 HD HDN HM HW L64. eapply session; eauto. intros f coin HK FC EG'.
  apply (C58_flut T s0 s1 bit E Y OK NN YO f skey bkey spec cipher output freq queue_size interval max_depth g coin); auto.
  inversion ND as [|? ? NI _]; subst. cbn [In] in NI. intuition.
Qed.
Theorem C59_block f0 skey bkey spec input cipher output ap queue_size g vals blocks :
  NoDup [skey; bkey; cipher; output] -> (forall p, In p [spec; input] -> ~ In p [skey; bkey; cipher; output]) ->
  f0 input = Some (concat blocks) -> Forall2 (packs ap) vals blocks -> 0 < ap ->
  from_file f0 spec = Ok g -> 0 < size g -> concat vals <> [] ->
  block_margin g queue_size E -> Nat.log2 (size g) + 1 < t_n1 T -> Nat.log2 (size g) + 1 < 31 ->
  (Z.of_nat (length (concat vals) * (words * 8)) < 2 ^ 64)%Z ->
  exists b, accepts g (concat vals) = Ok b /\
    session_right (fun f => do_run_block T Y f spec cipher output queue_size bkey false) f0 skey bkey input cipher output ap b.
Proof.
  intros ND NS HI HP H0 EG SG NE HM HL1 HL2 L64. eapply session; eauto. intros f coin HK FC EG'.
  apply (C58_block T s0 s1 bit E Y OK NN YO f skey bkey spec cipher output queue_size g coin); auto.
  inversion ND as [|? ? NI _]; subst. cbn [In] in NI. intuition.
Qed.
End Again.

(** * The hypotheses are met; attempts that leave something behind exist. *)
Definition ex_start : fs := write (write (fun _ => None) ["s"%char] (map N_of_ascii ex_spec2)) ["i"%char] [1; 2; 1]%N.
Example ex_start_spec : from_file ex_start ["s"%char] = Ok ex_g.
Proof. vm_compute. reflexivity. Qed.
Example C59_nonvacuous :
  session_right ex_T ex_Y (fun f => do_run_reverse ex_T ex_Y f ["s"%char] ["c"%char] (Some ["o"%char]) None 1 2 false ["b"%char] false)
    ex_start ["k"%char] ["b"%char] ["i"%char] ["c"%char] ["o"%char] 2 true.
Proof.
  destruct ex_contract as (H1 & H2). destruct ex_margins as (M1 & _). destruct ex_from_file as (_ & _ & SG).
  edestruct (C59_reverse ex_T _ _ _ _ ex_Y H1 H2 ex_crypto ex_start ["k"%char] ["b"%char] ["s"%char] ["i"%char] ["c"%char] ["o"%char] 2 1 2 ex_g
               [[true; false]; [false; true]; [true; false]] [[1]; [2]; [1]]%N) as (b & A & S);
    [repeat constructor; cbn; intuition discriminate|cbn; intuition (subst; intuition discriminate)
    |vm_compute; reflexivity|exact ex_packs|lia|exact ex_start_spec|rewrite SG; lia|lia|exact M1|vm_compute; reflexivity|].
  vm_compute in A. injection A as <-. exact S.
Qed.
(** Two attempts at enc: the first is killed in the middle of a ciphertext, the second, with other
    random numbers, after the first ciphertext. *)
Example C59_tries :
  tries (fun f f' => exists coin, enc_left ex_T ex_Y f ["k"%char] ["i"%char] ["c"%char] 2 coin f') ex_f
    (write ex_torn ["c"%char] (enc_output ex_T ex_Y 5 [true])).
Proof.
  apply one_more with (f' := ex_torn); [exists 0; exact (proj1 C58_enc_torn)|].
  eapply one_more with (f' := write ex_torn ["c"%char] (enc_output ex_T ex_Y 5 [true])); [|apply no_more].
  exists 5. right. split; [vm_compute; reflexivity|]. right. eexists. split; [vm_compute; reflexivity|].
  exists 8. intros q. f_equal.
Qed.

Print Assumptions C59_offline.
Print Assumptions C59_reverse.
Print Assumptions C59_flut.
Print Assumptions C59_block.
