(** Proofs about writing to a disk that can be full. *)
From Coq Require Import List Arith Bool NArith ZArith Ascii Lia.
Import ListNotations.
From Verif Require Import Base BaseFacts GraphModel TextModel BitsModel TorusModel StreamModel RunnerModel ClientModel CmdModel CmdSpec
  StreamFacts CmdFacts CrashModel CrashFacts DiskModel.

Section Disk.
Context (cap room : nat) (pol : nat -> nat).
Notation sputn := (sputn cap room pol).
Notation put_all := (put_all cap room pol).
Notation close := (close room).

(** Everything handed over is in the file or in the buffer. *)
Definition holds (o : ofile) (sent : list N) : Prop :=
  o_file o ++ o_buf o = sent /\ length (o_file o) <= room /\ length (o_buf o) <= cap.

Lemma firstn_len_app {A} (a b : list A) n : firstn (length a + n) (a ++ b) = a ++ firstn n b.
Proof. apply firstn_app_2. Qed.

Lemma sputn_step o sent d o' n : holds o sent -> sputn o d = (o', n) ->
  (n = length d /\ holds o' (sent ++ d)) \/
  (n <> length d /\ o_file o' = firstn room (sent ++ d) /\ o_buf o' = [] /\ room < length (sent ++ d)).
Proof.
  intros (H1 & H2 & H3) E. unfold DiskModel.sputn in E. destruct d as [|x d].
  { injection E as <- <-. left. split; auto. rewrite app_nil_r. split; auto. }
  cbv zeta in E. set (all := o_buf o ++ x :: d) in *.
  set (k := Nat.max (length all - cap) (Nat.min (pol (length (o_file o) + length all)) (length all))) in *.
  assert (KL : k <= length all) by (unfold k; lia).
  assert (KC : length all - k <= cap) by (unfold k; lia). clearbody k.
  assert (SA : sent ++ x :: d = o_file o ++ all) by (rewrite <- H1, <- app_assoc; reflexivity).
  destruct (Nat.leb_spec (length (o_file o) + k) room) as [L|L]; injection E as <- <-.
  - left. split; auto. split; [|split]; cbn [o_file o_buf].
    + rewrite <- app_assoc, firstn_skipn. congruence.
    + rewrite app_length, firstn_length. lia.
    + rewrite skipn_length. lia.
  - right. split; [discriminate|]. cbn [o_file o_buf]. split; [|split; auto].
    + rewrite SA. replace room with (length (o_file o) + (room - length (o_file o))) at 2 by lia.
      rewrite firstn_len_app. reflexivity.
    + rewrite SA, app_length. lia.
Qed.

Lemma put_all_spec e pieces : forall o sent o' r, holds o sent -> put_all e o pieces = (o', r) ->
  (r = Ok tt /\ holds o' (sent ++ concat pieces)) \/
  (r = Fail e /\ o_file o' = firstn room (sent ++ concat pieces) /\ o_buf o' = [] /\ room < length (sent ++ concat pieces)).
Proof.
  induction pieces as [|d pieces IH]; intros o sent o' r H E; cbn [DiskModel.put_all concat] in *.
  - injection E as <- <-. left. rewrite app_nil_r. auto.
  - destruct (DiskModel.sputn cap room pol o d) as [o1 n] eqn:E1.
    destruct (sputn_step o sent d o1 n H E1) as [[-> H1]|(NE & HF & HB & HL)].
    + rewrite Nat.eqb_refl in E. destruct (IH o1 (sent ++ d) o' r H1 E) as [G|G]; rewrite app_assoc; auto.
    + destruct (Nat.eqb_spec n (length d)); [contradiction|]. injection E as <- <-. right.
      rewrite app_assoc, (firstn_app room (sent ++ d)).
      replace (room - length (sent ++ d)) with 0 by lia. rewrite firstn_O, app_nil_r. repeat split; auto.
      rewrite app_length. lia.
Qed.

Lemma close_spec o sent : holds o sent -> close o = firstn room sent /\ length sent - room <= cap.
Proof.
  intros (H1 & H2 & H3). unfold DiskModel.close. rewrite <- H1. split.
  - replace room with (length (o_file o) + (room - length (o_file o))) at 2 by lia. rewrite firstn_len_app. reflexivity.
  - rewrite app_length. lia.
Qed.
Lemma holds_nil : holds (mkOfile [] []) [].
Proof. repeat split; cbn; lia. Qed.

(** The three ways in which writing a whole file can end. *)
Lemma whole e pieces o r : put_all e (mkOfile [] []) pieces = (o, r) ->
  let bytes := concat pieces in
  (r = Ok tt /\ close o = firstn room bytes /\ length bytes - room <= cap /\ (exists k, o_file o = firstn k bytes) /\ holds o bytes) \/
  (r = Fail e /\ o_file o = firstn room bytes /\ close o = firstn room bytes /\ room < length bytes).
Proof.
  intros E. destruct (put_all_spec e pieces _ [] o r holds_nil E) as [[-> H]|(-> & HF & HB & HL)]; cbn [app] in *.
  - left. split; auto. destruct (close_spec _ _ H) as [A B]. split; auto. split; auto. split; auto.
    destruct H as (H & _). exists (length (o_file o)). rewrite <- H, firstn_app, firstn_all, Nat.sub_diag, firstn_O, app_nil_r. reflexivity.
  - right. split; auto. split; auto. split; auto. unfold DiskModel.close. rewrite HB, firstn_nil, app_nil_r. auto.
Qed.

(** With room for everything nothing fails. *)
Lemma put_all_room e pieces o r : put_all e (mkOfile [] []) pieces = (o, r) -> length (concat pieces) <= room ->
  r = Ok tt /\ close o = concat pieces.
Proof.
  intros E L. destruct (whole e pieces o r E) as [(-> & H & _)|(_ & _ & _ & H)]; [|lia].
  split; auto. rewrite H. apply firstn_all2. auto.
Qed.
End Disk.

Lemma doubles_output T (Y : crypto T) bits : forall coin, concat (doubles T Y coin bits) = enc_output T Y coin bits.
Proof.
  induction bits as [|b bits IH]; intros coin; cbn [doubles enc_output]; [reflexivity|].
  rewrite concat_app, IH. reflexivity.
Qed.
