(** The benchmark program with its output: lemmas. *)
From Coq Require Import String.
From Coq Require Import List Arith Bool NArith ZArith Ascii Lia.
Import ListNotations.
From Verif Require Import Base BaseFacts GraphModel TextModel DotModel BitsModel TorusModel RunnerModel ParModel StreamModel
  ClientModel CmdModel TimeModel MainModel BenchModel BenchOutModel.
Local Open Scope list_scope.

(** The outcome of a computation, with its lines if there is no failure. *)
Definition ends {A} (m : traced A) (out : list line) : res (list line * A) :=
  let '(o, r) := m out in do a <- r; Ok (o, a).
Lemma ends_bind {A B} (m : traced A) (k : A -> traced B) out :
  ends (tbind m k) out = (do '(o, a) <- ends m out; ends (k a) o).
Proof. unfold ends, tbind. destruct (m out) as [o [a|e]]; reflexivity. Qed.
Lemma ends_res {A} (r : res A) out : ends (tres r) out = (do a <- r; Ok (out, a)).
Proof. destruct r; reflexivity. Qed.
Lemma ends_ret {A} (a : A) out : ends (tret a) out = Ok (out, a).
Proof. reflexivity. Qed.
Lemma ends_say k v out : ends (say k v) out = Ok (print k v out, tt).
Proof. reflexivity. Qed.
Lemma ends_elapsed c k out : ends (say_elapsed c k) out = Ok (print_elapsed c k out, tt).
Proof. reflexivity. Qed.
Lemma ends_lines out : ends lines_so_far out = Ok (out, length out).
Proof. reflexivity. Qed.
Lemma bind_res {A B C} (r : res A) (f : A -> res B) (k : B -> res C) : (do b <- (do a <- r; f a); k b) = (do a <- r; do b <- f a; k b).
Proof. destruct r; reflexivity. Qed.

Section Loops.
Context {S S2 : Type} (pack : S -> list line -> S2).
Lemma fold_ends {A} (func : S -> A -> traced S) (func2 : S2 -> A -> res S2) :
  (forall s b out, func2 (pack s out) b = (do '(o, s') <- ends (func s b) out; Ok (pack s' o))) ->
  forall l s out, foldM func2 l (pack s out) = (do '(o, s') <- ends (tfoldM func l s) out; Ok (pack s' o)).
Proof.
  intros H. induction l as [|a l IH]; intros s out; cbn [foldM tfoldM]; [reflexivity|].
  rewrite H, ends_bind, !bind_res. destruct (ends (func s a) out) as [[o s']|e]; cbn [bind]; [apply IH|reflexivity].
Qed.
Lemma each_bit_ends (func : S -> bool -> traced S) (func2 : S2 -> bool -> res S2) ap :
  (forall s b out, func2 (pack s out) b = (do '(o, s') <- ends (func s b) out; Ok (pack s' o))) ->
  forall bytes s out, each_input_bit bytes ap func2 (pack s out) = (do '(o, s') <- ends (each_bit bytes ap func s) out; Ok (pack s' o)).
Proof.
  intros H. unfold each_input_bit, each_bit. generalize 0 as n.
  intros n bytes. revert n. induction bytes as [|v bytes IH]; intros n s out; cbn [each_input_bit_from each_bit_from].
  - rewrite ends_res. unfold assert_. destruct (n =? 0); reflexivity.
  - destruct (byte_bits 8 v _) as [bs r]. rewrite (fold_ends func func2 H), ends_bind, !bind_res.
    destruct (ends (tfoldM func bs s) out) as [[o s']|e]; cbn [bind]; [apply IH|reflexivity].
Qed.
End Loops.

(** The bits of a file and the number of bits that are missing at its end. *)
Fixpoint file_bits (rest ap : nat) (bytes : list N) : list bool * nat :=
  match bytes with
  | [] => ([], rest)
  | v :: bytes' =>
      let '(bs, rest') := byte_bits 8 v (if rest =? 0 then ap else rest) in
      let '(bs', r) := file_bits rest' ap bytes' in (bs ++ bs', r)
  end.
Lemma foldM_cat {A S} (f : S -> A -> res S) a b : forall s, foldM f (a ++ b) s = (do s' <- foldM f a s; foldM f b s').
Proof. induction a as [|x a IH]; intros s; cbn [app foldM bind]; [reflexivity|]. rewrite bind_res. destruct (f s x); cbn [bind]; auto. Qed.
Lemma file_bits_fold {S} ap (func : S -> bool -> res S) : forall bytes n s,
  each_input_bit_from n ap func bytes s =
  (do s' <- foldM func (fst (file_bits n ap bytes)) s; assert_ (snd (file_bits n ap bytes) =? 0) (Ok s')).
Proof.
  induction bytes as [|v bytes IH]; intros n s; cbn [each_input_bit_from file_bits]; [reflexivity|].
  destruct (byte_bits 8 v _) as [bs r]. specialize (IH r). destruct (file_bits r ap bytes) as [bs' r'] eqn:E. cbn [fst snd] in *.
  rewrite foldM_cat, bind_res. destruct (foldM func bs s); cbn [bind]; [apply IH|reflexivity].
Qed.
Lemma tfoldM_cat {A S} (f : S -> A -> traced S) a b : forall s out, tfoldM f (a ++ b) s out = tbind (tfoldM f a s) (fun s' => tfoldM f b s') out.
Proof.
  induction a as [|x a IH]; intros s out; cbn [app tfoldM]; [reflexivity|]. unfold tbind in *.
  destruct (f s x out) as [o [s'|e]]; [apply IH|reflexivity].
Qed.
Lemma file_bits_tfold {S} ap (func : S -> bool -> traced S) : forall bytes n s out,
  each_bit_from n ap func bytes s out =
  tbind (tfoldM func (fst (file_bits n ap bytes)) s) (fun s' => tres (assert_ (snd (file_bits n ap bytes) =? 0) (Ok s'))) out.
Proof.
  induction bytes as [|v bytes IH]; intros n s out; cbn [each_bit_from file_bits]; [reflexivity|].
  destruct (byte_bits 8 v _) as [bs r]. specialize (IH r). destruct (file_bits r ap bytes) as [bs' r'] eqn:E. cbn [fst snd] in *.
  unfold tbind in *. rewrite tfoldM_cat. unfold tbind. destruct (tfoldM func bs s out) as [o [s'|e]]; [apply IH|reflexivity].
Qed.
(** On a file that holds the word w the loop is a loop over w. *)
Lemma each_bit_word {S} bytes ap w (func : S -> bool -> traced S) :
  (forall S' (func' : S' -> bool -> res S') s, each_input_bit bytes ap func' s = foldM func' w s) ->
  forall s out, each_bit bytes ap func s out = tfoldM func w s out.
Proof.
  intros HB s out. unfold each_bit. rewrite file_bits_tfold.
  specialize (HB _ (fun v b => Ok (v ++ [b])) []). unfold each_input_bit in HB. rewrite file_bits_fold in HB.
  assert (G : forall l v, foldM (fun v (b : bool) => Ok (v ++ [b])) l v = Ok (v ++ l)).
  { induction l as [|x l IH]; intros v; cbn [foldM bind]; [rewrite app_nil_r; reflexivity|]. rewrite IH, <- app_assoc. reflexivity. }
  rewrite !G in HB. cbn [bind app] in HB. unfold assert_ in *. destruct (snd (file_bits 0 ap bytes) =? 0); [|discriminate].
  injection HB as ->. unfold tbind, tres. destruct (tfoldM func w s out) as [o [s'|e]]; reflexivity.
Qed.

(** * The two models of the program agree. *)
Ltac follow := repeat (rewrite ?ends_bind, ?ends_res, ?ends_say, ?ends_elapsed, ?ends_lines, ?ends_ret, ?bind_res; cbn [bind]).
Ltac next := match goal with |- (do x <- ?r; _) = _ => destruct r; cbn [bind]; [follow|reflexivity] end.

Lemma plain_ends f spec input freq ap out : do_plain f spec input freq ap out = ends (do_plain_t f spec input freq ap) out.
Proof.
  unfold do_plain, do_plain_t. follow. next. next. next. 
  rewrite (each_bit_ends (fun s o => (s, o)) (fun '(cur, i) b =>
       tdo cur <- tres (next_state a cur b);
       say "state" (show_nat cur);;
       let i := S i in
       if freq =? 0 then tres (Fail FUndefined)
       else if i mod freq =? 0 then
         tdo final <- tres (is_final_state a cur);
         (if final : bool then say "result" (lit "1") else say "result" (lit "0"));;
         tret (cur, i)
       else tret (cur, i))).
  - rewrite bind_res. match goal with |- _ = (do '(o, a) <- ?r; _) => destruct r as [[o [q i]]|e] end; reflexivity.
  - intros [cur i] b o. follow. next. destruct (freq =? 0); [reflexivity|]. destruct (_ =? 0); [|reflexivity]. follow. next.
    destruct a3; reflexivity.
Qed.
Section Cipher.
Context (T : tfhe) (Y : crypto T) (clock : nat -> text) (times : nat -> Z).
Lemma offline_ends f spec input interval ap san out :
  do_offline T Y clock f spec input interval ap san out = ends (do_offline_t T Y clock f spec input interval ap san) out.
Proof.
  unfold do_offline, do_offline_t. follow. next. next. next.
  match goal with |- context [tfoldM ?F _ _] => rewrite (fold_ends (fun s o => (s, o)) F) end.
  - rewrite bind_res. match goal with |- _ = (do '(o, a) <- ?r; _) => destruct r as [[o q]|e] end; reflexivity.
  - intros r b o. follow. next. reflexivity.
Qed.
Lemma loop_ends {R} (run : R -> trgsw T -> list line -> res (bool * R * list line)) (step : R -> trgsw T -> traced (bool * R)) result :
  (forall r c o, run r c o = (do '(o', (b, r')) <- ends (step r c) o; Ok (b, r', o'))) ->
  forall input ap r out, enc_run_dec_loop T Y clock run result input ap r out =
    (do '(o, r') <- ends (each_bit input ap (enc_run_dec T Y clock step result) r) out; Ok (r', o)).
Proof.
  intros H input ap r out. unfold enc_run_dec_loop.
  apply (each_bit_ends (fun s o => (s, o)) (enc_run_dec T Y clock step result)).
  intros r0 b o. unfold enc_run_dec. follow. rewrite H, bind_res.
  match goal with |- bind ?r _ = _ => destruct r as [[o' [x r']]|e] end; cbn [bind]; [|reflexivity]. follow.
  destruct x; [|reflexivity]. follow. next. reflexivity.
Qed.
Lemma reversed_ends f spec input freq interval ap sr san out :
  do_reversed T Y clock times f spec input freq interval ap sr san out =
  ends (do_reversed_t T Y clock times f spec input freq interval ap sr san) out.
Proof.
  unfold do_reversed, do_reversed_t. follow. next. next. next. next.
  rewrite (loop_ends (bench2_run T) (bench2_step T)), bind_res.
  - match goal with |- _ = (do '(o, a) <- ?r; _) => destruct r as [[o q]|e] end; reflexivity.
  - intros r c o. unfold bench2_run, bench2_step. follow. destruct (bench_run _ _ _ _ _) as [[? ?]|]; reflexivity.
Qed.
Lemma qtrlwe2_ends f spec input freq depth q boot ap san out :
  do_qtrlwe2 T Y clock f spec input freq depth q boot ap san out =
  ends (do_qtrlwe2_t T Y clock f spec input freq depth q boot ap san) out.
Proof.
  unfold do_qtrlwe2, do_qtrlwe2_t. follow. next. next. next. next.
  rewrite (loop_ends (bench3_run T) (bench3_step T)), bind_res.
  - match goal with |- _ = (do '(o, a) <- ?r; _) => destruct r as [[o q']|e] end; reflexivity.
  - intros r c o. unfold bench3_run, bench3_step. follow. destruct (bench_run _ _ _ _ _) as [[? ?]|]; reflexivity.
Qed.
Lemma bbs_ends f spec input freq q ap san out :
  do_bbs T Y clock times f spec input freq q ap san out = ends (do_bbs_t T Y clock times f spec input freq q ap san) out.
Proof.
  unfold do_bbs, do_bbs_t. follow. next. next. next. next.
  rewrite (loop_ends (bench4_run T) (bench4_step T)), bind_res.
  - match goal with |- _ = (do '(o, a) <- ?r; _) => destruct r as [[o q']|e] end; reflexivity.
  - intros r c o. unfold bench4_run, bench4_step. follow. destruct (bench_run _ _ _ _ _) as [[? ?]|]; reflexivity.
Qed.
Lemma dispatch_ends f A out : b_dispatch T Y clock times f A out = ends (b_dispatch_t T Y clock times f A) out.
Proof.
  unfold b_dispatch, b_dispatch_t. follow. next. next. next.
  destruct (a_type A); try reflexivity; follow; repeat next;
    auto using plain_ends, offline_ends, reversed_ends, qtrlwe2_ends, bbs_ends.
Qed.
End Cipher.
