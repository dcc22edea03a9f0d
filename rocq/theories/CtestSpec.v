(** What the self-test of src/counter.cpp should say (small and separate from CtestModel.v). *)
From Coq Require Import String.
From Coq Require Import List Arith Bool NArith ZArith Ascii Permutation.
Import ListNotations.
From Verif Require Import Base GraphModel TextModel DotModel TorusModel RunnerModel RunnerSpec CounterModel CounterSpec.
Local Open Scope list_scope.

Section Spec.
(** The cryptography and the secret key; for each test the orders of its reductions, the bits it
    draws and the ciphertexts it makes of them *)
Context (T : tfhe) (G : gates T) (key : list Z)
        (order : nat -> nat -> nat -> red) (draw : nat -> nat -> bool) (enc : nat -> nat -> bool -> trgsw T).

(** The first n bits of test t, and their ciphertexts *)
Definition drawn (t n : nat) : list bool := map (draw t) (seq 0 n).
Definition sent (t n : nat) : list (trgsw T) := map (fun i => enc t i (draw t i)) (seq 0 n).
(** Both runners on these, asked after every input *)
Definition enc_run (t n : nat) : res (list tlwe * runner T) :=
  do s <- runner_new T test_btt 1;
  play (runner_eval_one T G (order t)) (runner_result T G (order t)) (test_history (sent t n)) s.
Definition plain_run (t n : nat) : res (list bool * plain) :=
  play plain_eval_one (fun p => Ok (plain_result p, p)) (test_history (drawn t n)) (plain_new test_btt).
Definition decrypted (outs : list tlwe) : list bool := map (fun c => TLWELvl1_decrypt (t_n1 T) c key) outs.

(** The answers to the first n questions are the same. *)
Definition agree (t n : nat) : Prop := exists outs s answers p,
  enc_run t n = Ok (outs, s) /\ plain_run t n = Ok (answers, p) /\ decrypted outs = answers.
(** The first n answers are the same, and the next are r and e, which are not; s and p are the
    runners then. *)
Definition differ (t n : nat) (r e : bool) (s : runner T) (p : plain) : Prop := exists outs c answers,
  enc_run t (S n) = Ok (outs ++ [c], s) /\ plain_run t (S n) = Ok (answers ++ [e], p) /\
  decrypted outs = answers /\ TLWELvl1_decrypt (t_n1 T) c key = r /\ r <> e.

(** The texts *)
Definition line (s : text) : text := s ++ ["010"%char].
Definition digit (b : bool) : text := [if b then "1" else "0"]%char.
Definition numbered {A} (l : list A) (f : nat -> A -> text) : text :=
  concat (map (fun '(i, a) => line (f i a)) (combine (seq 0 (length l)) l)).
Definition decimal (n : N) : text := uint_text (N.to_uint n).
(** A report of the inputs, both answers and both states *)
Definition report (w : list bool) (r e : bool) (enc_state : bool * nat * N * list N) (p : plain) : text :=
  let '(a, q, info, counts) := enc_state in
  line (lit "======= TEST ERROR =======") ++
  numbered w (fun i b => lit "Input " ++ show_nat i ++ lit ":" ++ ["009"%char] ++ digit b) ++
  line [] ++ line (lit "Runner result:" ++ ["009"%char] ++ digit r) ++
  line (lit "acc:  " ++ digit a) ++ line (lit "st#:  " ++ show_nat q) ++ line (lit "info: " ++ decimal info) ++
  numbered counts (fun i c => lit "cnt" ++ show_nat i ++ lit ": " ++ decimal c) ++
  line [] ++ line (lit "PRunner result:" ++ ["009"%char] ++ digit e) ++
  line (lit "acc:  " ++ digit (p_accept p)) ++ line (lit "st#:  " ++ show_nat (p_cur p)) ++
  numbered (p_counter p) (fun i c => lit "cnt" ++ show_nat i ++ lit ": " ++ decimal c) ++
  line (lit "==========================").
(** The reports of the tests that have one, in the order of the tests *)
Definition all_reports (reports : list (option text)) : text :=
  concat (map (fun '(i, m) => match m with Some m => line (lit "TEST " ++ show_nat i) ++ line m | None => [] end)
              (combine (seq 0 (length reports)) reports)).
(** A truthful report of test t: the first difference, met within the first 10000 inputs *)
Definition truthful (t : nat) (m : text) : Prop := exists n r e s p v,
  (N.of_nat n < 10000)%N /\ differ t n r e s p /\ runner_dump T s key = Ok v /\ m = report (drawn t (S n)) r e v p.
End Spec.
