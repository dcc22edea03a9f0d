(** Specification vocabulary for the encrypted runners: histories of calls and what they must
    report.  Nothing here mentions how a runner works. *)
From Coq Require Import List Arith Bool ZArith.
Import ListNotations.
From Verif Require Import Base GraphModel Spec TorusModel TfheSpec.

(** A history of calls: [Some x] feeds the input x, [None] asks for the current result.  [play]
    performs the calls on an object with operations [feed] and [ask] and collects the answers. *)
Fixpoint play {St C R} (feed : St -> C -> res St) (ask : St -> res (R * St)) (h : list (option C)) (s : St)
  : res (list R * St) :=
  match h with
  | [] => Ok ([], s)
  | Some c :: h' => do s' <- feed s c; play feed ask h' s'
  | None :: h' => do '(r, s') <- ask s; do '(rs, s'') <- play feed ask h' s'; Ok (r :: rs, s'')
  end.

(** What the answers must be: at each question, whether the DFA accepts the inputs fed so far. *)
Fixpoint verdicts (g : Graph) (fed : list bool) (h : list (option bool)) : list (res bool) :=
  match h with
  | [] => []
  | Some b :: h' => verdicts g (fed ++ [b]) h'
  | None :: h' => accepts g fed :: verdicts g fed h'
  end.

(** A history of ciphertexts encrypts a history of bits. *)
Inductive same_event {C} (bit : C -> bool -> Prop) : option C -> option bool -> Prop :=
| same_feed : forall c b, bit c b -> same_event bit (Some c) (Some b)
| same_ask : same_event bit None None.
Definition encrypts {C} (bit : C -> bool -> Prop) (h : list (option C)) (hb : list (option bool)) : Prop :=
  Forall2 (same_event bit) h hb.

(** The inputs of a history, in order. *)
Fixpoint inputs {C} (h : list (option C)) : list C :=
  match h with [] => [] | Some c :: h' => c :: inputs h' | None :: h' => inputs h' end.

(** A runner with a queue of [q] inputs evaluates the queue when it is full, and when it is asked
    while the queue is not empty.  [flushes q n p h]: the total numbers of inputs consumed at the
    evaluations of h, starting after n consumed inputs and with p more in the queue. *)
Fixpoint flushes {C} (q n p : nat) (h : list (option C)) : list nat :=
  match h with
  | [] => []
  | Some _ :: h' => if S p <? q then flushes q n (S p) h' else (n + S p) :: flushes q (n + S p) 0 h'
  | None :: h' => if p =? 0 then flushes q n 0 h' else (n + p) :: flushes q (n + p) 0 h'
  end.

(** [width g n k]: k states are reachable from the initial state with exactly n inputs. *)
Definition width (g : Graph) (n k : nat) : Prop :=
  exists l, NoDup l /\ length l = k /\
    forall q, In q l <-> exists w, length w = n /\ run_from g (initial_state g) w = Ok q.

(** The second look-up table of the FLUT runner has a coefficient of the ring for each live state and each assignment of
    the second half of the queue, which takes at most q / 2 inputs and at most the depth that the live states leave. *)
Definition table_fits (N depth q : nat) (g : Graph) : Prop :=
  0 < N /\ forall n k, width g n k -> k < 2 ^ depth -> k * 2 ^ Nat.min (q / 2) (depth - Nat.log2_up k) <= N.

(** * Noise budgets *)
Definition noise_nonneg (E : noise) : Prop :=
  (0 <= e_cmux E /\ 0 <= e_iks E /\ 0 <= e_round E /\ 0 <= e_br E /\ 0 <= e_pk E /\ 0 <= e_cb E)%Z.

(** Offline and reverse: the noise of [interval] CMUXes on top of a bootstrapped ciphertext, plus
    what a bootstrapping itself tolerates, stays below a quarter. *)
Definition back_margin (E : noise) (interval : nat) : Prop :=
  (e_br E + Z.of_nat interval * e_cmux E + e_iks E + e_round E < t_1o4)%Z.

(** FLUT. Noise of the weights [j] evaluations after a bootstrapping: an evaluation adds up to [F] weights,
    goes through [q] CMUX levels and one TLWE-to-TRLWE key switch. *)
Fixpoint flut_noise (F q : nat) (E : noise) (j : nat) : Z :=
  match j with
  | O => e_br E + e_pk E
  | S j => Z.of_nat F * flut_noise F q E j + Z.of_nat q * e_cmux E + e_pk E
  end%Z.
Definition flut_margin (F q freq : nat) (E : noise) : Prop :=
  (Z.of_nat F * flut_noise F q E (freq - 1) + Z.of_nat q * e_cmux E + e_iks E + e_round E < t_1o4)%Z.

(** BLOCK: the CMUXes of one block and of the selection, plus what circuit bootstrapping
    tolerates, stay below an eighth.  Indices among the live states have at most
    log2(size) + 1 bits. *)
Definition block_noise (g : Graph) (qsize : nat) (E : noise) : Z :=
  (Z.of_nat (Nat.max qsize 1 + (Nat.log2 (size g) + 1)) * e_cmux E)%Z.
Definition block_margin (g : Graph) (qsize : nat) (E : noise) : Prop := (block_noise g qsize E + e_cb E < t_1o8)%Z.
