(** Independent specification of the input files and of the ciphertext streams. *)
From Coq Require Import List Arith Bool NArith.
Import ListNotations.
From Verif Require Import Base StreamModel.

(** * Plain input files.  A valuation of [ap] bits is stored in as few whole bytes as possible,
    first bit in the least significant position of the first byte; unused bits are arbitrary. *)
Definition packs (ap : nat) (valuation : list bool) (block : list N) : Prop :=
  length valuation = ap /\
  ap <= 8 * length block < ap + 8 /\
  forall i b, nth_error valuation i = Some b ->
    exists byte, nth_error block (i / 8) = Some byte /\ N.testbit_nat byte (i mod 8) = b.

(** * Ciphertexts are blocks of 64-bit words. *)
Definition word (w : N) : Prop := (w < 2 ^ 64)%N.
Definition is_ctxt (words : nat) (c : list N) : Prop := length c = words /\ Forall word c.

(** * What a caller of a stream that is going to deliver [rem] must observe: the events of its
    calls, and whether one of the calls aborts the program. *)
Fixpoint observed (rem : list (list N)) (calls : list call) : list event * bool :=
  match calls with
  | [] => ([], false)
  | Size :: cs => let '(e, a) := observed rem cs in (ESize (length rem) :: e, a)
  | Next :: cs => match rem with
                  | [] => ([], true)
                  | c :: r => let '(e, a) := observed r cs in (EValue c :: e, a)
                  end
  end.

(** The order in which the ciphertexts of a file are delivered. *)
Definition delivery (k : kind) (cts : list (list N)) : list (list N) :=
  match k with Forward => cts | Reversed => rev cts end.

(** The number of steps that were really taken in an execution. *)
Fixpoint moves (k : kind) (words : nat) (sched : list thread) (s : stream) : nat :=
  match sched with
  | [] => 0
  | t :: sched' => match step k words t s with
                   | None => moves k words sched' s
                   | Some (Ok s') => S (moves k words sched' s')
                   | Some (Fail _) => 1
                   end
  end.
