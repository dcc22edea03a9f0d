(** Model of src/utility.hpp (input file decoding) and of the plain run of src/main.cpp. *)
From Coq Require Import List Arith Bool NArith.
Import ListNotations.
From Verif Require Import Base GraphModel TextModel.

(** A byte is a number below 256. *)
Notation byte := N (only parsing).

(** src/utility.hpp:22-26  the inner loop: [fuel] is 8 - i, [v] the byte shifted so far.
    Delivers the bits, returns them and the remaining count. *)
Fixpoint byte_bits (fuel : nat) (v : N) (rest : nat) : list bool * nat :=
  match fuel with
  | O => ([], rest)
  | S f =>
      match rest with
      | O => ([], O)
      | S r => let '(bs, rest') := byte_bits f (N.div2 v) r in (N.odd v :: bs, rest')
      end
  end.

(** src/utility.hpp:16-28  each_input_bit: calls [func] on every bit in order; the state
    threaded through is whatever [func] acts on.  At the end of the file rest must be 0. *)
Section EachBit.
Context {S : Type}.
Fixpoint each_input_bit_from (rest : nat) (num_ap : nat) (func : S -> bool -> res S)
         (bytes : list N) (s : S) : res S :=
  match bytes with
  | [] => assert_ (rest =? 0) (Ok s)
  | v :: bytes' =>
      let rest0 := if rest =? 0 then num_ap else rest in
      let '(bs, rest') := byte_bits 8 v rest0 in
      do s' <- foldM func bs s;
      each_input_bit_from rest' num_ap func bytes' s'
  end.
(** src/utility.hpp:9-30.  The file is its content; a file that cannot be opened makes
    assert(ifs) fail, which is not modelled. *)
Definition each_input_bit (bytes : list N) (num_ap : nat) (func : S -> bool -> res S) (s : S) : res S :=
  each_input_bit_from 0 num_ap func bytes s.
End EachBit.

(** src/main.cpp:524-535  do_run_dfa_plain: prints the result of the run. *)
Definition do_run_dfa_plain (spec : text) (input : list N) (num_ap : nat) : res bool :=
  do gr <- from_istream spec;
  do q <- each_input_bit input num_ap (fun q b => next_state gr q b) (initial_state gr);
  is_final_state gr q.
