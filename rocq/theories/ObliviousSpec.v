(** What an observer of a runner sees without any key, for C37. *)
From Coq Require Import List Arith Bool NArith ZArith.
Import ListNotations.
From Verif Require Import Base GraphModel TorusModel RunnerModel ParModel.

(** The parts of a runner's state that are not ciphertexts, and the numbers of ciphertexts: among
    them the live states, the depths of the look-up tables, the recorded operations and the
    counters that decide when bootstrapping happens. *)
Definition pub_back (s : backstream) :=
  (b_graph s, length (b_weight s), b_input_size s, b_interval s, b_nproc s, b_timer s).
Definition pub_flut T (s : flut T) :=
  (f_graph T s, length (f_weight T s), length (f_queue T s), f_max T s, f_qsize T s, f_live T s, f_memo T s,
   (f_neval T s, f_freq T s, f_first T s, f_second T s)).
Definition pub_block T (s : block T) :=
  (k_graph T s, k_qsize T s, length (k_queue T s), match k_selector T s with Some _ => true | None => false end,
   k_live T s, k_timer T s).
Definition pub_legacy (s : legacy) := (l_graph s, length (l_weight s), l_interval s, l_nproc s).


(** Which calls of a history are inputs and which are questions. *)
Definition shape {C} (h : list (option C)) : list bool := map (fun e => match e with Some _ => true | None => false end) h.

(** What is seen of a whole history: the failure, or the number of answers and the public state
    at the end.  Looking at every prefix of a history gives the times at which anything happens. *)
Definition observe {R St P} (pub : St -> P) (r : res (list R * St)) : res (nat * P) :=
  match r with Ok (outs, s) => Ok (length outs, pub s) | Fail f => Fail f end.

(** The shared cells a task reads (false) and writes (true), in order, and how it ends. *)
Fixpoint trace {V} (p : prog V) (m : mem V) : list (bool * addr) * option fault :=
  match p with
  | Done => ([], None)
  | Throw f => ([], Some f)
  | Rd a k => let '(l, e) := trace (k (m a)) m in ((false, a) :: l, e)
  | Wr a v k => let '(l, e) := trace k (store m a v) in ((true, a) :: l, e)
  end.
