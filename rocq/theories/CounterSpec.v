(** Specification vocabulary for encrypted counters and binarised temporal testers: the contract of
    the additional gates, the numbers counted, walks through a tester, and noise budgets. *)
From Coq Require Import List Arith Bool NArith ZArith Permutation.
Import ListNotations.
From Verif Require Import Base TorusModel TfheSpec CounterModel.
Local Open Scope Z_scope.

(** * The contract of the gates *)
Record gate_noise := mkGN {
  g_tol : Z;     (* noise a gate tolerates on each input *)
  g_out : Z;     (* noise of the output of a gate *)
  g_cb : Z }.    (* circuit bootstrapping decides the sign of a phase this far from 0 and 1/2 *)

Record gates_ok (T : tfhe) (G : gates T) (s0 : list Z) (bit : trgsw T -> bool -> Prop) (GE : gate_noise) : Prop := mkGOk {
  ok_or : forall a b x y, near (g_tol GE) (tlwe_phase (t_n0 T) s0 a) (msg_1o8 x) ->
    near (g_tol GE) (tlwe_phase (t_n0 T) s0 b) (msg_1o8 y) ->
    near (g_out GE) (tlwe_phase (t_n0 T) s0 (hom_or T G a b)) (msg_1o8 (x || y));
  ok_andny : forall a b x y, near (g_tol GE) (tlwe_phase (t_n0 T) s0 a) (msg_1o8 x) ->
    near (g_tol GE) (tlwe_phase (t_n0 T) s0 b) (msg_1o8 y) ->
    near (g_out GE) (tlwe_phase (t_n0 T) s0 (hom_andny T G a b)) (msg_1o8 (negb x && y));
  ok_not : forall a, eqm (tlwe_phase (t_n0 T) s0 (hom_not T G a)) (- tlwe_phase (t_n0 T) s0 a);
  ok_cb01_pos : forall t, positive (g_cb GE) (tlwe_phase (t_n0 T) s0 t) -> bit (cb01 T G t) true;
  ok_cb01_neg : forall t, negative (g_cb GE) (tlwe_phase (t_n0 T) s0 t) -> bit (cb01 T G t) false }.

(** Gates for the toy instance of TfheSpec.v: they read the signs of the phases and add the noise e. *)
Definition toy_gates (n0 n1 : nat) (s0 s1 : list Z) (e : Z) : gates (toy n0 n1 s0 s1 e) :=
  let pos t := tlwe_phase n0 s0 t mod two32 <? t_1o2 in
  mkGates (toy n0 n1 s0 s1 e)
    (fun a b => triv_tlwe n0 (msg_1o8 (pos a || pos b) + e))
    (fun a b => triv_tlwe n0 (msg_1o8 (negb (pos a) && pos b) + e))
    (fun a => triv_tlwe n0 (- tlwe_phase n0 s0 a))
    (fun t => pos t).
Definition toy_gate_noise (e : Z) : gate_noise := mkGN (t_1o8 - 1) (Z.abs e) 0.

(** * Counters *)
(** An order of reduction that uses the initial value and each of the w operands once. *)
Definition valid_order (w : nat) (t : red) : Prop := Permutation (leaves t) (seq 0 (S w)).

(** What a counter started at v holds after a history: [Some b] subtracts the bit b, [None] resets. *)
Definition counted (v : Z) (h : list (option bool)) : Z :=
  fold_left (fun z o => match o with Some b => z - Z.b2z b | None => v end) h v.

(** A history of calls on a counter, and the history of bits it encrypts with noise at most e. *)
Definition counter_call (T : tfhe) (G : gates T) (c : Counter) (o : option (list Z)) : res Counter :=
  match o with Some borrow => counter_minus_one T G c borrow | None => counter_reset T c end.
Inductive same_call (T : tfhe) (s0 : list Z) (e : Z) : option (list Z) -> option bool -> Prop :=
| same_borrow : forall t b, near e (tlwe_phase (t_n0 T) s0 t) (msg_1o8 b) -> same_call T s0 e (Some t) (Some b)
| same_reset : same_call T s0 e None None.

(** Noise budget of one counter whose borrows have noise at most e. *)
Definition counter_margin (E : noise) (GE : gate_noise) (e : Z) : Prop :=
  let m := e_br E + e_iks E + g_out GE + e in
  0 <= e /\ 0 <= g_out GE /\ 0 <= g_cb GE /\
  m <= g_tol GE /\ 4 * m + e_round E < t_1o4 /\ m + g_cb GE < t_1o8.

(** * Testers *)
Local Open Scope nat_scope.
(** The edge leaving q on input x. *)
Definition edge_at (b : BTT) (q : nat) (x : bool) (e : Edge) : Prop :=
  nth_error (bt_delta b) (2 * q + Nat.b2n x) = Some e.
Inductive walk (b : BTT) : nat -> list bool -> nat -> Prop :=
| walk_nil q : walk b q [] q
| walk_cons q x e w q' : edge_at b q x e -> walk b (ed_to e) w q' -> walk b q (x :: w) q'.

(** Every edge leads to a state and names existing counters, at most once each among those it
    increments; widths are at most 64 and every target fits into the width of its counter. *)
Definition btt_wf (b : BTT) : Prop :=
  0 < btt_size b /\
  (forall e, In e (bt_delta b) -> ed_to e < btt_size b /\ NoDup (ed_inc e) /\
     (forall i, In i (ed_reset e) \/ In i (ed_inc e) -> i < length (bt_spec b))) /\
  (forall w v, In (w, v) (bt_spec b) -> w <= 64 /\ (v < 2 ^ N.of_nat w)%N).

(** With k counters, every round consists of k tests, one per counter, and one input.  States
    in which a counter is tested have edges without effects. *)
Definition tests_pure (b : BTT) : Prop :=
  forall w q x e, walk b 0 w q -> length w mod S (length (bt_spec b)) <> length (bt_spec b) ->
    edge_at b q x e -> ed_accept e = false /\ ed_reset e = [] /\ ed_inc e = [].

(** Whenever only one state is possible after a number of rounds, it is state 0. *)
Definition lonely_zero (b : BTT) : Prop :=
  forall n q, (forall w q', length w = n * S (length (bt_spec b)) -> walk b 0 w q' -> q' = q) -> q = 0.

(** Every input is followed by a question before the next one. *)
Fixpoint prompt {C} (h : list (option C)) : Prop :=
  match h with
  | Some _ :: h' => match h' with Some _ :: _ => False | _ => prompt h' end
  | None :: h' => prompt h'
  | [] => True
  end.

(** Every count stays below its target plus 2^width whenever a counter is going to be tested. *)
Definition counts_fit (b : BTT) (word : list bool) : Prop :=
  forall u x v p, word = u ++ x :: v -> foldM plain_eval_one u (plain_new b) = Ok p ->
    Forall2 (fun c '(w, t) => (c < t + 2 ^ N.of_nat w)%N) (p_counter p) (bt_spec b).

(** * Noise budget of a runner *)
Definition btt_noise (b : BTT) (E : noise) : Z :=
  (Z.of_nat (S (length (bt_spec b)) + Nat.log2_up (btt_size b)) * e_cmux E)%Z.
Definition btt_margin (b : BTT) (E : noise) (GE : gate_noise) : Prop := counter_margin E GE (btt_noise b E).
(** src/counter.cpp:698-703: every input is followed by a question *)
Definition test_history {C} (word : list C) : list (option C) := flat_map (fun x => [Some x; None]) word.
