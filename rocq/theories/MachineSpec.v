(** What BTTRunner (counter.cpp) answers on every tester, queue size and history: a machine on plain
    bits and numbers, and the contract and noise budget under which the runner agrees with it. *)
From Coq Require Import List Arith Bool NArith ZArith.
Import ListNotations.
From Verif Require Import Base TorusModel TfheSpec CounterModel CounterSpec.
Local Open Scope nat_scope.

(** Testers: every edge leads to a state and names existing counters, widths are at most 64.  An edge
    may name a counter several times; a target need not fit into the width of its counter. *)
Definition tester (b : BTT) : Prop :=
  0 < btt_size b /\
  (forall e, In e (bt_delta b) -> ed_to e < btt_size b /\
     forall i, In i (ed_reset e) \/ In i (ed_inc e) -> i < length (bt_spec b)) /\
  (forall w v, In (w, v) (bt_spec b) -> w <= 64).

(** The edges taken from q on a word, and the state reached.  (In a tester every state has both
    edges: the default is never used.) *)
Definition edge_of (b : BTT) (q : nat) (x : bool) : Edge :=
  nth (2 * q + Nat.b2n x) (bt_delta b) (mkEdge 0 0 false false [] [] None).
Fixpoint route (b : BTT) (q : nat) (w : list bool) : list Edge :=
  match w with [] => [] | x :: w' => let e := edge_of b q x in e :: route b (ed_to e) w' end.
Fixpoint goes (b : BTT) (q : nat) (w : list bool) : nat :=
  match w with [] => q | x :: w' => goes b (ed_to (edge_of b q x)) w' end.

(** The states that some word of length d reaches from state 0. *)
Fixpoint level (b : BTT) (d : nat) : list nat :=
  match d with
  | O => [0]
  | S d' => nodup Nat.eq_dec (flat_map (fun q => [ed_to (edge_of b q false); ed_to (edge_of b q true)]) (level b d'))
  end.

(** A bit starts at -1/8 and every mark adds 1/4: the number of marks decides modulo 4. *)
Definition marked (m : nat) : bool := (m mod 4 =? 1) || (m mod 4 =? 2).
(** What m marks take away from a counter that holds z: m, except that 3 marks (modulo 4) add one to
    an even number. *)
Definition borrowed (m : nat) (z : Z) : Z :=
  match (m mod 4)%nat with 0%nat => 0%Z | 1%nat => 1%Z | 2%nat => 2%Z | _ => if Z.odd z then 3%Z else (-1)%Z end.

Definition accepting (es : list Edge) : nat := length (filter ed_accept es).
Definition marks (es : list Edge) (j : nat) : nat := count_occ Nat.eq_dec (flat_map ed_inc es) j.
Definition resets (es : list Edge) (j : nat) : bool := existsb (fun e => existsb (Nat.eqb j) (ed_reset e)) es.

(** The machine: the inputs not yet evaluated, the number of edges walked, the state, the last answer
    and what is left of every counter. *)
Record machine := mkMachine {
  m_queue : list bool; m_steps : nat; m_state : nat; m_accept : bool; m_left : list Z }.

Section Machine.
Context (b : BTT) (queue_size : nat).
Notation k := (length (bt_spec b)).
Definition width_of (j : nat) : nat := fst (nth j (bt_spec b) (0, 0%N)).
Definition start_of (j : nat) : Z := Z.of_N (snd (nth j (bt_spec b) (0, 0%N))).
Definition modulo_width (j : nat) (z : Z) : Z := (z mod 2 ^ Z.of_nat (width_of j))%Z.

Definition machine_new : machine :=
  mkMachine [] 0 0 false (map (fun j => modulo_width j (start_of j)) (seq 0 k)).

(** Where a round starts: in the current state, with the whole word.  But when only one state is
    possible, the round starts in state 0 instead, at the first even position of the word where
    state 0 is possible; if there is none, an exception is thrown. *)
Definition departure (m : machine) (word : list bool) : res (nat * list bool) :=
  match level b (m_steps m) with
  | [_] => match find (fun i => Nat.even i && existsb (Nat.eqb 0) (level b (m_steps m + i))) (seq 0 (S (length word))) with
           | Some i => Ok (0, skipn i word)
           | None => Fail FBadOptional
           end
  | _ => Ok (m_state m, word)
  end.

(** A round: every counter is tested once, then all waiting inputs are read. *)
Definition machine_round (m : machine) : res machine :=
  match m_queue m with
  | [] => Ok m
  | _ =>
    let word := map (fun z => (z =? 0)%Z) (m_left m) ++ m_queue m in
    do '(q, w) <- departure m word;
    let es := route b q w in
    Ok (mkMachine [] (m_steps m + length word) (goes b q w) (marked (accepting es))
          (map (fun j => let z := if resets es j then start_of j else nth j (m_left m) 0%Z in
                         modulo_width j (z - borrowed (marks es j) z)) (seq 0 k)))
  end.

Definition machine_feed (m : machine) (x : bool) : res machine :=
  let m := mkMachine (m_queue m ++ [x]) (m_steps m) (m_state m) (m_accept m) (m_left m) in
  if length (m_queue m) <? queue_size then Ok m else machine_round m.
Definition machine_ask (m : machine) : res (bool * machine) :=
  do m <- machine_round m; Ok (m_accept m, m).
End Machine.

Local Open Scope Z_scope.
(** HomANDNY decides the sign of b - a - 1/8, as far as it is at least ra away from 0 and 1/2. *)
Definition andny_sign (T : tfhe) (G : gates T) (s0 : list Z) (GE : gate_noise) (ra : Z) : Prop :=
  forall a b, let x := tlwe_phase (t_n0 T) s0 b - tlwe_phase (t_n0 T) s0 a - t_1o8 in
    (positive ra x -> near (g_out GE) (tlwe_phase (t_n0 T) s0 (hom_andny T G a b)) (msg_1o8 true)) /\
    (negative ra x -> near (g_out GE) (tlwe_phase (t_n0 T) s0 (hom_andny T G a b)) (msg_1o8 false)).

(** Noise budget: a round walks over one edge per counter and per waiting input. *)
Definition machine_noise (b : BTT) (queue_size : nat) (E : noise) : Z :=
  Z.of_nat (length (bt_spec b) + Nat.max 1 queue_size + Nat.log2_up (btt_size b)) * e_cmux E.
Definition machine_margin (b : BTT) (queue_size : nat) (E : noise) (GE : gate_noise) (ra : Z) : Prop :=
  let e := machine_noise b queue_size E in
  counter_margin E GE e /\ 0 <= ra /\ 2 * (e_br E + e_iks E + g_out GE + e) + ra < t_1o8.

(** Gates that decide signs, for the toy instance of TfheSpec.v. *)
Definition toy_sign_gates (n0 n1 : nat) (s0 s1 : list Z) (e : Z) : gates (toy n0 n1 s0 s1 e) :=
  let pos x := x mod two32 <? t_1o2 in
  let G := toy_gates n0 n1 s0 s1 e in
  mkGates (toy n0 n1 s0 s1 e) (hom_or _ G)
    (fun a b => triv_tlwe n0 (msg_1o8 (pos (tlwe_phase n0 s0 b - tlwe_phase n0 s0 a - t_1o8)) + e))
    (hom_not _ G) (cb01 _ G).
Definition toy_sign_noise (e : Z) : gate_noise := mkGN (2 ^ 28 - 1) (Z.abs e) 0.
