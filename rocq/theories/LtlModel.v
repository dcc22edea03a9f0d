(** Model of the construction of automata from LTL formulas, src/graph.cpp:313-329 and 625-867.

    Spot is outside the model: whether it can parse a formula and the monitor it makes of it are inputs.  A BDD is a tree; BuDDy shares equal nodes, so equality of nodes is equality of trees
    and every map keyed by nodes is a map keyed by trees. *)
From Coq Require Import List Arith Bool.
Import ListNotations.
From Verif Require Import Base GraphModel TextModel.

(** (auxiliary) bddfalse, bddtrue, and a node with bdd_var, bdd_low and bdd_high; src/graph.cpp:695-698 *)
Inductive bdd := BF | BT | BN (v : nat) (low high : bdd).
(** (auxiliary) equality of nodes, src/graph.cpp:695 and spot::bdd_less_than, src/graph.cpp:670 *)
Definition bdd_eq_dec (a b : bdd) : {a = b} + {a <> b}.
Proof. decide equality. apply Nat.eq_dec. Defined.

(** src/graph.cpp:625-637: what is used of the twa_graph: the number of states, the initial state,
    the outgoing edges (destination and condition) of a state in order, and the BDD variable of
    the proposition "p<i>" in the dictionary. *)
Record monitor := mkMonitor {
  m_ns : nat;
  m_init : nat;
  m_out : nat -> list (nat * bdd);
  m_var : nat -> option nat }.

(** (auxiliary) std::map::find, std::unordered_map::find; src/graph.cpp:673, 723 *)
Fixpoint find_key {K V} (dec : forall a b : K, {a = b} + {a <> b}) (k : K) (m : list (K * V)) : option V :=
  match m with
  | [] => None
  | (k', v) :: m' => if dec k k' then Some v else find_key dec k m'
  end.
(** (auxiliary) std::map::at; src/graph.cpp:699, 734, 766 *)
Definition at_key {K V} (dec : forall a b : K, {a = b} + {a <> b}) (k : K) (m : list (K * V)) : res V :=
  match find_key dec k m with Some v => Ok v | None => Fail FOutOfRange end.

(** src/graph.cpp:645-654: var2idx; emplace does not replace *)
Definition var2idx (M : monitor) (var_size : nat) : list (nat * nat) :=
  fold_left (fun m i => match m_var M i with
                        | None => m
                        | Some v => match find_key Nat.eq_dec v m with Some _ => m | None => m ++ [(v, i)] end
                        end) (seq 0 var_size) [].

(** * The nodes of a condition with their parents, src/graph.cpp:667-705 *)
(** src/graph.cpp:667-669: an entry of "reversed"; the number of the entry is its index *)
Definition entry : Type := list State * list State * bdd.
(** src/graph.cpp:672-680  get *)
Definition node_get (b : bdd) (R : list entry) (M : list (bdd * State)) : State * list entry * list (bdd * State) :=
  match find_key bdd_eq_dec b M with
  | Some q => (q, R, M)
  | None => (length R, R ++ [([], [], b)], M ++ [(b, length R)])
  end.
(** src/graph.cpp:700-701 *)
Definition add_pred (bit : bool) (R : list entry) (child parent : State) : res (list entry) :=
  do '(q0s, q1s, b) <- at_ R child;
  set_at R child (if bit then (q0s, q1s ++ [parent], b) else (q0s ++ [parent], q1s, b)).
(** src/graph.cpp:682-704: the breadth-first search *)
Fixpoint bdd_loop (fuel : nat) (que visited : list bdd) (R : list entry) (M : list (bdd * State))
  : res (list entry * list (bdd * State)) :=
  match que with
  | [] => Ok (R, M)
  | node :: que =>
      match fuel with
      | O => Fail FFuel
      | S fuel =>
          if in_dec bdd_eq_dec node visited then bdd_loop fuel que visited R M
          else
            match node with
            | BF | BT => bdd_loop fuel que (node :: visited) R M
            | BN _ low high =>
                do q <- at_key bdd_eq_dec node M;
                let '(q0, R, M) := node_get low R M in
                let '(q1, R, M) := node_get high R M in
                do R <- add_pred false R q0 q;
                do R <- add_pred true R q1 q;
                bdd_loop fuel (que ++ [low; high]) (node :: visited) R M
            end
      end
  end.
(** (auxiliary) a bound for the number of iterations of the loop at src/graph.cpp:687 *)
Fixpoint bdd_nodes (b : bdd) : nat :=
  match b with BN _ l h => S (bdd_nodes l + bdd_nodes h) | _ => 1 end.
(** src/graph.cpp:667-705 *)
Definition reversed_bdd (cond : bdd) : res (list entry * list (bdd * State)) :=
  bdd_loop (S (2 * bdd_nodes cond)) [cond] [] [([], [], cond)] [(cond, 0)].

(** * The states of one monitor edge, src/graph.cpp:721-805 *)
(** src/graph.cpp:754-759, 767-776, 784-791: states for n unconstrained bits in front of cq *)
Fixpoint free_bits (n : nat) (delta : NFADelta) (cq : State) : NFADelta * State :=
  match n with
  | O => (delta, cq)
  | S n' => let q := length delta in free_bits n' (delta ++ [(q, [cq], [cq])]) q
  end.
(** src/graph.cpp:722-730  get *)
Definition state_get (rq : State) (delta : NFADelta) (m : list (State * State))
  : State * NFADelta * list (State * State) :=
  match find_key Nat.eq_dec rq m with
  | Some q => (q, delta, m)
  | None => (length delta, delta ++ [(length delta, [], [])], m ++ [(rq, length delta)])
  end.
(** src/graph.cpp:778, 793, 802-805: push_back into the successors of a state *)
Definition add_succ (bit : bool) (delta : NFADelta) (q s : State) : res NFADelta :=
  do '(l, q0s, q1s) <- at_ delta q;
  set_at delta q (if bit then (l, q0s, q1s ++ [s]) else (l, q0s ++ [s], q1s)).

Section Edge.
Context (v2i : list (nat * nat)) (var_size : nat) (R : list entry).
(** src/graph.cpp:764-780, 781-795: one iteration of the loops over q0s and q1s.  bdd_var of a
    terminal is undefined. *)
Definition add_parent (bit : bool) (cur_var_idx : nat) (cur_q : State)
    (s : NFADelta * list (State * State) * list (State * nat * State)) (p : State)
  : res (NFADelta * list (State * State) * list (State * nat * State)) :=
  let '(delta, m, que) := s in
  do '(_, _, b) <- at_ R p;
  do v <- match b with BN v _ _ => Ok v | _ => Fail FUndefined end;
  do idx <- at_key Nat.eq_dec v v2i;
  let '(delta, cq) := free_bits (cur_var_idx - (idx + 1)) delta cur_q in
  let '(next, delta, m) := state_get p delta m in
  do delta <- add_succ bit delta next cq;
  Ok (delta, m, que ++ [(p, idx, next)]).
(** src/graph.cpp:732-796 *)
Fixpoint edge_loop (fuel : nat) (que : list (State * nat * State)) (visited : list State) (delta : NFADelta)
    (m : list (State * State)) (src_alt : option State) : res (NFADelta * option State) :=
  match que with
  | [] => Ok (delta, src_alt)
  | (cur_rq, cur_var_idx, cur_q) :: que =>
      match fuel with
      | O => Fail FFuel
      | S fuel =>
          if in_dec Nat.eq_dec cur_rq visited then edge_loop fuel que visited delta m src_alt
          else
            let visited := cur_rq :: visited in
            do '(q0s, q1s, _) <- at_ R cur_rq;
            let none := match q0s, q1s, src_alt with [], [], None => true | _, _, _ => false end in
            if cur_var_idx =? 0 then
              assert_ none (edge_loop fuel que visited delta m (Some cur_q))
            else
              match q0s, q1s with
              | [], [] =>
                  assert_ none
                    (let '(delta, cur_q) := free_bits cur_var_idx delta cur_q in
                     edge_loop fuel que visited delta m (Some cur_q))
              | _, _ =>
                  do s <- foldM (add_parent false cur_var_idx cur_q) q0s (delta, m, que);
                  do '(delta, m, que) <- foldM (add_parent true cur_var_idx cur_q) q1s s;
                  edge_loop fuel que visited delta m src_alt
              end
      end
  end.
(** (auxiliary) a bound for the number of iterations of the loop at src/graph.cpp:736 *)
Definition edge_fuel : nat := S (list_sum (map (fun e => length (fst (fst e)) + length (snd (fst e))) R)).
End Edge.

(** src/graph.cpp:662-822: one edge *)
Definition add_edge (v2i : list (nat * nat)) (var_size : nat) (src : State) (delta : NFADelta) (t : nat * bdd)
  : res NFADelta :=
  let '(dst, cond) := t in
  do '(R, M) <- reversed_bdd cond;
  do rt <- at_key bdd_eq_dec BT M;
  do '(delta, src_alt) <- edge_loop v2i R (edge_fuel R) [(rt, var_size, dst)] [] delta [] None;
  match src_alt with
  | None => Fail FAssert
  | Some a =>
      do '(_, q0s, q1s) <- at_ delta a;
      assert_ ((length q0s <=? 1) && (length q1s <=? 1))
        (do delta <- match q0s with [s] => add_succ false delta src s | _ => Ok delta end;
         match q1s with [s] => add_succ true delta src s | _ => Ok delta end)
  end.

(** src/graph.cpp:639-850  Graph::ltl_to_nfa_tuple *)
Definition ltl_to_nfa_tuple (M : monitor) (var_size : nat) (make_all_live_states_final : bool)
  : res (list State * list State * NFADelta) :=
  let v2i := var2idx M var_size in
  let ns := m_ns M in
  do delta <- foldM (fun delta src => foldM (add_edge v2i var_size src) (m_out M src) delta)
                (seq 0 ns) (map (fun i => (i, [], [])) (seq 0 ns));
  Ok ([m_init M], seq 0 (if make_all_live_states_final then length delta else ns), delta).

(** src/graph.cpp:858, 860: push_back into the predecessors of a state *)
Definition push_at (v : list (list State)) (i : nat) (q : State) : res (list (list State)) :=
  do l <- at_ v i; set_at v i (l ++ [q]).
(** src/graph.cpp:852-867  Graph::reversed_nfa_delta *)
Definition reversed_nfa_delta (src : NFADelta) : res NFADelta :=
  let n := length src in
  do '(prev0, prev1) <- foldM (fun '(prev0, prev1) q =>
      do '(_, q0s, q1s) <- at_ src q;
      do prev0 <- foldM (fun p q0 => push_at p q0 q) q0s prev0;
      do prev1 <- foldM (fun p q1 => push_at p q1 q) q1s prev1;
      Ok (prev0, prev1)) (seq 0 n) (repeat [] n, repeat [] n);
  mapM (fun q => do l0 <- at_ prev0 q; do l1 <- at_ prev1 q; Ok (q, l0, l1)) (seq 0 n).

(** src/graph.cpp:313-319  Graph::from_ltl_formula *)
Definition from_ltl_formula (M : monitor) (var_size : nat) (make_all_live_states_final : bool) : res Graph :=
  do '(init_sts, final_sts, delta) <- ltl_to_nfa_tuple M var_size make_all_live_states_final;
  from_nfa init_sts final_sts delta.
(** src/graph.cpp:321-329  Graph::from_ltl_formula_reversed *)
Definition from_ltl_formula_reversed (M : monitor) (var_size : nat) (make_all_live_states_final : bool) : res Graph :=
  do '(init_sts, final_sts, delta) <- ltl_to_nfa_tuple M var_size make_all_live_states_final;
  do delta_rev <- reversed_nfa_delta delta;
  from_nfa final_sts init_sts delta_rev.

(** (auxiliary) Spot: the monitor for a formula with a number of propositions (meaningless if the formula does not parse), and whether
    the formula parses; src/graph.cpp:627-637 *)
Record spot_lib := mkSpot { translate :> text -> nat -> monitor; parses : text -> bool }.
(** src/graph.cpp:625-638  ltl_to_monitor; the errors are printed by Spot (format_errors), which is not modelled *)
Definition ltl_to_monitor (S : spot_lib) (formula : text) (var_size : nat) : res monitor :=
  assert_ (parses S formula) (Ok (translate S formula var_size)).

(** src/main.cpp:474-480  do_ltl2spec *)
Definition do_ltl2spec (M : monitor) (num_vars : nat) (make_all_live_states_final : bool) : res text :=
  do gr <- from_ltl_formula M num_vars make_all_live_states_final; dump gr.
