(** The debug messages of the construction of an automaton from an LTL formula (src/graph.cpp:639-850), which ltl2spec shows with --verbose.
    The functions are those of LtlModel with their messages; that the results are the same is C84_same. *)
From Coq Require Import String.
From Coq Require Import List Arith Bool NArith Ascii.
Import ListNotations.
From Verif Require Import Base GraphModel TextModel DotModel TorusModel CmdModel LtlModel MainModel MsgModel SayModel LogModel StderrModel.
Local Open Scope list_scope.

(** (auxiliary) a computation with its debug messages, src/graph.cpp:661-820 *)
Definition traced (A : Type) : Type := (list text * res A)%type.
(** (auxiliary) ; of C++: what follows an exception or a failed assertion is not executed, src/graph.cpp:660-822 *)
Definition next {A B} (m : traced A) (k : A -> traced B) : traced B :=
  match m with
  | (l, Fail e) => (l, Fail e)
  | (l, Ok a) => let (l', r) := k a in (l ++ l', r)
  end.
(** (auxiliary) a computation without messages, src/graph.cpp:667-705 *)
Definition silent {A} (r : res A) : traced A := ([], r).
(** (auxiliary) spdlog::debug, src/graph.cpp:661 *)
Definition debug (t : text) : traced unit := ([t], Ok tt).
(** (auxiliary) a loop, src/graph.cpp:660, 662, 764, 781 *)
Fixpoint each {A S} (f : S -> A -> traced S) (l : list A) (s : S) : traced S :=
  match l with
  | [] => silent (Ok s)
  | a :: l' => next (f s a) (fun s' => each f l' s')
  end.

(** src/graph.cpp:769-776  the loop over the unconstrained bits in front of a 0-parent: [cidx] after each round *)
Fixpoint free_bits_traced (n : nat) (cidx : nat) (delta : NFADelta) (cq : State) : traced (NFADelta * State) :=
  match n with
  | O => silent (Ok (delta, cq))
  | S n' => let q := length delta in
            next (debug (show_nat (cidx - 1))) (fun _ => free_bits_traced n' (cidx - 1) (delta ++ [(q, [cq], [cq])]) q)
  end.

Section Edge.
Context (v2i : list (nat * nat)) (R : list entry).
(** src/graph.cpp:764-780, 781-795: one iteration of the loops over q0s, which logs, and q1s, which does not *)
Definition add_parent_traced (bit : bool) (cur_var_idx : nat) (cur_q : State)
    (s : NFADelta * list (State * State) * list (State * nat * State)) (p : State)
  : traced (NFADelta * list (State * State) * list (State * nat * State)) :=
  let '(delta, m, que) := s in
  next (silent (
    do '(_, _, b) <- at_ R p;
    do v <- match b with BN v _ _ => Ok v | _ => Fail FUndefined end;
    at_key Nat.eq_dec v v2i)) (fun idx =>
  let n := cur_var_idx - (idx + 1) in
  next (if bit then silent (Ok (free_bits n delta cur_q))
        else next (debug (show_nat cur_var_idx)) (fun _ => free_bits_traced n cur_var_idx delta cur_q)) (fun '(delta, cq) =>
  let '(next_, delta, m) := state_get p delta m in
  silent (do delta <- add_succ bit delta next_ cq; Ok (delta, m, que ++ [(p, idx, next_)])))).
(** src/graph.cpp:732-796 *)
Fixpoint edge_loop_traced (fuel : nat) (que : list (State * nat * State)) (visited : list State) (delta : NFADelta)
    (m : list (State * State)) (src_alt : option State) : traced (NFADelta * option State) :=
  match que with
  | [] => silent (Ok (delta, src_alt))
  | (cur_rq, cur_var_idx, cur_q) :: que =>
      match fuel with
      | O => silent (Fail FFuel)
      | S fuel =>
          if in_dec Nat.eq_dec cur_rq visited then edge_loop_traced fuel que visited delta m src_alt
          else
            let visited := cur_rq :: visited in
            next (silent (at_ R cur_rq)) (fun '(q0s, q1s, _) =>
            let none := match q0s, q1s, src_alt with [], [], None => true | _, _, _ => false end in
            if cur_var_idx =? 0 then
              if none then edge_loop_traced fuel que visited delta m (Some cur_q) else silent (Fail FAssert)
            else
              match q0s, q1s with
              | [], [] =>
                  if none then
                    let '(delta, cur_q) := free_bits cur_var_idx delta cur_q in
                    edge_loop_traced fuel que visited delta m (Some cur_q)
                  else silent (Fail FAssert)
              | _, _ =>
                  next (each (add_parent_traced false cur_var_idx cur_q) q0s (delta, m, que)) (fun s =>
                  next (each (add_parent_traced true cur_var_idx cur_q) q1s s) (fun '(delta, m, que) =>
                  edge_loop_traced fuel que visited delta m src_alt))
              end)
      end
  end.
End Edge.

(** (auxiliary) two numbers, src/graph.cpp:665, 807, 820 *)
Definition pair_text (a b : nat) : text := show_nat a ++ lit " " ++ show_nat b.

(** src/graph.cpp:662-822: one edge *)
Definition add_edge_traced (v2i : list (nat * nat)) (var_size : nat) (src : State) (delta : NFADelta) (t : nat * bdd)
  : traced NFADelta :=
  let '(dst, cond) := t in
  next (debug (pair_text src dst)) (fun _ =>
  next (silent (do '(R, M) <- reversed_bdd cond; do rt <- at_key bdd_eq_dec BT M; Ok (R, rt))) (fun '(R, rt) =>
  next (edge_loop_traced v2i R (edge_fuel R) [(rt, var_size, dst)] [] delta [] None) (fun '(delta, src_alt) =>
  match src_alt with
  | None => silent (Fail FAssert)
  | Some a =>
      next (debug (show_nat a)) (fun _ =>
      next (silent (do '(_, q0s, q1s) <- at_ delta a;
                    assert_ ((length q0s <=? 1) && (length q1s <=? 1))
                      (do delta <- match q0s with [s] => add_succ false delta src s | _ => Ok delta end;
                       match q1s with [s] => add_succ true delta src s | _ => Ok delta end))) (fun delta =>
      next (debug (pair_text src dst ++ lit " END TABLE BEGIN")) (fun _ =>
      next (debug (pair_text src dst ++ lit " END TABLE END")) (fun _ => silent (Ok delta)))))
  end))).

(** src/graph.cpp:639-850  Graph::ltl_to_nfa_tuple *)
Definition ltl_to_nfa_tuple_traced (M : monitor) (var_size : nat) (make_all_live_states_final : bool)
  : traced (list State * list State * NFADelta) :=
  let v2i := var2idx M var_size in
  let ns := m_ns M in
  next (each (fun delta src =>
          next (debug (show_nat src ++ lit "/" ++ show_nat ns)) (fun _ => each (add_edge_traced v2i var_size src) (m_out M src) delta))
          (seq 0 ns) (map (fun i => (i, [], [])) (seq 0 ns))) (fun delta =>
  silent (Ok ([m_init M], seq 0 (if make_all_live_states_final then length delta else ns), delta))).
(** src/graph.cpp:313-319, src/main.cpp:474-480  do_ltl2spec; the rest of it logs nothing *)
Definition do_ltl2spec_traced (M : monitor) (num_vars : nat) (make_all_live_states_final : bool) : traced text :=
  next (ltl_to_nfa_tuple_traced M num_vars make_all_live_states_final) (fun '(init_sts, final_sts, delta) =>
  silent (do gr <- from_nfa init_sts final_sts delta; dump gr)).

(** src/main.cpp:649-662, 722-725  main for ltl2spec, with everything it writes to the standard error ([None]: another command).
    What Spot writes about a formula that does not parse is not modelled. *)
Definition main_ltl (spot : spot_lib) (E : setting) (f : fs) (argv : list text) : list message * option (res action) :=
  match parse f argv with
  | Fail _ => ([], None)
  | Ok A =>
      match a_type A with
      | LTL2SPEC =>
          let v := level_of argv in
          let '(l, r) := next (silent (do fml <- value (a_text A Fformula); do n <- value (a_num A Fnum_vars);
                                       do M <- ltl_to_monitor spot fml n; Ok (M, n)))
                           (fun '(M, n) => next (do_ltl2spec_traced M n (a_flag A Fmake_all_live_states_final)) (fun t => silent (Ok (Prints t)))) in
          (passed v (map as_message (dump_basic_info E argv)) ++ passed v (map (fun t => (Debug, t)) l), Some r)
      | _ => ([], None)
      end
  end.
