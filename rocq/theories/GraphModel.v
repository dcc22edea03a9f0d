(** Model of src/graph.cpp, src/graph.hpp: class UnionFind and class Graph
    (without the text formats, see TextModel.v, and without the LTL front end, see
    LtlModel.v). *)
From Coq Require Import List Arith Bool NArith ZArith.
Import ListNotations.
From Verif Require Import Base.

(** src/graph.hpp:13-17.  State = int, modelled as nat. *)
Notation State := nat (only parsing).
Notation DFADelta := (list (nat * nat * nat)) (only parsing).
Notation NFADelta := (list (nat * list nat * list nat)) (only parsing).

(** src/graph.hpp:19-25: the data members. *)
Record Graph := mkGraph {
  g_delta    : DFADelta;
  g_parents0 : list (list State);
  g_parents1 : list (list State);
  g_sad      : list (list State);     (* states_at_depth_ *)
  g_final    : list State;            (* final_state_, std::set *)
  g_finalvec : list bool;             (* final_state_vec_ *)
  g_init     : State }.

(** src/graph.cpp:100-101
    v.at(i).push_back(x) *)
Definition push_at {A} (v : list (list A)) (i : nat) (x : A) : res (list (list A)) :=
  do l <- at_ v i; set_at v i (l ++ [x]).

(** src/graph.cpp:89-105  Graph::Graph(init_st, final_sts, delta) *)
Definition graph_new (init_st : State) (final_sts : list State) (delta : DFADelta) : res Graph :=
  do '(p0, p1) <-
     foldM (fun '(p0, p1) '(q, q0, q1) =>
              do p0' <- push_at p0 q0 q;
              do p1' <- push_at p1 q1 q;
              Ok (p0', p1'))
           delta (repeat [] (length delta), repeat [] (length delta));
  do fv <- foldM (fun fv q => set_at fv q true) final_sts (repeat false (length delta));
  Ok (mkGraph delta p0 p1 [] final_sts fv init_st).

(** src/graph.cpp:331-334 *)
Definition size (g : Graph) : nat := length (g_delta g).

(** src/graph.cpp:336-340 *)
Definition is_final_state (g : Graph) (q : State) : res bool := at_ (g_finalvec g) q.

(** src/graph.cpp:342-346 *)
Definition next_state (g : Graph) (q : State) (input : bool) : res State :=
  do '(_, q0, q1) <- at_ (g_delta g) q; Ok (if input then q1 else q0).

(** src/graph.cpp:348-355 *)
Definition prev_states (g : Graph) (q : State) (input : bool) : res (list State) :=
  if input then at_ (g_parents1 g) q else at_ (g_parents0 g) q.

(** src/graph.cpp:365-368 *)
Definition initial_state (g : Graph) : State := g_init g.

(** src/graph.cpp:402-407 *)
Definition all_states (g : Graph) : list State := seq 0 (size g).

(** src/graph.cpp:370-395  reserve_states_at_depth.  [sts] is the vector<bool>, [tmp] the
    collected states; one iteration of the outer loop is [sad_level]. *)
Definition sad_collect (sts : list bool) : res (list State * list bool) :=
  foldM (fun '(tmp, s) st =>
           do b <- at_ s st;
           let tmp' := if b : bool then tmp ++ [st] else tmp in
           do s' <- set_at s st false;
           Ok (tmp', s'))
        (seq 0 (length sts)) ([], sts).

(** src/graph.cpp:388-391  the successors of the states collected are marked *)
Definition sad_mark (g : Graph) (tmp : list State) (sts : list bool) : res (list bool) :=
  foldM (fun s st =>
           do a <- next_state g st false;
           do s1 <- set_at s a true;
           do b <- next_state g st true;
           set_at s1 b true)
        tmp sts.

(** src/graph.cpp:380-394  the loop over the depths *)
Fixpoint sad_levels (g : Graph) (depth : nat) (sts : list bool) (acc : list (list State))
  : res (list (list State)) :=
  match depth with
  | O => Ok acc
  | S d =>
      do '(tmp, sts1) <- sad_collect sts;
      do sts2 <- sad_mark g tmp sts1;
      sad_levels g d sts2 (acc ++ [tmp])
  end.

(** src/graph.cpp:370-395 *)
Definition reserve_states_at_depth (g : Graph) (depth : nat) : res Graph :=
  do sts <- set_at (repeat false (size g)) (initial_state g) true;
  do levels <- sad_levels g depth sts [];
  Ok (mkGraph (g_delta g) (g_parents0 g) (g_parents1 g) levels
              (g_final g) (g_finalvec g) (g_init g)).

(** src/graph.cpp:397-400 *)
Definition states_at_depth (g : Graph) (depth : nat) : res (list State) := at_ (g_sad g) depth.

(** src/graph.cpp:409-432  track_live_states.  The same loop is written out again at
    src/online_dfa.cpp:419-439 (with next_state(q,true) inserted first as well). *)
Definition live_step (g : Graph) (tmp1 : list State) : res (list State) :=
  foldM (fun acc q =>
           do a <- next_state g q true;
           do b <- next_state g q false;
           Ok (sinsert b (sinsert a acc)))
        tmp1 [].

(** src/graph.cpp:418-429  the loop over the depths *)
Fixpoint live_levels (g : Graph) (depth : nat) (tmp1 : list State) (acc : list (list State))
  : res (list (list State)) :=
  match depth with
  | O => Ok acc
  | S d => do tmp2 <- live_step g tmp1; live_levels g d tmp2 (acc ++ [tmp2])
  end.

(** src/graph.cpp:409-432 *)
Definition track_live_states (g : Graph) (init_live_states : list State) (max_depth : nat)
  : res (list (list State)) :=
  live_levels g max_depth (set_of init_live_states) [init_live_states].

(** src/graph.cpp:248-311  Graph::from_nfa.  [df] holds None for the placeholder -1.
    The maps are association lists looked up by key. *)
Definition subset_eqb (a b : list State) : bool :=
  if list_eq_dec Nat.eq_dec a b then true else false.

(** src/graph.cpp:261-263  st_map.find(qs) *)
Fixpoint assoc {A} (k : list State) (m : list (list State * A)) : option A :=
  match m with
  | [] => None
  | (k', v) :: m' => if subset_eqb k k' then Some v else assoc k m'
  end.

Notation PDelta := (list (nat * option nat * option nat)) (only parsing).

(** src/graph.cpp:253-258, 281-283  the local variables of from_nfa *)
Record subset_st := mkSub {
  ss_map  : list (list State * State);   (* st_map *)
  ss_df   : PDelta;                      (* df *)
  ss_Ff   : list State;                  (* Ff *)
  ss_vis  : list (list State);           (* visited *)
  ss_que  : list (list State) }.         (* que *)

(** src/graph.cpp:260-268  the lambda get_or_create_state *)
Definition get_or_create_state (m : list (list State * State)) (df : PDelta) (qs : list State)
  : State * list (list State * State) * PDelta :=
  match assoc qs m with
  | Some q => (q, m, df)
  | None => (length df, m ++ [(qs, length df)], df ++ [(length df, None, None)])
  end.

(** src/graph.cpp:290-295  successors of a subset; dn.at(q) may throw *)
Definition subset_succ (dn : NFADelta) (qs : list State) : res (list State * list State) :=
  foldM (fun '(qs0, qs1) q =>
           do '(_, dst0, dst1) <- at_ dn q;
           Ok (sinsert_range qs0 dst0, sinsert_range qs1 dst1))
        qs ([], []).

(** src/graph.cpp:284-308  one iteration of the while loop *)
Definition from_nfa_step (Fn : list State) (dn : NFADelta) (s : subset_st)
  : subset_st + res subset_st :=
  match ss_que s with
  | [] => inr (Ok s)
  | qs :: que =>
      if existsb (subset_eqb qs) (ss_vis s)
      then inl (mkSub (ss_map s) (ss_df s) (ss_Ff s) (ss_vis s) que)
      else cont (
        do '(qs0, qs1) <- subset_succ dn qs;
        let final := existsb (fun q => smem q Fn) qs in
        let '(qsd, m1, df1) := get_or_create_state (ss_map s) (ss_df s) qs in
        let '(qs0d, m2, df2) := get_or_create_state m1 df1 qs0 in
        let '(qs1d, m3, df3) := get_or_create_state m2 df2 qs1 in
        do df4 <- set_at df3 qsd (qsd, Some qs0d, Some qs1d);
        Ok (mkSub m3 df4
                  (if final then sinsert qsd (ss_Ff s) else ss_Ff s)
                  (ss_vis s ++ [qs])
                  (que ++ [qs0; qs1])))
  end.

(** src/graph.cpp:310  the call of the constructor.
    A remaining -1 would make parents0_.at(q0) throw in the constructor. *)
Definition force_delta (df : PDelta) : res DFADelta :=
  mapM (fun '(q, a, b) =>
          match a, b with
          | Some a', Some b' => Ok (q, a', b')
          | _, _ => Fail FOutOfRange
          end) df.

(** src/graph.cpp:284-308  a bound on the number of iterations of the loop (proved sufficient) *)
Definition nfa_fuel (q0n : list State) (dn : NFADelta) : nat :=
  length q0n + fold_right (fun '(_, a, b) n => length a + length b + n) 0 dn + 2.

(** src/graph.cpp:248-311 *)
Definition from_nfa (q0n Fn : list State) (dn : NFADelta) : res Graph :=
  do s <- loop (nfa_fuel q0n dn) (from_nfa_step Fn dn) (mkSub [] [] [] [] [q0n]);
  let '(q0, _, df) := get_or_create_state (ss_map s) (ss_df s) q0n in
  do delta <- force_delta df;
  graph_new q0 (ss_Ff s) delta.

(** src/graph.cpp:434-442  Graph::reversed *)
Definition reversed (g : Graph) : res Graph :=
  do delta <- mapM (fun q =>
                      do a <- prev_states g q false;
                      do b <- prev_states g q true;
                      Ok (q, a, b)) (all_states g);
  from_nfa (g_final g) [initial_state g] delta.

(** src/graph.cpp:852-867  Graph::reversed_nfa_delta *)
Definition reversed_nfa_delta (src : NFADelta) : res NFADelta :=
  do '(prev0, prev1) <-
     foldM (fun '(p0, p1) q =>
              do '(_, q0s, q1s) <- at_ src q;
              do p0' <- foldM (fun p q0 => push_at p q0 q) q0s p0;
              do p1' <- foldM (fun p q1 => push_at p q1 q) q1s p1;
              Ok (p0', p1'))
           (seq 0 (length src)) (repeat [] (length src), repeat [] (length src));
  mapM (fun q => do a <- at_ prev0 q; do b <- at_ prev1 q; Ok (q, a, b)) (seq 0 (length src)).

(** src/graph.cpp:451-462  the reachability loop of removed_unreachable *)
Definition reach_step (g : Graph) (s : list State * list State) : (list State * list State) + res (list State) :=
  let '(reachable, que) := s in
  match que with
  | [] => inr (Ok reachable)
  | q :: que' =>
      if smem q reachable then inl (reachable, que')
      else cont (do a <- next_state g q false;
                 do b <- next_state g q true;
                 Ok (sinsert q reachable, que' ++ [a; b]))
  end.

(** src/graph.cpp:451-462 *)
Definition reachable_states (g : Graph) : res (list State) :=
  loop (size g + 2) (reach_step g) ([], [initial_state g]).

(** index of an element: the unordered_map old2new of src/graph.cpp:464-466, which maps the
    i-th smallest reachable state to i; a missing key throws *)
Fixpoint index_of (x : nat) (l : list nat) : option nat :=
  match l with
  | [] => None
  | y :: l' => if x =? y then Some 0 else option_map S (index_of x l')
  end.
(** src/graph.cpp:464-466  old2new.at(q) *)
Definition old2new (reachable : list State) (q : State) : res State :=
  match index_of q reachable with Some i => Ok i | None => Fail FOutOfRange end.

(** src/graph.cpp:449-483  Graph::removed_unreachable *)
Definition removed_unreachable (g : Graph) : res Graph :=
  do reachable <- reachable_states g;
  do init_st <- old2new reachable (initial_state g);
  do final_sts <-
     foldM (fun fs q => if smem q reachable
                        then do n <- old2new reachable q; Ok (sinsert n fs)
                        else Ok fs) (g_final g) [];
  do delta <-
     foldM (fun d '(index, child0, child1) =>
              if smem index reachable then
                do q <- old2new reachable index;
                do q0 <- old2new reachable child0;
                do q1 <- old2new reachable child1;
                set_at d q (q, q0, q1)
              else Ok d)
           (g_delta g) (repeat (0, 0, 0) (length reachable));
  graph_new init_st final_sts delta.

(** src/graph.cpp:23-55  class UnionFind; g_ is the list *)
Definition uf_new (n : nat) : list nat := seq 0 n.

(** src/graph.cpp:33-38  find; the fuel bounds the recursion (proved sufficient) *)
Fixpoint uf_find_fuel (fuel : nat) (g : list nat) (x : nat) : res (list nat * nat) :=
  match fuel with
  | O => Fail FFuel
  | S f =>
      do gx <- at_ g x;
      if x =? gx then Ok (g, x)
      else do '(g1, r) <- uf_find_fuel f g gx;
           do g2 <- set_at g1 x r;
           Ok (g2, r)
  end.
(** src/graph.cpp:33-38 *)
Definition uf_find (g : list nat) (x : nat) : res (list nat * nat) :=
  uf_find_fuel (S (length g)) g x.

(** src/graph.cpp:40-45 *)
Definition uf_unite (g : list nat) (x y : nat) : res (list nat) :=
  do '(g1, px) <- uf_find g x;
  do '(g2, py) <- uf_find g1 y;
  if px =? py then Ok g2 else set_at g2 px py.

(** src/graph.cpp:47-54 *)
Definition uf_size (g : list nat) : nat :=
  length (filter (fun i => match nth_error g i with Some r => i =? r | None => false end)
                 (seq 0 (length g))).

(** src/graph.cpp:489-519  the table-filling loops.  The pair queue is a list. *)
Definition mark_pair (siz : nat) (s : list bool * list (State * State)) (qa qb : State)
  : res (list bool * list (State * State)) :=
  let '(table, que) := s in
  if qa <? qb then
    do t <- at_ table (qa + siz * qb);
    if t : bool then Ok s
    else do table' <- set_at table (qa + siz * qb) true; Ok (table', que ++ [(qa, qb)])
  else if qb <? qa then
    do t <- at_ table (qb + siz * qa);
    if t : bool then Ok s
    else do table' <- set_at table (qb + siz * qa) true; Ok (table', que ++ [(qb, qa)])
  else Ok s.

(** src/graph.cpp:489-499  the initial marking *)
Definition table_init (g : Graph) : res (list bool * list (State * State)) :=
  let siz := size g in
  foldM (fun s qa =>
    foldM (fun '(table, que) qb =>
             do fa <- is_final_state g qa;
             do fb <- is_final_state g qb;
             if xorb fa fb
             then do table' <- set_at table (qa + qb * siz) true;
                  Ok (table', que ++ [(qa, qb)])
             else Ok (table, que))
          (seq (qa + 1) (siz - (qa + 1))) s)
    (seq 0 siz) (repeat false (siz * siz), []).

(** src/graph.cpp:501-518  one iteration of the while loop *)
Definition table_step (g : Graph) (s : list bool * list (State * State))
  : (list bool * list (State * State)) + res (list bool) :=
  let siz := size g in
  let '(table, que) := s in
  match que with
  | [] => inr (Ok table)
  | (ql, qr) :: que' =>
      cont (assert_ (ql <? qr)
        (foldM (fun s1 b =>
                  do pl <- prev_states g ql b;
                  foldM (fun s2 qa =>
                           do pr <- prev_states g qr b;
                           foldM (fun s3 qb => mark_pair siz s3 qa qb) pr s2)
                        pl s1)
               [true; false] (table, que')))
  end.

(** src/graph.cpp:489-519 *)
Definition fill_table (g : Graph) : res (list bool) :=
  do s <- table_init g;
  loop (size g * size g + 1) (table_step g) s.

(** src/graph.cpp:523-542  union-find grouping *)
Definition unite_equiv (g : Graph) (table : list bool) : res (list nat) :=
  let siz := size g in
  foldM (fun uf qa =>
    foldM (fun uf1 qb =>
             do t <- at_ table (qa + qb * siz);
             if t : bool then Ok uf1 else uf_unite uf1 qa qb)
          (seq (qa + 1) (siz - (qa + 1))) uf)
    (seq 0 siz) (uf_new siz).

(** src/graph.cpp:532-535  the local variables of the grouping *)
Record group_st := mkGrp {
  gr_uf : list nat;
  gr_uf2st : list (option nat);      (* -1 is None *)
  gr_st : list (list State);
  gr_next : nat }.

(** src/graph.cpp:532-542 *)
Definition group_states (g : Graph) (uf : list nat) : res group_st :=
  let siz := size g in
  foldM (fun s q =>
           do '(uf1, uf_i) <- uf_find (gr_uf s) q;
           do o <- at_ (gr_uf2st s) uf_i;
           do '(uf2st, next) <-
              match o with
              | None => do u <- set_at (gr_uf2st s) uf_i (Some (gr_next s)); Ok (u, S (gr_next s))
              | Some _ => Ok (gr_uf2st s, gr_next s)
              end;
           do o' <- at_ uf2st uf_i;
           match o' with
           | None => Fail FOutOfRange
           | Some i => do cell <- at_ (gr_st s) i;
                       do st' <- set_at (gr_st s) i (sinsert q cell);
                       Ok (mkGrp uf1 uf2st st' next)
           end)
        (all_states g)
        (mkGrp uf (repeat None siz) (repeat [] (uf_size uf)) 0).

(** src/graph.cpp:560-561 
    uf2st.at(uf.find(q)); a -1 would make the constructor throw *)
Definition class_of (uf : list nat) (uf2st : list (option nat)) (q : State) : res (list nat * State) :=
  do '(uf1, r) <- uf_find uf q;
  do o <- at_ uf2st r;
  match o with Some i => Ok (uf1, i) | None => Fail FOutOfRange end.

(** src/graph.cpp:544-563  building the quotient *)
Record quot_st := mkQuot {
  qt_uf : list nat; qt_init : option State; qt_final : list State; qt_delta : DFADelta }.

(** src/graph.cpp:547-563  one class *)
Definition quot_step (g : Graph) (st : list (list State)) (uf2st : list (option nat))
           (s : quot_st) (q : nat) : res quot_st :=
  do cls <- at_ st q;
  match cls with
  | [] => Fail FUndefined                      (* *s.begin() of an empty set *)
  | repr :: _ =>
      let initial := existsb (Nat.eqb (initial_state g)) cls in
      do final <- is_final_state g repr;
      do n0 <- next_state g repr false;
      do '(uf1, q0) <- class_of (qt_uf s) uf2st n0;
      do n1 <- next_state g repr true;
      do '(uf2, q1) <- class_of uf1 uf2st n1;
      Ok (mkQuot uf2 (if initial then Some q else qt_init s)
                 (if final : bool then sinsert q (qt_final s) else qt_final s)
                 (qt_delta s ++ [(q, q0, q1)]))
  end.

(** src/graph.cpp:485-566  Graph::grouped_nondistinguishable *)
Definition grouped_nondistinguishable (g : Graph) : res Graph :=
  do table <- fill_table g;
  do uf <- unite_equiv g table;
  do grp <- group_states g uf;
  do qt <- foldM (quot_step g (gr_st grp) (gr_uf2st grp)) (seq 0 (length (gr_st grp)))
                 (mkQuot (gr_uf grp) None [] []);
  match qt_init qt with
  | None => Fail FBadOptional
  | Some i => graph_new i (qt_final qt) (qt_delta qt)
  end.

(** src/graph.cpp:444-447  Graph::minimized *)
Definition minimized (g : Graph) : res Graph :=
  do g1 <- removed_unreachable g; grouped_nondistinguishable g1.

(** src/graph.cpp:568-575  Graph::negated *)
Definition negated (g : Graph) : res Graph :=
  do new_final <-
     foldM (fun s q => do f <- is_final_state g q;
                       Ok (if f : bool then s else sinsert q s)) (all_states g) [];
  graph_new (g_init g) new_final (g_delta g).

(** The plaintext run: src/main.cpp:524-535 (do_run_dfa_plain) and the test helper
    check_if_accept (src/test_plain_random.cpp:29-35). *)
Definition run_from (g : Graph) (q : State) (w : list bool) : res State :=
  foldM (fun q b => next_state g q b) w q.
(** src/main.cpp:524-535, src/test_plain_random.cpp:29-35 *)
Definition accepts (g : Graph) (w : list bool) : res bool :=
  do q <- run_from g (initial_state g) w; is_final_state g q.

(** src/graph.cpp:357-363  Graph::transition64.  [1 << i] is computed in int (32 bits, C++20):
    for i < 31 it is 2^i, for i = 31 it is INT_MIN, which the conversion to uint64_t turns into
    0xFFFFFFFF80000000, and for i >= 32 the shift is undefined behaviour. *)
Definition shift_int (i : nat) : res N :=
  if i <? 31 then Ok (2 ^ N.of_nat i)%N
  else if i =? 31 then Ok 18446744071562067968%N
  else Fail FUndefined.

(** src/graph.cpp:360 
    [i < length] compares size_t with int: a negative length becomes a number beyond 2^63, so
    the loop reaches the undefined shift; 33 iterations stand for "more than 32". *)
Definition transition64_iters (length : Z) : nat :=
  if (length <? 0)%Z then 33 else Z.to_nat length.

(** src/graph.cpp:357-363 *)
Definition transition64 (g : Graph) (src : State) (input : N) (length : Z) : res State :=
  foldM (fun dst i =>
           do m <- shift_int i;
           next_state g dst (negb (N.land input m =? 0)%N))
        (seq 0 (transition64_iters length)) src.
