(** Model of src/counter.cpp: binarised temporal testers (BTT), encrypted counters, the encrypted
    runner BTTRunner and the plaintext runner BTTPlaintextRunner.  (The file is built only with
    HOMFA_BUILD_COUNTER, src/CMakeLists.txt:1-26.  It calls CircuitBootstrappingFFTLvl01, which no
    header of the pinned commit declares; the model gives it the contract its name suggests.)

    Not modelled: BTT::from_istream (declared at line 86, never defined), unwrap_optional (31-40,
    never used).  BTTPlaintextRunner::dump, test and main (645-774) are in CtestModel.v.

    Parallel loops are read with [par_for] of RunnerModel.v: distinct tasks write distinct slots.
    The one parallel region whose result depends on the order of its steps is the
    transform_reduce of [is_zero] (line 165): its order is an argument, [red]. *)
From Coq Require Import List Arith Bool NArith ZArith.
Import ListNotations.
From Verif Require Import Base GraphModel TorusModel RunnerModel.
Local Open Scope list_scope.

(** src/counter.cpp:49-76.  State = int and CounterNo = size_t are nat. *)
Record Edge := mkEdge {
  ed_from : State; ed_to : State;
  ed_input : bool; ed_accept : bool;
  ed_reset : list nat; ed_inc : list nat;
  ed_check : option nat }.
(** src/counter.cpp:53-54, 79-80: the data members (a CounterSpec is a bit width and an initial value) *)
Record BTT := mkBTT { bt_delta : list Edge; bt_spec : list (nat * N) }.

(** src/counter.cpp:111-122  BTT::BTT *)
Definition btt_new (init_state : State) (delta : list Edge) (counters_spec : list (nat * N)) : res BTT :=
  assert_ (init_state =? 0)
  (assert_ (length delta mod 2 =? 0)
   (do _ <- foldM (fun _ i => do e <- at_ delta i;
                     assert_ (ed_from e =? i / 2) (assert_ (eqb (ed_input e) (negb (i mod 2 =? 0))) (Ok tt)))
                  (seq 0 (length delta)) tt;
    Ok (mkBTT delta counters_spec))).

(** src/counter.cpp:90-93 *)
Definition btt_size (b : BTT) : nat := length (bt_delta b) / 2.
(** src/counter.cpp:105-108 *)
Definition get_edge (b : BTT) (state : State) : res (Edge * Edge) :=
  do e0 <- at_ (bt_delta b) (state * 2);
  do e1 <- at_ (bt_delta b) (state * 2 + 1);
  Ok (e0, e1).

(** src/counter.cpp:124-134  BTT::to_graph; the set of final states is 0, 1, .. in order *)
Definition to_graph (b : BTT) : res Graph :=
  do delta <- mapM (fun q => do '(e0, e1) <- get_edge b q; Ok (q, ed_to e0, ed_to e1)) (seq 0 (btt_size b));
  graph_new 0 (seq 0 (btt_size b)) delta.

(** * The plaintext runner, src/counter.cpp:596-643 *)
Record plain := mkPlain { p_btt : BTT; p_cur : State; p_accept : bool; p_counter : list N }.

(** src/counter.cpp:611-617 *)
Definition plain_new (b : BTT) : plain := mkPlain b 0 false (repeat 0%N (length (bt_spec b))).
(** src/counter.cpp:619-622 *)
Definition plain_result (s : plain) : bool := p_accept s.

(** src/counter.cpp:641-642: counter_.at(i)++ for an int *)
Definition plain_inc (cs : list N) (i : nat) : res (list N) :=
  do c <- at_ cs i;
  if (c =? 2147483647)%N then Fail FUndefined else set_at cs i (c + 1)%N.

(** src/counter.cpp:624-643  eval_one *)
Definition plain_eval_one (s : plain) (input : bool) : res plain :=
  let b := p_btt s in
  do cur <- foldM (fun cur i =>
              do '(_, target) <- at_ (bt_spec b) i;
              do c <- at_ (p_counter s) i;
              let satisfied := (c =? target)%N in
              do '(e0, e1) <- get_edge b cur;
              Ok (ed_to (if satisfied then e1 else e0)))
            (seq 0 (length (bt_spec b))) (p_cur s);
  do '(e0, e1) <- get_edge b cur;
  let e := if input then e1 else e0 in
  do cs <- foldM (fun cs i => set_at cs i 0%N) (ed_reset e) (p_counter s);
  do cs <- foldM plain_inc (ed_inc e) cs;
  Ok (mkPlain b (ed_to e) (ed_accept e) cs).

(** * Ciphertexts *)
(** The gates of TFHEpp called by src/counter.cpp:162-202, 305-333; their keys are implicit. *)
Record gates (T : tfhe) := mkGates {
  hom_or : tlwe -> tlwe -> tlwe;       (* HomOR(res, a, b, gate_key) *)
  hom_andny : tlwe -> tlwe -> tlwe;    (* HomANDNY(res, a, b, gate_key): (not a) and b *)
  hom_not : tlwe -> tlwe;              (* HomNOT(res, a) *)
  cb01 : tlwe -> trgsw T }.            (* CircuitBootstrappingFFTLvl01(res, a, circuit_key) *)

(** The order in which std::transform_reduce combines its operands, src/counter.cpp:165-179: a
    binary tree.  Leaf 0 is the initial value, leaf i+1 the transformed element i. *)
Inductive red := RLeaf (i : nat) | RNode (l r : red).
(** src/counter.cpp:165-179: the operands, from left to right *)
Fixpoint leaves (t : red) : list nat :=
  match t with RLeaf i => [i] | RNode l r => leaves l ++ leaves r end.

(** TFHEpp's trlweSymDecrypt and bootsSymDecrypt (called at src/counter.cpp:44, 208, 352):
    whether the phase, as a signed 32-bit number, is positive. *)
Definition sym_bit (phase : Z) : bool := ((0 <? w32 phase) && (w32 phase <? t_1o2))%Z.
(** src/counter.cpp:42-45 *)
Definition TLWELvl1_decrypt (n : nat) (src : tlwe) (key : list Z) : bool := sym_bit (phase_of_TLWE n src key).

Section Counters.
Context (T : tfhe) (G : gates T).
Notation N1 := (t_n1 T).

(** src/counter.cpp:138-142 *)
Record Counter := mkCounter { c_bits : list trlwe; c_width : nat; c_init : N }.

(** src/counter.cpp:151-159  reset; shifting a uint64_t by 64 or more is undefined *)
Definition counter_reset (c : Counter) : res Counter :=
  if 64 <? c_width c then Fail FUndefined
  else Ok (mkCounter (map (fun i => if N.testbit_nat (c_init c) i then trivial_TRLWELvl1_1over8 N1
                                    else trivial_TRLWELvl1_minus_1over8 N1) (seq 0 (c_width c)))
                     (c_width c) (c_init c)).
(** src/counter.cpp:145-149 *)
Definition counter_new (bit_width : nat) (init_val : N) : res Counter :=
  counter_reset (mkCounter [] bit_width init_val).

(** src/counter.cpp:172-179, 190-193: the transformation *)
Definition bit_l0 (c : trlwe) : tlwe := iks T (sei T c 0).

(** src/counter.cpp:165-179 *)
Fixpoint reduce_or (t : red) (init : tlwe) (cs : list trlwe) : res tlwe :=
  match t with
  | RLeaf O => Ok init
  | RLeaf (S i) => match nth_error cs i with Some c => Ok (bit_l0 c) | None => Fail FUndefined end
  | RNode l r => do a <- reduce_or l init cs; do b <- reduce_or r init cs; Ok (hom_or T G a b)
  end.

(** src/counter.cpp:161-181  is_zero *)
Definition counter_is_zero (order : red) (c : Counter) : res tlwe :=
  do out <- reduce_or order (trivial_TLWE_minus_1over8 (t_n0 T)) (c_bits c);
  Ok (hom_not T G out).

(** src/counter.cpp:183-202  minus_one *)
Definition counter_minus_one (c : Counter) (borrow : tlwe) : res Counter :=
  do '(memo, _) <- foldM (fun '(memo, borrow) i =>
                     do ci <- at_ (c_bits c) i;
                     let t0 := bit_l0 ci in
                     Ok (memo ++ [t0; borrow], hom_andny T G t0 borrow))
                   (seq 0 (c_width c)) ([], borrow);
  do bits <- par_for (seq 0 (c_width c))
               (fun i => do a <- at_ memo (i * 2); do b <- at_ memo (i * 2 + 1); Ok (HomXORwoSE T a b)) (c_bits c);
  Ok (mkCounter bits (c_width c) (c_init c)).

(** src/counter.cpp:204-213  decrypt; 1u << i is undefined from 32 on *)
Definition counter_decrypt (c : Counter) (key : list Z) : res N :=
  foldM (fun r i => do ci <- at_ (c_bits c) i;
           if sym_bit (cf (phase_of_TRLWELvl1 N1 ci key) 0)
           then if 32 <=? i then Fail FUndefined else Ok (N.lor r (N.shiftl 1 (N.of_nat i)))
           else Ok r)
        (seq 0 (c_width c)) 0%N.

(** src/counter.cpp:215-224  Counter::cmux *)
Definition counter_cmux (out : Counter) (sel : trgsw T) (in1 in0 : Counter) : res Counter :=
  assert_ (length (c_bits out) =? length (c_bits in1))
  (assert_ (length (c_bits out) =? length (c_bits in0))
   (do bits <- foldM (fun o i => do a <- at_ (c_bits in1) i; do b <- at_ (c_bits in0) i; set_at o i (cmux T sel a b))
                     (seq 0 (length (c_bits out))) (c_bits out);
    Ok (mkCounter bits (c_width out) (c_init out)))).

(** src/counter.cpp:227-236 *)
Record Weight := mkWeight { w_general : trlwe; w_counter : list Counter }.

(** src/counter.cpp:239-245  mark_general_bit; poly[i] beyond the array is undefined *)
Definition mark_general_bit (w : Weight) (i : nat) : res Weight :=
  if N1 <=? i then Fail FUndefined
  else Ok (mkWeight (TRLWELvl1_add N1 (w_general w) (trivial_TRLWELvl1 N1 (put (repeat 0%Z N1) i t_1o4))) (w_counter w)).

(** src/counter.cpp:247-250 *)
Definition get_general_bit (w : Weight) (i : nat) : res tlwe :=
  if N1 <=? i then Fail FUndefined else Ok (sei T (w_general w) i).

(** src/counter.cpp:252-264  initialize_general; [ncounters] is counter_.size() *)
Definition initialize_general (ncounters : nat) (state_no : N) : res trlwe :=
  if N1 <? 65 then Fail FUndefined
  else if N1 <? N1 / 2 + ncounters then Fail FUndefined
  else
    let poly := put (repeat 0%Z N1) 0 (- t_1o8) in
    let poly := fold_left (fun p i => put p (N1 / 2 + i) (- t_1o8)) (seq 0 ncounters) poly in
    let poly := fold_left (fun p i => put p (i + 1) (if N.testbit_nat state_no i then t_1o8 else (- t_1o8)%Z)) (seq 0 64) poly in
    Ok (trivial_TRLWELvl1 N1 poly).

(** src/counter.cpp:267-276  Weight(state_no, counter_spec): the general part is initialised while
    counter_ is still empty *)
Definition weight_new (state_no : N) (spec : list (nat * N)) : res Weight :=
  do general <- initialize_general 0 state_no;
  do counter <- mapM (fun '(w, v) => counter_new w v) spec;
  Ok (mkWeight general counter).
(** src/counter.cpp:278-282  Weight(state_no, src) *)
Definition weight_from (state_no : N) (src : Weight) : res Weight :=
  do general <- initialize_general (length (w_counter src)) state_no;
  Ok (mkWeight general (w_counter src)).

(** src/counter.cpp:284-287 *)
Definition get_accept (w : Weight) : res tlwe := get_general_bit w 0.
(** src/counter.cpp:289-292 *)
Definition mark_accept (w : Weight) : res Weight := mark_general_bit w 0.
(** src/counter.cpp:294-297 *)
Definition mark_counter (w : Weight) (i : nat) : res Weight := mark_general_bit w (N1 / 2 + i).
(** src/counter.cpp:299-302 *)
Definition reset_counter (w : Weight) (i : nat) : res Weight :=
  do c <- at_ (w_counter w) i;
  do c' <- counter_reset c;
  do cs <- set_at (w_counter w) i c';
  Ok (mkWeight (w_general w) cs).

(** A vector of TRGSW ciphertexts filled by a parallel loop, src/counter.cpp:310-315, 324-331. *)
Definition fill_trgsw (n : nat) (body : nat -> res (trgsw T)) : res (list (trgsw T)) :=
  do v <- par_for (seq 0 n) (fun i => do c <- body i; Ok (Some c)) (repeat None n);
  mapM (fun c => match c with Some c => Ok c | None => Fail FUndefined end) v.

(** src/counter.cpp:304-316  get_counter_condition; [order i] is the order of the reduction of
    counter i *)
Definition get_counter_condition (order : nat -> red) (w : Weight) : res (list (trgsw T)) :=
  fill_trgsw (length (w_counter w))
    (fun i => do c <- at_ (w_counter w) i; do temp <- counter_is_zero (order i) c; Ok (cb01 T G temp)).

(** src/counter.cpp:318-333  get_selectors *)
Definition get_selectors (log2_num_states : nat) (w : Weight) : res (list (trgsw T)) :=
  if N1 <=? log2_num_states then Fail FUndefined
  else fill_trgsw log2_num_states (fun i => Ok (cb01 T G (iks T (sei T (w_general w) (i + 1))))).

(** src/counter.cpp:335-347  update_counters *)
Definition update_counters (w : Weight) : res Weight :=
  do cs <- par_for (seq 0 (length (w_counter w)))
             (fun i => do borrow_l1 <- get_general_bit w (N1 / 2 + i);
                       do c <- at_ (w_counter w) i;
                       counter_minus_one c (iks T borrow_l1)) (w_counter w);
  Ok (mkWeight (w_general w) cs).

(** src/counter.cpp:349-371  Weight::decrypt.  1 << i is an int: from 31 on it is not a positive
    number, modelled as undefined. *)
Definition weight_decrypt (w : Weight) (key : list Z) : res (bool * N * N * list N) :=
  let poly := phase_of_TRLWELvl1 N1 (w_general w) key in
  let accept := sym_bit (cf poly 0) in
  do state_no <- foldM (fun r i => if sym_bit (cf poly (i + 1))
                          then if 31 <=? i then Fail FUndefined else Ok (N.lor r (N.shiftl 1 (N.of_nat i)))
                          else Ok r) (seq 0 64) 0%N;
  do info <- foldM (fun r i => if sym_bit (cf poly (N1 / 2 + i))
                      then if 31 <=? i then Fail FUndefined else Ok (N.lor r (N.shiftl 1 (N.of_nat i)))
                      else Ok r) (seq 0 (length (w_counter w))) 0%N;
  do counter <- mapM (fun c => counter_decrypt c key) (w_counter w);
  Ok (accept, state_no, info, counter).

(** src/counter.cpp:373-384  Weight::cmux *)
Definition weight_cmux (out : Weight) (sel : trgsw T) (in1 in0 : Weight) : res Weight :=
  assert_ (length (w_counter out) =? length (w_counter in1))
  (assert_ (length (w_counter out) =? length (w_counter in0))
   (do cs <- foldM (fun cs i => do o <- at_ cs i; do a <- at_ (w_counter in1) i; do b <- at_ (w_counter in0) i;
                      do o' <- counter_cmux o sel a b; set_at cs i o')
                   (seq 0 (length (w_counter out))) (w_counter out);
    Ok (mkWeight (cmux T sel (w_general in1) (w_general in0)) cs))).

(** src/counter.cpp:386-398  alter_weight *)
Definition alter_weight (src : Weight) (accept : bool) (reset inc : list nat) : res Weight :=
  do w <- (if accept then mark_accept src else Ok src);
  do w <- foldM reset_counter reset w;
  foldM mark_counter inc w.

(** src/counter.cpp:400-421  lookup_table; 1 << input_size is undefined from 31 on.  One level:
    tmp is filled from table and the two are swapped. *)
Fixpoint wlookup_levels (inputs : list (trgsw T)) (table tmp : list Weight) : res (list Weight) :=
  match inputs with
  | [] => Ok table
  | it :: inputs' =>
      do tmp' <- par_for (seq 0 (2 ^ length inputs'))
                   (fun j => do o <- at_ tmp j; do a <- at_ table (j * 2 + 1); do b <- at_ table (j * 2);
                             weight_cmux o it a b) tmp;
      wlookup_levels inputs' tmp' table
  end.
(** src/counter.cpp:400-421 *)
Definition wlookup_table (table : list Weight) (inputs : list (trgsw T)) : res (list Weight) :=
  let input_size := length inputs in
  if 31 <=? input_size then Fail FUndefined
  else assert_ (length table =? 2 ^ input_size)
  (if input_size =? 0 then Ok table
   else do d <- at_ table 0; wlookup_levels inputs table (repeat d (2 ^ (input_size - 1)))).

(** * BTTRunner, src/counter.cpp:423-432; r_evals counts the evaluations (it only names the
    reduction orders used by each of them). *)
Record runner := mkRunner {
  r_btt : BTT; r_graph : Graph; r_qsize : nat;
  r_queue : list (trgsw T); r_state : Weight; r_live : list State; r_evals : nat }.

(** src/counter.cpp:468-479 *)
Definition runner_new (b : BTT) (queue_size : nat) : res runner :=
  do g <- to_graph b;
  do w <- weight_new 0 (bt_spec b);
  Ok (mkRunner b g queue_size [] w [0] 0).

(** src/counter.cpp:517-526: the task of state q *)
Definition btt_task (b : BTT) (state : Weight) (weight : list (option Weight)) (input : trgsw T) (q : State)
  : res (option Weight) :=
  do '(e0, e1) <- get_edge b q;
  do o0 <- at_ weight (ed_to e0);
  do w0 <- match o0 with Some w => Ok w | None => Fail FBadOptional end;
  do in0 <- alter_weight w0 (ed_accept e0) (ed_reset e0) (ed_inc e0);
  do o1 <- at_ weight (ed_to e1);
  do w1 <- match o1 with Some w => Ok w | None => Fail FBadOptional end;
  do in1 <- alter_weight w1 (ed_accept e1) (ed_reset e1) (ed_inc e1);
  do out <- weight_from 0 state;
  do out <- weight_cmux out input in1 in0;
  Ok (Some out).

(** src/counter.cpp:507-529  eval_block_cmuxs *)
Definition eval_block_cmuxs (b : BTT) (state : Weight) (weight : list (option Weight)) (inputs : list (trgsw T))
    (levels : list (list State)) : res (list (option Weight)) :=
  do '(weight, _) <- foldM (fun '(weight, temp) i =>
                       do input <- at_ inputs i;
                       do states <- at_ levels i;
                       do temp' <- par_for states (btt_task b state weight input) temp;
                       Ok (temp', weight))
                     (rev (seq 0 (length inputs))) (weight, repeat None (length weight));
  Ok weight.

(** src/counter.cpp:531-594  eval_queued_inputs.  [order e i] is the order of the reduction of
    counter i at evaluation e.  ceil(log2(n)) is exact for vector sizes below 2^31. *)
Definition runner_eval_queued (order : nat -> nat -> red) (s : runner) : res runner :=
  if length (r_queue s) =? 0 then Ok s
  else
    let b := r_btt s in let g := r_graph s in let state := r_state s in let live := r_live s in
    do cond <- get_counter_condition (order (r_evals s)) state;
    let inputs := cond ++ r_queue s in
    do levels <- track_live_states g live (length inputs);
    let next := last levels [] in
    do n2i <- foldM (fun v i => do q <- at_ next i; set_at v q (Some i)) (seq 0 (length next)) (repeat None (size g));
    do weight <- foldM (fun weight q =>
                   do t <- at_ n2i q;
                   do w <- weight_from (match t with Some i => N.of_nat i | None => 18446744073709551615%N end) state;
                   set_at weight q (Some w)) next (repeat None (btt_size b));
    do weight <- eval_block_cmuxs b state weight inputs levels;
    do state' <-
      (if length live =? 1 then
         do o <- at_ weight 0;
         match o with Some w => Ok w | None => Fail FBadOptional end
       else
         let width := Nat.log2_up (length live) in
         do selectors <- get_selectors width state;
         do ws <- mapM (fun i => do q <- at_ live i; do o <- at_ weight q;
                                 match o with Some w => Ok w | None => Fail FBadOptional end) (seq 0 (length live));
         do dummy <- weight_from 0 state;
         do table <- wlookup_table (resize ws (2 ^ width) dummy) selectors;
         at_ table 0);
    do state' <- update_counters state';
    Ok (mkRunner b g (r_qsize s) [] state' next (S (r_evals s))).

(** src/counter.cpp:489-495 *)
Definition runner_eval_one (order : nat -> nat -> red) (s : runner) (input : trgsw T) : res runner :=
  let s := mkRunner (r_btt s) (r_graph s) (r_qsize s) (r_queue s ++ [input]) (r_state s) (r_live s) (r_evals s) in
  if length (r_queue s) <? r_qsize s then Ok s else runner_eval_queued order s.

(** src/counter.cpp:481-487 *)
Definition runner_result (order : nat -> nat -> red) (s : runner) : res (tlwe * runner) :=
  do s <- runner_eval_queued order s;
  do ret <- get_accept (r_state s);
  Ok (ret, s).

(** src/counter.cpp:497-505  dump: the values it prints *)
Definition runner_dump (s : runner) (key : list Z) : res (bool * State * N * list N) :=
  do '(accept, state_no, info, counter) <- weight_decrypt (r_state s) key;
  do q <- at_ (r_live s) (N.to_nat state_no);
  Ok (accept, q, info, counter).
End Counters.

(** src/counter.cpp:655-683: the tester of function test *)
Definition test_btt : BTT :=
  let e from input to accept reset inc check := mkEdge from to input accept reset inc check in
  mkBTT
    [ e 0 false 4 false [] [] (Some 0); e 0 true 4 false [] [] (Some 0);
      e 1 false 5 false [] [] (Some 0); e 1 true 5 false [] [] (Some 0);
      e 2 false 7 false [] [] (Some 0); e 2 true 6 false [] [] (Some 0);
      e 3 false 8 false [] [] (Some 0); e 3 true 8 false [] [] (Some 0);
      e 4 false 3 false [] [] None; e 4 true 1 true [] [] None;
      e 5 false 2 true [0] [] None; e 5 true 1 true [] [] None;
      e 6 false 3 false [] [] None; e 6 true 1 true [] [] None;
      e 7 false 2 true [] [0] None; e 7 true 1 true [] [] None;
      e 8 false 3 false [] [] None; e 8 true 1 true [] [] None ] [(10, 10%N)].
