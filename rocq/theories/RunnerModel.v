(** Model of the encrypted DFA runners: src/backstream_dfa_runner.cpp, src/offline_dfa.cpp and
    src/online_dfa.cpp.  The TFHEpp functions are the fields of [T : tfhe].

    Parallel regions (std::execution::par, tbb::parallel_for) are [par_for]: every task writes the
    one slot of [out] that carries its number.  Two tasks with the same number would be a data
    race, hence undefined behaviour.  That the interleaving of the tasks does not matter is proved
    in ParModel.v/PropsPar.v (C36).

    The shared_ptr<EvalKey> of a runner is modelled by the flag "is not null"; the keys
    themselves are implicit in the operations of [T]. *)
From Coq Require Import List Arith Bool NArith ZArith.
Import ListNotations.
From Verif Require Import Base GraphModel TorusModel.

Fixpoint nodupb (l : list nat) : bool :=
  match l with [] => true | x :: l' => negb (smem x l') && nodupb l' end.

(** Sequential reading of the parallel loops, src/backstream_dfa_runner.cpp:58-68 etc.
    (every other order is treated in ParModel.v).
    A parallel for-each over [targets]; the task of q stores [body q] at out.at(q). *)
Definition par_for {A} (targets : list nat) (body : nat -> res A) (out : list A) : res (list A) :=
  if nodupb targets
  then foldM (fun o q => do v <- body q; set_at o q v) targets out
  else Fail FUndefined.

(** src/timeit.hpp:14-18 TimeRecorder::TARGET.  A runner's recorder is the list of its
    (target, count) samples in order; the measured durations are added in TimeModel.v. *)
Inductive target := T_CIRCUIT_BOOTSTRAPPING | T_BOOTSTRAPPING | T_CMUX.

(** src/backstream_dfa_runner.cpp:58, src/online_dfa.cpp:244-373.
    Conversion of a size_t difference to int (two's complement). *)
Definition int_of_diff (a b : nat) : Z :=
  let d := ((Z.of_nat a - Z.of_nat b) mod 4294967296)%Z in
  if (d <? 2147483648)%Z then d else (d - 4294967296)%Z.

Section Runners.
Context (T : tfhe).
Notation N1 := (t_n1 T).
Let zero : trlwe := trivial_TRLWELvl1_zero (t_n1 T).

(** * BackstreamDFARunner, src/backstream_dfa_runner.hpp:10-24 *)
Record backstream := mkBack {
  b_graph : Graph;
  b_weight : list trlwe;
  b_input_size : option nat;
  b_interval : nat;
  b_nproc : nat;
  b_work : list trlwe;
  b_timer : list (target * nat) }.

(** src/backstream_dfa_runner.cpp:8-34 *)
Definition backstream_new (graph : Graph) (boot_interval : nat) (input_size : option nat)
    (eval_key sanitize_result : bool) : res backstream :=
  assert_ eval_key
  (if sanitize_result then Fail FExit
   else
     do g <- match input_size with
             | Some n => reserve_states_at_depth graph n
             | None => Ok graph
             end;
     do weight <- foldM (fun w st => do f <- is_final_state g st;
                                     set_at w st (if f then trivial_TRLWELvl1_1over2 N1 else zero))
                        (seq 0 (size g)) (repeat zero (size graph));
     Ok (mkBack g weight input_size boot_interval 0 (repeat zero (size graph)) [])).

(** src/backstream_dfa_runner.cpp:36-42 *)
Definition backstream_result (s : backstream) : res tlwe :=
  do w <- at_ (b_weight s) (initial_state (b_graph s)); Ok (sei T w 0).

(** src/backstream_dfa_runner.cpp:61-68: the body of the parallel loop (also
    src/online_dfa.cpp:483-490) *)
Definition cmux_body (g : Graph) (weight : list trlwe) (input : trgsw T) (q : State) : res trlwe :=
  do q0 <- next_state g q false;
  do q1 <- next_state g q true;
  do w0 <- at_ weight q0;
  do w1 <- at_ weight q1;
  Ok (cmux T input w1 w0).

(** src/backstream_dfa_runner.cpp:81-92 *)
Definition bootstrap_weight (targets : list State) (weight : list trlwe) : res (list trlwe) :=
  par_for targets (fun q => do w <- at_ weight q; Ok (do_SEI_IKS_GBTLWE2TRLWE_2 T w)) weight.

(** src/backstream_dfa_runner.cpp:44-79.  num_processed_inputs_ does not wrap (2^64 inputs).
    eval_key_ is not null (constructor).  x % 0 is undefined. *)
Definition backstream_eval (s : backstream) (input : trgsw T) : res backstream :=
  let g := b_graph s in
  let out := resize (b_work s) (size g) zero in
  do states <- match b_input_size s with
               | Some n =>
                   let j := int_of_diff n (b_nproc s) in
                   assert_ (0 <? j)%Z (states_at_depth g (Z.to_nat (j - 1)))
               | None => Ok (all_states g)
               end;
  do weight' <- par_for states (cmux_body g (b_weight s) input) out;
  let work' := b_weight s in
  let timer' := b_timer s ++ [(T_CMUX, length states)] in
  let np := S (b_nproc s) in
  if b_interval s =? 0 then Fail FUndefined
  else if np mod b_interval s =? 0 then
    do weight2 <- bootstrap_weight states weight';
    Ok (mkBack g weight2 (b_input_size s) (b_interval s) np work' (timer' ++ [(T_BOOTSTRAPPING, length states)]))
  else Ok (mkBack g weight' (b_input_size s) (b_interval s) np work' timer').

(** * OfflineDFARunner, src/offline_dfa.cpp:7-24 *)
Definition offline_new (graph : Graph) (input_size boot_interval : nat) (eval_key sanitize : bool) : res backstream :=
  backstream_new graph boot_interval (Some input_size) eval_key sanitize.
(** src/offline_dfa.cpp:14-17 *)
Definition offline_result := backstream_result.
(** src/offline_dfa.cpp:19-24 *)
Definition offline_eval_one := backstream_eval.

(** * OnlineDFARunner2 (reverse), src/online_dfa.cpp:100-117 *)
Definition online2_new (graph : Graph) (boot_interval : nat) (is_spec_reversed : bool) (eval_key sanitize : bool)
  : res backstream :=
  do g <- (if is_spec_reversed then Ok graph else do r <- reversed graph; minimized r);
  backstream_new g boot_interval None eval_key sanitize.
(** src/online_dfa.cpp:109-112 *)
Definition online2_result := backstream_result.
(** src/online_dfa.cpp:114-117 *)
Definition online2_eval_one := backstream_eval.

(** * Look-up tables *)
(** src/online_dfa.cpp:205-212: one iteration of the loop over the inputs, [half] = 1 << (input_size
    - i - 1); the vectors are swapped afterwards. *)
Definition lookup_level (it : trgsw T) (half : nat) (table tmp : list trlwe) : res (list trlwe * list trlwe) :=
  do tmp' <- par_for (seq 0 half)
               (fun j => do a <- at_ table (j * 2 + 1); do b <- at_ table (j * 2); Ok (cmux T it a b)) tmp;
  Ok (tmp', table).
(** src/online_dfa.cpp:204-213, 229-241 *)
Fixpoint lookup_levels (inputs : list (trgsw T)) (table tmp : list trlwe) (timer : list (target * nat))
  : res (list trlwe * list trlwe * list (target * nat)) :=
  match inputs with
  | [] => Ok (table, tmp, timer)
  | it :: rest =>
      let half := 2 ^ length rest in
      do '(table', tmp') <- lookup_level it half table tmp;
      lookup_levels rest table' tmp' (timer ++ [(T_CMUX, half)])
  end.

(** src/online_dfa.cpp:215-242  lookup_table_with_timer.  1 << k is an int: undefined for k >= 32, and
    negative for k = 31, where the assertion fails; the model does not tell these apart. *)
Definition lookup_table_with_timer (table : list trlwe) (inputs : list (trgsw T)) (workspace : list trlwe)
    (timer : list (target * nat)) : res (list trlwe * list trlwe * list (target * nat)) :=
  let input_size := length inputs in
  if 31 <=? input_size then Fail FUndefined
  else assert_ (length table =? 2 ^ input_size)
    (if input_size =? 0 then Ok (table, workspace, timer)
     else lookup_levels inputs table (repeat zero (2 ^ (input_size - 1))) timer).

(** src/online_dfa.cpp:190-213  lookup_table: the same without the timer *)
Definition lookup_table (table : list trlwe) (inputs : list (trgsw T)) (workspace : list trlwe)
  : res (list trlwe * list trlwe) :=
  do '(t, w, _) <- lookup_table_with_timer table inputs workspace []; Ok (t, w).

(** * OnlineDFARunner3 (FLUT), src/online_dfa.hpp:51-66.  The two workspace tables are cleared
    before every use and are not part of the state; debug_skey_ is unused. *)
Record flut := mkFlut {
  f_graph : Graph;
  f_weight : list trlwe;
  f_queue : list (trgsw T);
  f_max : nat;
  f_qsize : nat;
  f_live : list State;
  f_memo : list (list State);
  f_neval : nat;
  f_freq : nat;
  f_first : nat;
  f_second : nat }.

(** src/online_dfa.cpp:152-163: the table of transitions over words of length [depth]
    (1 << depth is undefined for depth >= 32; for 31 it is negative and the loop would run to 2^64 -
    2^31 and exhaust the memory: the model stops at 31 too) *)
Definition memo_at_depth (g : Graph) (depth : nat) : res (list State) :=
  if 31 <=? depth then Fail FUndefined
  else foldM (fun memo input =>
         foldM (fun memo src => do dst <- transition64 g src (N.of_nat input) (Z.of_nat depth); Ok (memo ++ [dst]))
               (all_states g) memo)
       (seq 0 (2 ^ depth)) [].

(** src/online_dfa.cpp:120-164 *)
Definition flut_new (graph : Graph) (max_second_lut_depth queue_size bootstrapping_freq : nat) (sanitize : bool)
  : res flut :=
  if sanitize then Fail FExit
  else
    do weight <- foldM (fun w st => if st =? initial_state graph
                                    then set_at w st (trivial_TRLWELvl1_1over2 N1) else Ok w)
                       (all_states graph) (repeat zero (size graph));
    do memo <- foldM (fun memo depth => do m <- memo_at_depth graph depth; Ok (memo ++ [m]))
                     (seq 0 (S queue_size)) [];
    Ok (mkFlut graph weight [] max_second_lut_depth queue_size [initial_state graph] memo 0
               bootstrapping_freq 0 0).

(** src/online_dfa.cpp:253-262: next_live_states *)
Definition flut_next_live (g : Graph) (memo : list State) (live : list State) (input_size : nat) : res (list State) :=
  foldM (fun tmp input =>
    foldM (fun tmp st_from => do st_to <- at_ memo (input * size g + st_from); Ok (sinsert st_to tmp)) live tmp)
    (seq 0 (2 ^ input_size)) [].

(** src/online_dfa.cpp:263-266: st2idx *)
Definition flut_st2idx (g : Graph) (next : list State) : res (list nat) :=
  foldM (fun v i => do q <- at_ next i; set_at v q i) (seq 0 (length next)) (repeat 0 (size g)).

(** src/online_dfa.cpp:298-312: the entry of the first table for the low bits input1 *)
Definition flut_entry (g : Graph) (memo : list State) (live : list State) (weight : list trlwe) (st2idx : list nat)
    (nnext first second : nat) (input1 : nat) : res trlwe :=
  foldM (fun acc st_from =>
    foldM (fun acc input2 =>
      do st_to <- at_ memo (Nat.lor (Nat.shiftl input2 first) input1 * size g + st_from);
      do w <- at_ weight st_from;
      do idx <- at_ st2idx st_to;
      do c <- TRLWELvl1_mult_X_k N1 w (input2 * nnext + idx);
      Ok (TRLWELvl1_add N1 acc c))
      (seq 0 (2 ^ second)) acc)
    live zero.

(** src/online_dfa.cpp:320-323: rotating the result of the first table; i * |next| > 2n wraps a
    size_t and leaves the arrays *)
Definition flut_rotate (t0 : trlwe) (nnext : nat) (i : nat) : res trlwe :=
  if 2 * N1 <? i * nnext then Fail FUndefined
  else TRLWELvl1_mult_X_k N1 t0 (2 * N1 - i * nnext).

(** src/online_dfa.cpp:345-366: a state's new weight from the second table *)
Definition flut_refresh (should_bootstrap : bool) (next_trlwe : trlwe) (idx : nat) : trlwe :=
  let tlwe_l1 := sei T next_trlwe idx in
  let tlwe_l1 := if should_bootstrap
                 then sei T (BS_TLWE_0_1o2_to_TRLWE_0_1o2 T (iks T tlwe_l1)) 0
                 else tlwe_l1 in
  packks T tlwe_l1.

(** src/online_dfa.cpp:244-373  eval_queued_inputs.  1 << max_second_lut_depth_ is undefined from
    32 on; for 31 it is the least int, which as a size_t is larger than any size.  std::log2 of a vector size and the conversion of max - log2(n) to size_t are exact for
    sizes below 2^31: max - ceil(log2 n). *)
Definition flut_eval_queued (s : flut) : res flut :=
  let g := f_graph s in
  let input_size := length (f_queue s) in
  if input_size =? 0 then Ok s
  else if 31 <=? input_size then Fail FUndefined
  else
    do memo <- at_ (f_memo s) input_size;
    do next <- flut_next_live g memo (f_live s) input_size;
    do st2idx <- flut_st2idx g next;
    if 32 <=? f_max s then Fail FUndefined
    else if (if f_max s =? 31 then false else 2 ^ f_max s <=? length next) then Fail FExit
    else
      let second := Nat.min (input_size / 2) (f_max s - Nat.log2_up (length next)) in
      let first := input_size - second in
      assert_ (first + second =? input_size)
      (do table <- par_for (seq 0 (2 ^ first))
                     (flut_entry g memo (f_live s) (f_weight s) st2idx (length next) first second)
                     (repeat zero (2 ^ first));
       do '(table, ws) <- lookup_table table (firstn first (f_queue s)) [];
       let table := resize table (2 ^ second) zero in
       do t0 <- at_ table 0;
       do table <- par_for (seq 1 (2 ^ second - 1)) (flut_rotate t0 (length next)) table;
       do '(table, ws) <- lookup_table table (skipn first (f_queue s)) ws;
       do next_trlwe <- at_ table 0;
       let num_eval := S (f_neval s) in
       if f_freq s =? 0 then Fail FUndefined
       else
         let should_bootstrap := num_eval mod f_freq s =? 0 in
         do weight <- par_for next
              (fun st => do idx <- at_ st2idx st; Ok (flut_refresh should_bootstrap next_trlwe idx)) (f_weight s);
         Ok (mkFlut g weight [] (f_max s) (f_qsize s) next (f_memo s) num_eval (f_freq s) first second)).

(** src/online_dfa.cpp:182-188 *)
Definition flut_eval_one (s : flut) (input : trgsw T) : res flut :=
  let s := mkFlut (f_graph s) (f_weight s) (f_queue s ++ [input]) (f_max s) (f_qsize s) (f_live s) (f_memo s)
                  (f_neval s) (f_freq s) (f_first s) (f_second s) in
  if length (f_queue s) <? f_qsize s then Ok s else flut_eval_queued s.

(** src/online_dfa.cpp:166-180 *)
Definition flut_result (s : flut) : res (tlwe * flut) :=
  do s <- flut_eval_queued s;
  do acc <- foldM (fun acc st => do f <- is_final_state (f_graph s) st;
                     if f : bool then do w <- at_ (f_weight s) st; Ok (TRLWELvl1_add N1 acc w) else Ok acc)
                  (f_live s) zero;
  Ok (sei T acc 0, s).

(** * OnlineDFARunner4 (BLOCK), src/online_dfa.hpp:108-122.  The workspaces are cleared or
    overwritten before every use and are not part of the state. *)
Record block := mkBlock {
  k_graph : Graph;
  k_qsize : nat;
  k_queue : list (trgsw T);
  k_selector : option trlwe;
  k_live : list State;
  k_timer : list (target * nat) }.

(** src/online_dfa.cpp:376-390 *)
Definition block_new (graph : Graph) (queue_size : nat) (sanitize : bool) : res block :=
  if sanitize then Fail FExit
  else Ok (mkBlock graph queue_size [] None [initial_state graph] []).

(** src/online_dfa.cpp:458-459, 499-506
    std::floor(std::log2(n)) + 1, exact for sizes below 2^31 *)
Definition index_width (n : nat) : nat := Nat.log2 n + 1.

(** src/online_dfa.cpp:447-450: next_live_to_index (None is -1) *)
Definition block_index (g : Graph) (next : list State) : res (list (option nat)) :=
  foldM (fun v i => do q <- at_ next i; set_at v q (Some i)) (seq 0 (length next)) (repeat None (size g)).

(** src/online_dfa.cpp:460-476: the weight of a next live state.  Writing beyond the polynomial
    (operator[] of std::array) is undefined. *)
Definition block_bit (t : option nat) (i : nat) : bool :=
  match t with Some t => Nat.testbit t i | None => true end.
(** src/online_dfa.cpp:464-476 *)
Definition block_init_weight (width : nat) (final : bool) (t : option nat) (w : trlwe) : res trlwe :=
  if N1 <=? width then Fail FUndefined
  else
    let b := put (snd w) 0 (if final then t_1o2 else 0%Z) in
    let b := fold_left (fun b i => put b (i + 1) (if block_bit t i then t_1o8 else (- t_1o8)%Z)) (seq 0 width) b in
    Ok (fst w, b).

(** src/online_dfa.cpp:478-496: back propagation through the queue *)
Definition block_propagate (g : Graph) (levels : list (list State)) (queue : list (trgsw T))
    (st : list trlwe * list trlwe * list (target * nat)) (i : nat) : res (list trlwe * list trlwe * list (target * nat)) :=
  let '(weight, out, timer) := st in
  do states <- at_ levels i;
  do input <- at_ queue i;
  do out' <- par_for states (cmux_body g weight input) out;
  Ok (out', weight, timer ++ [(T_CMUX, length states)]).

(** src/online_dfa.cpp:411-535  eval_queued_inputs.  The computation of live_states_at_depth
    (419-439) is the loop of track_live_states. *)
Definition block_eval_queued (s : block) : res block :=
  let g := k_graph s in
  let input_size := length (k_queue s) in
  if input_size =? 0 then Ok s
  else
    let live := k_live s in
    do levels <- track_live_states g live input_size;
    let next := last levels [] in
    do n2i <- block_index g next;
    let next_width := index_width (length next) in
    do weight <- foldM (fun weight q =>
                   do f <- is_final_state g q;
                   do t <- at_ n2i q;
                   do w <- at_ weight q;
                   do w' <- block_init_weight next_width f t w;
                   set_at weight q w') next (repeat zero (size g));
    do '(weight, out, timer) <- foldM (block_propagate g levels (k_queue s)) (rev (seq 0 input_size))
                                      (weight, repeat zero (size g), k_timer s);
    if length live =? 1 then
      do q <- at_ live 0;
      do sel <- at_ weight q;
      Ok (mkBlock g (k_qsize s) [] (Some sel) next timer)
    else
      let width := index_width (length live) in
      match k_selector s with
      | None => Fail FUndefined
      | Some sel =>
          if N1 <=? width then Fail FUndefined
          else
            do cond <- par_for (seq 0 width) (fun i => Ok (Some (CircuitBootstrappingFFTLvl11 T (sei T sel (i + 1)))))
                               (repeat None width);
            do cond <- mapM (fun c => match c with Some c => Ok c | None => Fail FUndefined end) cond;
            let timer := timer ++ [(T_CIRCUIT_BOOTSTRAPPING, width)] in
            do out <- foldM (fun out i => do q <- at_ live i; do w <- at_ weight q; set_at out i w)
                            (seq 0 (length live)) out;
            let table := resize out (2 ^ width) zero in
            do '(table, _, timer) <- lookup_table_with_timer table cond (resize weight (2 ^ width) zero) timer;
            do sel <- at_ table 0;
            Ok (mkBlock g (k_qsize s) [] (Some sel) next timer)
      end.

(** src/online_dfa.cpp:403-409 *)
Definition block_eval_one (s : block) (input : trgsw T) : res block :=
  let s := mkBlock (k_graph s) (k_qsize s) (k_queue s ++ [input]) (k_selector s) (k_live s) (k_timer s) in
  if length (k_queue s) <? k_qsize s then Ok s else block_eval_queued s.

(** src/online_dfa.cpp:392-401 *)
Definition block_result (s : block) : res (tlwe * block) :=
  do s <- block_eval_queued s;
  match k_selector s with
  | None => Fail FAssert
  | Some sel => Ok (sei T sel 0, s)
  end.

(** * OnlineDFARunner (legacy), src/online_dfa.cpp:11-97.  [log_ratio n] is the truncated
    floating-point quotient log(8000)/log(n). *)
Record legacy := mkLegacy {
  l_graph : Graph;
  l_weight : list trlwe;
  l_interval : nat;
  l_nproc : nat }.

(** src/online_dfa.cpp:11-36 *)
Definition legacy_new (log_ratio : nat -> nat) (graph : Graph) (eval_key sanitize : bool) : res legacy :=
  assert_ eval_key
  (if sanitize then Fail FExit
   else
     do weight <- foldM (fun w st => set_at w st (if st =? initial_state graph then trivial_TRLWELvl1_1over8 N1
                                                  else trivial_TRLWELvl1_minus_1over8 N1))
                        (seq 0 (size graph)) (repeat zero (size graph));
     assert_ (1 <? size graph)
     (assert_ (0 <? log_ratio (size graph))
      (Ok (mkLegacy graph weight (log_ratio (size graph)) 0)))).

(** src/online_dfa.cpp:66-81 *)
Definition legacy_sum (weight : list trlwe) (parents : list State) : res trlwe :=
  foldM (fun acc p => do w <- at_ weight p;
                      Ok (TRLWELvl1_add N1 (TRLWELvl1_add N1 acc w) (trivial_TRLWELvl1_1over8 N1)))
        parents (trivial_TRLWELvl1_minus_1over8 N1).
(** src/online_dfa.cpp:60-89 *)
Definition legacy_eval_one (s : legacy) (input : trgsw T) : res legacy :=
  let g := l_graph s in
  do weight <- par_for (all_states g)
    (fun st => do p0 <- prev_states g st false;
               do p1 <- prev_states g st true;
               do acc0 <- legacy_sum (l_weight s) p0;
               do acc1 <- legacy_sum (l_weight s) p1;
               Ok (cmux T input acc1 acc0)) (repeat zero (length (l_weight s)));
  let np := S (l_nproc s) in
  if np mod l_interval s =? 0
  then Ok (mkLegacy g (map (do_SEI_IKS_GBTLWE2TRLWE T) weight) (l_interval s) np)
  else Ok (mkLegacy g weight (l_interval s) np).

(** src/online_dfa.cpp:38-58: the sum over the final states, then assert(0 && "...") *)
Definition legacy_result (s : legacy) : res tlwe :=
  do acc <- foldM (fun acc st => do f <- is_final_state (l_graph s) st;
                     if f : bool then do w <- at_ (l_weight s) st;
                               Ok (TRLWELvl1_add N1 (TRLWELvl1_add N1 acc w) (trivial_TRLWELvl1_1over8 N1))
                     else Ok acc) (seq 0 (size (l_graph s))) (trivial_TRLWELvl1_minus_1over8 N1);
  assert_ false (Ok (sei T acc 0)).
End Runners.
