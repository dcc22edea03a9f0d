(** Threads of the parallel regions (std::for_each with std::execution::par, tbb::parallel_for) as
    small programs over shared memory, their interleavings, and the tasks of every parallel region
    in src/backstream_dfa_runner.cpp (58-68, 85-90) and src/online_dfa.cpp (63-81, 92-96, 205-212,
    229-238, 298-312, 320-323, 345-366, 478-496, 515-522).

    A task is a sequence of reads and writes of shared cells.  One cell is one element of a vector
    of ciphertexts.  Reads and writes inside a TFHEpp call are not atomic in the code: a call that
    fills a cell is modelled by an arbitrary number of re-reads of its arguments and writes of
    arbitrary intermediate values before the final value is written ([busy]).  Local variables of
    a task (c, tlwe_l1, ...) and data that is constant during the region (the graph, the input
    ciphertexts, memo, st2idx) are not shared cells. *)
From Coq Require Import List Arith Bool NArith ZArith.
Import ListNotations.
From Verif Require Import Base GraphModel TorusModel RunnerModel.

(** The vectors that live in shared memory during a region. *)
Inductive buf :=
| B_weight   (* weight_, or the local "weight" of OnlineDFARunner4 *)
| B_out      (* workspace_, the local "out" *)
| B_table    (* table *)
| B_tmp      (* tmp in lookup_table *)
| B_sel      (* selector_ (one cell) *)
| B_ws4      (* workspace4_ *)
| B_cond.    (* cond *)
Scheme Equality for buf.
Definition addr : Type := buf * nat.
(** (auxiliary) equality of the cells of the vectors of src/backstream_dfa_runner.hpp:10-24 and
    src/online_dfa.hpp:10-122 *)
Definition addr_eqb (a b : addr) : bool := buf_beq (fst a) (fst b) && (snd a =? snd b).

Section Programs.
Context {V : Type}.

(** The tasks of the parallel loops, src/backstream_dfa_runner.cpp:58-68 etc.
    [Throw] is a thrown exception, a failed assertion or undefined behaviour. *)
Inductive prog :=
| Done
| Throw (f : fault)
| Rd (a : addr) (k : V -> prog)
| Wr (a : addr) (v : V) (k : prog).

(** The contents of the vectors shared by the tasks of
    the parallel loops, src/backstream_dfa_runner.cpp:58-68 etc. *)
Definition mem := addr -> V.
(** (auxiliary) an assignment to a vector element, e.g. src/backstream_dfa_runner.cpp:63 *)
Definition store (m : mem) (a : addr) (v : V) : mem := fun b => if addr_eqb a b then v else m b.

(** Sequential execution of the body of one of the parallel loops,
    src/backstream_dfa_runner.cpp:58-68 etc.
    One task running alone. *)
Fixpoint solo (p : prog) (m : mem) : res mem :=
  match p with
  | Done => Ok m
  | Throw f => Fail f
  | Rd a k => solo (k (m a)) m
  | Wr a v k => solo k (store m a v)
  end.

(** std::for_each(std::execution::par, ...) and tbb::parallel_for:
    the parallel loops, src/backstream_dfa_runner.cpp:58-68 etc.
    One step of one task. *)
Inductive act : prog -> mem -> prog -> mem -> Prop :=
| act_rd a k m : act (Rd a k) m (k (m a)) m
| act_wr a v k m : act (Wr a v k) m k (store m a v).

(** The parallel loops, src/backstream_dfa_runner.cpp:58-68 etc.
    One step of a region: any task that has not finished makes its next access. *)
Inductive step : list prog * mem -> list prog * mem -> Prop :=
| step_at l p r m p' m' : act p m p' m' -> step (l ++ p :: r, m) (l ++ p' :: r, m').

(** The parallel loops, src/backstream_dfa_runner.cpp:58-68 etc.
    Any number of steps, in any order. *)
Inductive steps : list prog * mem -> list prog * mem -> Prop :=
| steps_refl c : steps c c
| steps_step c c' c'' : step c c' -> steps c' c'' -> steps c c''.

(** The parallel loops, src/backstream_dfa_runner.cpp:58-68 etc. *)
Definition ended (p : prog) : Prop := p = Done \/ exists f, p = Throw f.

(** The parallel loops, src/backstream_dfa_runner.cpp:58-68 etc.
    The region [ps], started in [m], can end in [m'] with the tasks in the states [ps']. *)
Definition region (ps : list prog) (m : mem) (ps' : list prog) (m' : mem) : Prop :=
  steps (ps, m) (ps', m') /\ Forall ended ps'.

(** e.g. src/online_dfa.cpp:300-309.
    Pure computations of a task, which may throw. *)
Definition lift {A} (r : res A) (k : A -> prog) : prog :=
  match r with Ok x => k x | Fail f => Throw f end.

(** CMUXFFT and the bootstrapping functions, e.g. src/backstream_dfa_runner.cpp:63-65.
    Reading the cells [srcs] again, with no effect. *)
Fixpoint reads (srcs : list addr) (k : prog) : prog :=
  match srcs with [] => k | a :: srcs' => Rd a (fun _ => reads srcs' k) end.

(** CMUXFFT and the bootstrapping functions, e.g. src/backstream_dfa_runner.cpp:63-65.
    A call that fills [dst] from [srcs]: between its intermediate writes it may look at its
    arguments again. *)
Fixpoint busy (srcs : list addr) (dst : addr) (junk : list V) (k : prog) : prog :=
  match junk with [] => k | j :: junk' => reads srcs (Wr dst j (busy srcs dst junk' k)) end.
End Programs.
Arguments prog : clear implicits.
Arguments mem : clear implicits.

Section Tasks.
Context (T : tfhe).
Notation N1 := (t_n1 T).

(** src/backstream_dfa_runner.hpp:10-24, src/online_dfa.hpp:10-122: elements TRLWELvl1, TLWELvl1 and
    TRGSWLvl1FFT.
    Contents of a cell. *)
Inductive cell := C_rlwe (c : trlwe) | C_lwe (c : tlwe) | C_gsw (c : trgsw T).

(** reading an element of a vector<TRLWELvl1>, e.g. src/backstream_dfa_runner.cpp:63-65 *)
Definition rd_rlwe (a : addr) (k : trlwe -> prog cell) : prog cell :=
  Rd a (fun v => match v with C_rlwe c => k c | _ => Throw FUndefined end).
(** reading an element of a vector<TLWELvl1>, src/online_dfa.cpp:520 *)
Definition rd_lwe (a : addr) (k : tlwe -> prog cell) : prog cell :=
  Rd a (fun v => match v with C_lwe c => k c | _ => Throw FUndefined end).

(** e.g. src/backstream_dfa_runner.cpp:63-65
    v.at(i) on a vector of length [n], as an address *)
Definition ref (b : buf) (n i : nat) (k : addr -> prog cell) : prog cell :=
  if i <? n then k (b, i) else Throw FOutOfRange.

(** CMUXFFT and the bootstrapping functions, e.g. src/backstream_dfa_runner.cpp:63-65.
    A call filling [dst] with [v] from [srcs], through the intermediate contents [junk]. *)
Definition fill (srcs : list addr) (dst : addr) (junk : list cell) (v : cell) (k : prog cell) : prog cell :=
  busy srcs dst junk (Wr dst v k).

(** src/backstream_dfa_runner.cpp:61-68 and src/online_dfa.cpp:483-490.  [nw] and [no] are the
    lengths of the two vectors. *)
Definition cmux_task (g : Graph) (input : trgsw T) (nw no : nat) (junk : list cell) (q : State) : prog cell :=
  lift (next_state g q false) (fun q0 =>
  lift (next_state g q true) (fun q1 =>
  ref B_weight nw q0 (fun w0 =>
  ref B_weight nw q1 (fun w1 =>
  ref B_out no q (fun o =>
  rd_rlwe w0 (fun c0 => rd_rlwe w1 (fun c1 =>
  fill [w1; w0] o junk (C_rlwe (cmux T input c1 c0)) Done))))))).

(** src/backstream_dfa_runner.cpp:87-90: the weight is refreshed in place *)
Definition bootstrap_task (nw : nat) (junk : list cell) (q : State) : prog cell :=
  ref B_weight nw q (fun w =>
  rd_rlwe w (fun c => fill [] w junk (C_rlwe (do_SEI_IKS_GBTLWE2TRLWE_2 T c)) Done)).

(** src/online_dfa.cpp:66-81 *)
Fixpoint legacy_sum_task (nw : nat) (parents : list State) (acc : trlwe) (k : trlwe -> prog cell) : prog cell :=
  match parents with
  | [] => k acc
  | p :: ps => ref B_weight nw p (fun a => rd_rlwe a (fun w =>
      legacy_sum_task nw ps (TRLWELvl1_add N1 (TRLWELvl1_add N1 acc w) (trivial_TRLWELvl1_1over8 N1)) k))
  end.
(** src/online_dfa.cpp:66-81 *)
Definition legacy_task (g : Graph) (input : trgsw T) (nw no : nat) (junk : list cell) (st : State) : prog cell :=
  lift (prev_states g st false) (fun p0 =>
  lift (prev_states g st true) (fun p1 =>
  legacy_sum_task nw p0 (trivial_TRLWELvl1_minus_1over8 N1) (fun acc0 =>
  legacy_sum_task nw p1 (trivial_TRLWELvl1_minus_1over8 N1) (fun acc1 =>
  ref B_out no st (fun o => fill [] o junk (C_rlwe (cmux T input acc1 acc0)) Done))))).
(** src/online_dfa.cpp:91-97 *)
Definition legacy_bootstrap_task (nw : nat) (junk : list cell) (i : nat) : prog cell :=
  ref B_weight nw i (fun w =>
  rd_rlwe w (fun c => fill [] w junk (C_rlwe (do_SEI_IKS_GBTLWE2TRLWE T c)) Done)).

(** src/online_dfa.cpp:205-212, 229-238 *)
Definition lookup_task (it : trgsw T) (nt no : nat) (junk : list cell) (j : nat) : prog cell :=
  ref B_tmp no j (fun o =>
  ref B_table nt (j * 2 + 1) (fun a1 =>
  ref B_table nt (j * 2) (fun a0 =>
  rd_rlwe a1 (fun c1 => rd_rlwe a0 (fun c0 =>
  fill [a1; a0] o junk (C_rlwe (cmux T it c1 c0)) Done))))).

(** src/online_dfa.cpp:298-312: the two loops of the task input1, flattened to the list of its
    (st_from, input2); every iteration adds to table.at(input1) in place *)
Fixpoint entry_task (g : Graph) (memo : list State) (st2idx : list nat) (nnext first nw nt : nat)
    (junk : nat -> list cell) (input1 : nat) (work : list (State * nat)) : prog cell :=
  match work with
  | [] => Done
  | (st_from, input2) :: work' =>
      lift (at_ memo (Nat.lor (Nat.shiftl input2 first) input1 * size g + st_from)) (fun st_to =>
      ref B_weight nw st_from (fun w =>
      lift (at_ st2idx st_to) (fun idx =>
      rd_rlwe w (fun c =>
      lift (TRLWELvl1_mult_X_k N1 c (input2 * nnext + idx)) (fun c' =>
      ref B_table nt input1 (fun o =>
      rd_rlwe o (fun acc =>
      fill [] o (junk (length work')) (C_rlwe (TRLWELvl1_add N1 acc c'))
        (entry_task g memo st2idx nnext first nw nt junk input1 work'))))))))
  end.
(** src/online_dfa.cpp:299-304  the indices of the two inner loops *)
Definition pairs (live : list State) (second : nat) : list (State * nat) :=
  flat_map (fun st => map (fun i => (st, i)) (seq 0 (2 ^ second))) live.

(** src/online_dfa.cpp:320-323 *)
Definition rotate_task (nnext nt : nat) (junk : list cell) (i : nat) : prog cell :=
  ref B_table nt i (fun o =>
  ref B_table nt 0 (fun t0 =>
  rd_rlwe t0 (fun c =>
  if 2 * N1 <? i * nnext then Throw FUndefined
  else lift (TRLWELvl1_mult_X_k N1 c (2 * N1 - i * nnext)) (fun c' => fill [t0] o junk (C_rlwe c') Done)))).

(** src/online_dfa.cpp:345-366; next_trlwe is table.at(0) *)
Definition refresh_task (should_bootstrap : bool) (st2idx : list nat) (nw : nat) (junk : list cell) (st : State)
  : prog cell :=
  lift (at_ st2idx st) (fun idx =>
  rd_rlwe (B_table, 0) (fun c =>
  ref B_weight nw st (fun w => fill [] w junk (C_rlwe (flut_refresh T should_bootstrap c idx)) Done))).

(** src/online_dfa.cpp:515-517 *)
Definition extract_task (no : nat) (junk : list cell) (i : nat) : prog cell :=
  ref B_ws4 no i (fun o =>
  rd_rlwe (B_sel, 0) (fun sel => fill [(B_sel, 0)] o junk (C_lwe (sei T sel (i + 1))) Done)).
(** src/online_dfa.cpp:519-522 *)
Definition cb_task (nws no : nat) (junk : list cell) (i : nat) : prog cell :=
  ref B_cond no i (fun o =>
  ref B_ws4 nws i (fun a =>
  rd_lwe a (fun c => fill [a] o junk (C_gsw (CircuitBootstrappingFFTLvl11 T c)) Done))).
End Tasks.

(** * Scheduled runners *)
(** The parallel loops, src/backstream_dfa_runner.cpp:58-68 etc.
    A function whose parallel regions may be scheduled in any way has a set of outcomes. *)
Definition outcomes (A : Type) : Type := res A -> Prop.
(** (auxiliary) a part of a function without a parallel loop, e.g. src/online_dfa.cpp:244-297 *)
Definition det {A} (r : res A) : outcomes A := fun x => x = r.
(** (auxiliary) sequencing, e.g. src/online_dfa.cpp:244-373 *)
Definition obind {A B} (m : outcomes A) (k : A -> outcomes B) : outcomes B :=
  fun r => exists x, m x /\ match x with Ok a => k a r | Fail f => r = Fail f end.
Notation "'any' x <- m ; k" := (obind m (fun x => k)) (at level 200, x name, m at level 100, k at level 200).
Notation "'any' ' p <- m ; k" := (obind m (fun x => let p := x in k))
  (at level 200, p pattern, m at level 100, k at level 200).
(** (auxiliary) a sequential loop around a parallel one, e.g. src/online_dfa.cpp:479-496 *)
Fixpoint foldS {A S} (f : S -> A -> outcomes S) (l : list A) (s : S) : outcomes S :=
  match l with [] => det (Ok s) | x :: l' => any s' <- f s x; foldS f l' s' end.

Section Scheduled.
Context (T : tfhe).
Notation N1 := (t_n1 T).
Notation zero := (trivial_TRLWELvl1_zero (t_n1 T)).

(** src/backstream_dfa_runner.hpp:10-24, src/online_dfa.hpp:10-122.
    The vector [l] lies in memory at [b]. *)
Definition vec (m : mem (cell T)) (b : buf) (l : list trlwe) : Prop :=
  forall i v, nth_error l i = Some v -> m (b, i) = C_rlwe T v.

(** The parallel loops, src/backstream_dfa_runner.cpp:58-68 etc.
    A parallel region over [targets] that fills [o] (with the contents [out] before), the vectors
    [ctx] being in memory, under any schedule and with any intermediate values. *)
Definition par_any {J} (o : buf) (targets : list nat) (task : J -> nat -> prog (cell T))
    (ctx : list (buf * list trlwe)) (out : list trlwe) : outcomes (list trlwe) := fun r =>
  exists m (junk : nat -> J) ps' m',
    vec m o out /\ Forall (fun bl => vec m (fst bl) (snd bl)) ctx /\
    region (map (fun q => task (junk q) q) targets) m ps' m' /\
    match r with
    | Ok out' => Forall (fun p => p = Done) ps' /\ length out' = length out /\ vec m' o out'
    | Fail f => In (Throw f) ps'
    end.

(** src/backstream_dfa_runner.cpp:81-92 *)
Definition bootstrap_weight_any (targets : list State) (weight : list trlwe) : outcomes (list trlwe) :=
  par_any B_weight targets (bootstrap_task T (length weight)) [] weight.

(** src/backstream_dfa_runner.cpp:44-79, cf. [backstream_eval] *)
Definition backstream_eval_any (s : backstream) (input : trgsw T) : outcomes backstream :=
  let g := b_graph s in
  let out := resize (b_work s) (size g) zero in
  any states <- det match b_input_size s with
                    | Some n =>
                        let j := int_of_diff n (b_nproc s) in
                        assert_ (0 <? j)%Z (states_at_depth g (Z.to_nat (j - 1)))
                    | None => Ok (all_states g)
                    end;
  any weight' <- par_any B_out states (cmux_task T g input (length (b_weight s)) (length out))
                         [(B_weight, b_weight s)] out;
  let work' := b_weight s in
  let timer' := b_timer s ++ [(T_CMUX, length states)] in
  let np := S (b_nproc s) in
  if b_interval s =? 0 then det (Fail FUndefined)
  else if np mod b_interval s =? 0 then
    any weight2 <- bootstrap_weight_any states weight';
    det (Ok (mkBack g weight2 (b_input_size s) (b_interval s) np work' (timer' ++ [(T_BOOTSTRAPPING, length states)])))
  else det (Ok (mkBack g weight' (b_input_size s) (b_interval s) np work' timer')).

(** src/online_dfa.cpp:204-213, 228-242, cf. [lookup_levels] *)
Definition lookup_level_any (it : trgsw T) (half : nat) (table tmp : list trlwe) : outcomes (list trlwe * list trlwe) :=
  any tmp' <- par_any B_tmp (seq 0 half) (lookup_task T it (length table) (length tmp)) [(B_table, table)] tmp;
  det (Ok (tmp', table)).
(** src/online_dfa.cpp:204-213, 228-242 *)
Fixpoint lookup_levels_any (inputs : list (trgsw T)) (table tmp : list trlwe) (timer : list (target * nat))
  : outcomes (list trlwe * list trlwe * list (target * nat)) :=
  match inputs with
  | [] => det (Ok (table, tmp, timer))
  | it :: rest =>
      let half := 2 ^ length rest in
      any '(table', tmp') <- lookup_level_any it half table tmp;
      lookup_levels_any rest table' tmp' (timer ++ [(T_CMUX, half)])
  end.
(** src/online_dfa.cpp:215-242 *)
Definition lookup_table_with_timer_any (table : list trlwe) (inputs : list (trgsw T)) (workspace : list trlwe)
    (timer : list (target * nat)) : outcomes (list trlwe * list trlwe * list (target * nat)) :=
  let input_size := length inputs in
  if 31 <=? input_size then det (Fail FUndefined)
  else if length table =? 2 ^ input_size then
    (if input_size =? 0 then det (Ok (table, workspace, timer))
     else lookup_levels_any inputs table (repeat zero (2 ^ (input_size - 1))) timer)
  else det (Fail FAssert).
(** src/online_dfa.cpp:190-213 *)
Definition lookup_table_any (table : list trlwe) (inputs : list (trgsw T)) (workspace : list trlwe)
  : outcomes (list trlwe * list trlwe) :=
  any '(t, w, _) <- lookup_table_with_timer_any table inputs workspace []; det (Ok (t, w)).

(** src/online_dfa.cpp:244-373, cf. [flut_eval_queued] *)
Definition flut_eval_queued_any (s : flut T) : outcomes (flut T) :=
  let g := f_graph T s in
  let input_size := length (f_queue T s) in
  if input_size =? 0 then det (Ok s)
  else if 31 <=? input_size then det (Fail FUndefined)
  else
    any memo <- det (at_ (f_memo T s) input_size);
    any next <- det (flut_next_live g memo (f_live T s) input_size);
    any st2idx <- det (flut_st2idx g next);
    if 32 <=? f_max T s then det (Fail FUndefined)
    else if (if f_max T s =? 31 then false else 2 ^ f_max T s <=? length next) then det (Fail FExit)
    else
      let second := Nat.min (input_size / 2) (f_max T s - Nat.log2_up (length next)) in
      let first := input_size - second in
      if negb (first + second =? input_size) then det (Fail FAssert)
      else
       any table <- par_any B_table (seq 0 (2 ^ first))
                      (fun junk input1 => entry_task T g memo st2idx (length next) first (length (f_weight T s))
                                            (2 ^ first) junk input1 (pairs (f_live T s) second))
                      [(B_weight, f_weight T s)] (repeat zero (2 ^ first));
       any '(table, ws) <- lookup_table_any table (firstn first (f_queue T s)) [];
       let table := resize table (2 ^ second) zero in
       any table <- par_any B_table (seq 1 (2 ^ second - 1)) (rotate_task T (length next) (length table)) [] table;
       any '(table, ws) <- lookup_table_any table (skipn first (f_queue T s)) ws;
       let num_eval := S (f_neval T s) in
       if f_freq T s =? 0 then det (Fail FUndefined)
       else
         any weight <- par_any B_weight next
              (refresh_task T (num_eval mod f_freq T s =? 0) st2idx (length (f_weight T s)))
              [(B_table, table)] (f_weight T s);
         det (Ok (mkFlut T g weight [] (f_max T s) (f_qsize T s) next (f_memo T s) num_eval (f_freq T s) first second)).
(** src/online_dfa.cpp:182-188 *)
Definition flut_eval_one_any (s : flut T) (input : trgsw T) : outcomes (flut T) :=
  let s := mkFlut T (f_graph T s) (f_weight T s) (f_queue T s ++ [input]) (f_max T s) (f_qsize T s) (f_live T s)
                  (f_memo T s) (f_neval T s) (f_freq T s) (f_first T s) (f_second T s) in
  if length (f_queue T s) <? f_qsize T s then det (Ok s) else flut_eval_queued_any s.
(** src/online_dfa.cpp:166-180 *)
Definition flut_result_any (s : flut T) : outcomes (tlwe * flut T) :=
  any s <- flut_eval_queued_any s;
  det (do acc <- foldM (fun acc st => do f <- is_final_state (f_graph T s) st;
                     if f : bool then do w <- at_ (f_weight T s) st; Ok (TRLWELvl1_add N1 acc w) else Ok acc)
                  (f_live T s) zero;
       Ok (sei T acc 0, s)).

(** src/online_dfa.cpp:478-496, cf. [block_propagate] *)
Definition block_propagate_any (g : Graph) (levels : list (list State)) (queue : list (trgsw T))
    (st : list trlwe * list trlwe * list (target * nat)) (i : nat)
  : outcomes (list trlwe * list trlwe * list (target * nat)) :=
  let '(weight, out, timer) := st in
  any states <- det (at_ levels i);
  any input <- det (at_ queue i);
  any out' <- par_any B_out states (cmux_task T g input (length weight) (length out)) [(B_weight, weight)] out;
  det (Ok (out', weight, timer ++ [(T_CMUX, length states)])).

(** src/online_dfa.cpp:508-522: first all the tasks of one region, then those of the other *)
Definition cond_any (sel : trlwe) (width : nat) : outcomes (list (trgsw T)) := fun r =>
  exists m (junk1 junk2 : nat -> list (cell T)) ps1 m1 ps2 m2,
    m (B_sel, 0) = C_rlwe T sel /\
    region (map (fun i => extract_task T width (junk1 i) i) (seq 0 width)) m ps1 m1 /\
    region (map (fun i => cb_task T width width (junk2 i) i) (seq 0 width)) m1 ps2 m2 /\
    match r with
    | Ok cond => Forall (fun p => p = Done) (ps1 ++ ps2) /\ length cond = width /\
                 (forall i c, nth_error cond i = Some c -> m2 (B_cond, i) = C_gsw T c)
    | Fail f => In (Throw f) (ps1 ++ ps2)
    end.

(** src/online_dfa.cpp:411-535, cf. [block_eval_queued] *)
Definition block_eval_queued_any (s : block T) : outcomes (block T) :=
  let g := k_graph T s in
  let input_size := length (k_queue T s) in
  if input_size =? 0 then det (Ok s)
  else
    let live := k_live T s in
    any levels <- det (track_live_states g live input_size);
    let next := last levels [] in
    any n2i <- det (block_index g next);
    let next_width := index_width (length next) in
    any weight <- det (foldM (fun weight q =>
                   do f <- is_final_state g q;
                   do t <- at_ n2i q;
                   do w <- at_ weight q;
                   do w' <- block_init_weight T next_width f t w;
                   set_at weight q w') next (repeat zero (size g)));
    any '(weight, out, timer) <- foldS (block_propagate_any g levels (k_queue T s)) (rev (seq 0 input_size))
                                       (weight, repeat zero (size g), k_timer T s);
    if length live =? 1 then
      det (do q <- at_ live 0;
           do sel <- at_ weight q;
           Ok (mkBlock T g (k_qsize T s) [] (Some sel) next timer))
    else
      let width := index_width (length live) in
      match k_selector T s with
      | None => det (Fail FUndefined)
      | Some sel =>
          if N1 <=? width then det (Fail FUndefined)
          else
            any cond <- cond_any sel width;
            let timer := timer ++ [(T_CIRCUIT_BOOTSTRAPPING, width)] in
            any out <- det (foldM (fun out i => do q <- at_ live i; do w <- at_ weight q; set_at out i w)
                            (seq 0 (length live)) out);
            let table := resize out (2 ^ width) zero in
            any '(table, _, timer) <- lookup_table_with_timer_any table cond (resize weight (2 ^ width) zero) timer;
            det (do sel <- at_ table 0;
                 Ok (mkBlock T g (k_qsize T s) [] (Some sel) next timer))
      end.
(** src/online_dfa.cpp:403-409 *)
Definition block_eval_one_any (s : block T) (input : trgsw T) : outcomes (block T) :=
  let s := mkBlock T (k_graph T s) (k_qsize T s) (k_queue T s ++ [input]) (k_selector T s) (k_live T s) (k_timer T s) in
  if length (k_queue T s) <? k_qsize T s then det (Ok s) else block_eval_queued_any s.
(** src/online_dfa.cpp:392-401 *)
Definition block_result_any (s : block T) : outcomes (tlwe * block T) :=
  any s <- block_eval_queued_any s;
  det match k_selector T s with
      | None => Fail FAssert
      | Some sel => Ok (sei T sel 0, s)
      end.

(** src/online_dfa.cpp:60-97, cf. [legacy_eval_one] *)
Definition legacy_eval_one_any (s : legacy) (input : trgsw T) : outcomes legacy :=
  let g := l_graph s in
  any weight <- par_any B_out (all_states g) (legacy_task T g input (length (l_weight s)) (length (l_weight s)))
                  [(B_weight, l_weight s)] (repeat zero (length (l_weight s)));
  let np := S (l_nproc s) in
  if np mod l_interval s =? 0
  then any weight2 <- par_any B_weight (seq 0 (length weight)) (legacy_bootstrap_task T (length weight)) [] weight;
       det (Ok (mkLegacy g weight2 (l_interval s) np))
  else det (Ok (mkLegacy g weight (l_interval s) np)).
End Scheduled.

(** A caller of the API, e.g. src/main.cpp:253-464.
    Histories of scheduled calls, cf. [play] in RunnerSpec.v *)
Fixpoint play_any {St C R} (feed : St -> C -> outcomes St) (ask : St -> outcomes (R * St)) (h : list (option C)) (s : St)
  : outcomes (list R * St) :=
  match h with
  | [] => det (Ok ([], s))
  | Some c :: h' => any s' <- feed s c; play_any feed ask h' s'
  | None :: h' => any '(r, s') <- ask s; any '(rs, s'') <- play_any feed ask h' s'; det (Ok (r :: rs, s''))
  end.
