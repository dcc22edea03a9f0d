(** Model of the randomised test programs src/test_plain_random.cpp and src/test_crypto_random.cpp.
    Both are off by default in src/CMakeLists.txt and call ltl_to_monitor with a third argument
    (deterministic or not), which src/graph.cpp:625 does not have; the model follows their text.  The
    random numbers and Spot's monitors are inputs.  Log files are not modelled. *)
From Coq Require Import List Arith Bool NArith ZArith.
Import ListNotations.
From Verif Require Import Base GraphModel TextModel TorusModel RunnerModel LtlModel.

(** * The monitor as an oracle *)
(** src/test_plain_random.cpp:61-69: the truth of a condition under the valuation at [offset] *)
Fixpoint walk (v2i : list (nat * nat)) (src : list bool) (offset : nat) (n : bdd) : res bool :=
  match n with
  | BT => Ok true
  | BF => Ok false
  | BN v low high =>
      do idx <- at_key Nat.eq_dec v v2i;
      do b <- at_ src (offset + idx);
      if b then walk v2i src offset high else walk v2i src offset low
  end.
(** src/test_plain_random.cpp:58-73: the states after one more valuation *)
Definition one_valuation (M : monitor) (v2i : list (nat * nat)) (src : list bool) (offset : nat) (qs : list nat) : res (list nat) :=
  foldM (fun next q =>
    foldM (fun next (t : nat * bdd) =>
      let '(dst, cond) := t in
      do b <- walk v2i src offset cond;
      Ok (if b then sinsert dst next else next)) (m_out M q) next) qs [].
(** src/test_plain_random.cpp:80: spot::twa_graph::state_is_accepting.  A monitor has no acceptance
    sets; Spot answers by the first outgoing edge and says no when there is none. *)
Definition state_is_accepting (M : monitor) (q : nat) : bool := match m_out M q with [] => false | _ => true end.
(** src/test_plain_random.cpp:56-82; [todo] valuations are left and [i] have been read *)
Fixpoint valuations (M : monitor) (v2i : list (nat * nat)) (src : list bool) (n todo i : nat) (qs : list nat) : res bool :=
  match todo with
  | O => Ok (existsb (state_is_accepting M) qs)
  | S todo =>
      do next <- one_valuation M v2i src (i * n) qs;
      match next with
      | [] => Ok false
      | _ => valuations M v2i src n todo (S i) next
      end
  end.
(** src/test_plain_random.cpp:38-83, src/test_crypto_random.cpp:90-135  check_if_accept *)
Definition monitor_accepts (M : monitor) (src : list bool) (input_kind_size : nat) : res bool :=
  if input_kind_size =? 0 then Fail FUndefined
  else valuations M (var2idx M input_kind_size) src input_kind_size (length src / input_kind_size) 0 [m_init M].

(** * The words *)
(** src/test_plain_random.cpp:87-89: the loop stops before [fuel] = multiple iterations *)
Fixpoint round_up (fuel size multiple : nat) : res nat :=
  if size mod multiple =? 0 then Ok size
  else match fuel with O => Fail FFuel | S fuel => round_up fuel (S size) multiple end.
(** src/test_plain_random.cpp:91-92: i & (1 << b), where 1 << b is an int: it is INT_MIN for b = 31, which
    becomes 0xFFFFFFFF80000000, and undefined from 32 on *)
Definition bit_of (i b : nat) : res bool :=
  if b <=? 30 then Ok (Nat.testbit i b)
  else if b =? 31 then Ok (existsb (Nat.testbit i) (seq 31 33)) else Fail FUndefined.
(** src/test_plain_random.cpp:85-94, src/test_crypto_random.cpp:137-146  int2bvec *)
Definition int2bvec (i multiple : nat) : res (list bool) :=
  if multiple =? 0 then Fail FUndefined
  else
    do size <- round_up multiple (Nat.log2 i + 1) multiple;
    mapM (bit_of i) (seq 0 size).
(** src/test_plain_random.cpp:96-109, src/test_crypto_random.cpp:148-162  random_bvec: a drawn length
    and drawn bits *)
Definition random_bvec (draw : nat * (nat -> bool)) (multiple : nat) : res (list bool) :=
  if multiple =? 0 then Fail FUndefined
  else let length := fst draw in Ok (map (snd draw) (seq 0 (length + (multiple - length mod multiple)))).

(** * test_plain_random *)
(** src/test_plain_random.cpp:185-190 *)
Definition compare_with (expected : bool) (g : Graph) (w : list bool) : res unit :=
  do got <- accepts g w; if Bool.eqb expected got then Ok tt else Fail FExit.
(** src/test_plain_random.cpp:191-196, 203-208, 215-220 *)
Definition compare_opt (expected : bool) (g : option Graph) (w : list bool) : res unit :=
  match g with Some g => compare_with expected g w | None => Ok tt end.
(** src/test_plain_random.cpp:141-146 *)
Definition small_minimized (g : Graph) : res (option Graph) :=
  if (N.of_nat (size g) <? 10000)%N then do m <- minimized g; Ok (Some m) else Ok None.
(** src/test_plain_random.cpp:179-220: the comparisons for one word *)
Definition compare_all (aut : monitor) (num_ap : nat) (gr rgr rgr2 : Graph) (mgr mrgr mrgr2 : option Graph) (w : list bool) : res unit :=
  let rin := rev w in
  do expected <- monitor_accepts aut w num_ap;
  do _ <- compare_with expected gr w;
  do _ <- compare_opt expected mgr w;
  do _ <- compare_with expected rgr rin;
  do _ <- compare_opt expected mrgr rin;
  do _ <- compare_with expected rgr2 rin;
  compare_opt expected mrgr2 rin.
(** src/test_plain_random.cpp:137-221: one formula; the first hundred words are the numbers 1 .. 100 *)
Definition test_formula (M : monitor) (num_ap num_test : nat) (rand_bvec : list (list bool)) : res unit :=
  do gr <- from_ltl_formula M num_ap false;
  do rgr <- reversed gr;
  do rgr2 <- from_ltl_formula_reversed M num_ap false;
  do mgr <- small_minimized gr;
  do mrgr <- small_minimized rgr;
  do mrgr2 <- small_minimized rgr2;
  foldM (fun _ i =>
    do w <- (if i <? 100 then int2bvec (i + 1) num_ap else at_ rand_bvec (i - 100));
    compare_all M num_ap gr rgr rgr2 mgr mrgr mrgr2 w) (seq 0 num_test) tt.
(** src/test_plain_random.cpp:121-223, for num_test >= 100 *)
Definition test_plain (spot : spot_lib) (input : text) (num_ap num_test : nat) (draw : nat -> nat * (nat -> bool)) : res unit :=
  do rand_bvec <- mapM (fun i => random_bvec (draw i) num_ap) (seq 0 (num_test - 100));
  foldM (fun _ fml => do M <- ltl_to_monitor spot fml num_ap; test_formula M num_ap num_test rand_bvec) (getlines c_nl [] input) tt.
(** src/test_plain_random.cpp:225-240  main with the first argument converted *)
Definition test_plain_main (spot : spot_lib) (input : text) (num_ap : nat) (draw : nat -> nat * (nat -> bool)) : res unit :=
  test_plain spot input num_ap 300 draw.

(** * test_crypto_random *)
(** src/test_crypto_random.cpp:173-201: the table; [ap_vars] are the variables of the automaton's
    propositions *)
Definition permutation_table (M : monitor) (ap_vars : list nat) (num_ap : nat) : res (list nat) :=
  let v2i := var2idx M num_ap in
  let in_idx := flat_map (fun v => match find_key Nat.eq_dec v v2i with Some i => [i] | None => [] end) ap_vars in
  let in_idx := in_idx ++ repeat 0 (num_ap - length in_idx) in
  if length in_idx =? num_ap then Ok in_idx else Fail FAssert.
(** src/test_crypto_random.cpp:203-216  permutate_input_bits *)
Definition permutate_input_bits (tbl : list nat) (src : list bool) : res (list bool) :=
  let num_ap := length tbl in
  if num_ap =? 0 then Fail FUndefined
  else foldM (fun w i => foldM (fun w j => do b <- at_ src (i * num_ap + j); Ok (w ++ [b])) tbl w)
             (seq 0 (length src / num_ap)) [].

Section Crypto.
Context (T : tfhe).
(** src/test_crypto_random.cpp:286: TFHEpp::tlweSymDecrypt, the sign of the phase *)
Definition tlweSymDecrypt (c : tlwe) (key : list Z) : bool :=
  let phase := phase_of_TLWE (t_n1 T) c key in (0 <? phase)%Z && (phase <? t_1o2)%Z.
(** src/test_crypto_random.cpp:230-234 *)
Inductive METHOD := OFFLINE | ONLINE_REVERSED | ONLINE_QTRLWE2.
(** src/test_crypto_random.cpp:19-69: the test streams hold [c1] for 1 and [c0] for 0 *)
Definition test_stream (c0 c1 : trgsw T) (w : list bool) : list (trgsw T) := map (fun b : bool => if b then c1 else c0) w.
(** src/test_crypto_random.cpp:278-321: the ciphertext of the verdict *)
Definition encrypted_verdict (method : METHOD) (gr : Graph) (c0 c1 : trgsw T) (w : list bool) : res tlwe :=
  match method with
  | OFFLINE =>
      let cts := rev (test_stream c0 c1 w) in
      do r <- offline_new T gr (length cts) (N.to_nat 30000) true false;
      do r <- foldM (offline_eval_one T) cts r;
      offline_result T r
  | ONLINE_REVERSED =>
      do r <- online2_new T gr (N.to_nat 30000) false true false;
      do r <- foldM (online2_eval_one T) (test_stream c0 c1 w) r;
      online2_result T r
  | ONLINE_QTRLWE2 =>
      do r <- flut_new T gr 8 15 1 false;
      do r <- foldM (flut_eval_one T) (test_stream c0 c1 w) r;
      do '(c, _) <- flut_result T r; Ok c
  end.
(** src/test_crypto_random.cpp:268-321: one word *)
Definition crypto_word (method : METHOD) (M : monitor) (num_ap : nat) (gr : Graph) (perm_tbl : list nat) (c0 c1 : trgsw T) (key : list Z)
    (in_src : list bool) : res unit :=
  do w <- permutate_input_bits perm_tbl in_src;
  do expected <- monitor_accepts M in_src num_ap;
  do c <- encrypted_verdict method gr c0 c1 w;
  if Bool.eqb expected (tlweSymDecrypt c key) then Ok tt else Fail FExit.
(** src/test_crypto_random.cpp:260-322: one formula *)
Definition crypto_formula (method : METHOD) (M : monitor) (ap_vars : list nat) (num_ap num_test : nat) (rand_bvec : list (list bool))
    (c0 c1 : trgsw T) (key : list Z) : res unit :=
  do g <- from_ltl_formula M num_ap false;
  do g <- minimized g;
  do gr <- reserve_states_at_depth g (N.to_nat 10000);
  do perm_tbl <- permutation_table M ap_vars num_ap;
  foldM (fun _ i =>
    do w <- (if i <? 10 then int2bvec (i + 1) num_ap else at_ rand_bvec (i - 10));
    crypto_word method M num_ap gr perm_tbl c0 c1 key w) (seq 0 num_test) tt.
(** src/test_crypto_random.cpp:236-326, for num_test >= 10, without the snapshot file *)
Definition test_crypto (method : METHOD) (spot : spot_lib) (ap_vars : text -> list nat) (input : text) (num_ap num_test : nat)
    (draw : nat -> nat * (nat -> bool)) (c0 c1 : trgsw T) (key : list Z) : res unit :=
  do rand_bvec <- mapM (fun i => random_bvec (draw i) num_ap) (seq 0 (num_test - 10));
  foldM (fun _ fml => do M <- ltl_to_monitor spot fml num_ap; crypto_formula method M (ap_vars fml) num_ap num_test rand_bvec c0 c1 key) (getlines c_nl [] input) tt.
(** src/test_crypto_random.cpp:328-348  main *)
Definition test_crypto_main (method : METHOD) (spot : spot_lib) (ap_vars : text -> list nat) (input : text)
    (draw : nat -> nat * (nat -> bool)) (c0 c1 : trgsw T) (key : list Z) : res unit :=
  test_crypto method spot ap_vars input 5 20 draw c0 c1 key.
End Crypto.
