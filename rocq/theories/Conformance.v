(** The project's own tests run on the model: src/test0.cpp (graph tests), test_homfa.sh (plain runs,
    AT&T conversion).  The texts and expected outputs are copied from /repo/test and src/test0.cpp.
    These are tests of the model, not proofs about it. *)
From Coq Require Import String.
From Coq Require Import List Arith Bool NArith ZArith Ascii.
Import ListNotations.
From Verif Require Import Base GraphModel TextModel CliModel BitsModel LtlModel PropsText.
Local Open Scope string_scope.
Local Open Scope list_scope.

(** test/01.spec *)
Definition spec01 : list ascii :=
  txt (">0* 1   2" ++ nl ++
   "1   3   4" ++ nl ++
   "2   3   0" ++ nl ++
   "3   5   6" ++ nl ++
   "4   7   8" ++ nl ++
   "5   3   4" ++ nl ++
   "6   3   0" ++ nl ++
   "7   4   4" ++ nl ++
   "8   0   0" ++ nl).

(** test/02.spec *)
Definition spec02 : list ascii :=
  txt (">0  1   0" ++ nl ++
   "1*  2   1" ++ nl ++
   "2*  0   1" ++ nl).

(** test/03.spec *)
Definition spec03 : list ascii :=
  txt ("0*   1   0" ++ nl ++
   ">1*  0   1" ++ nl).

(** test/04.spec *)
Definition spec04 : list ascii :=
  txt (">0  1   2" ++ nl ++
   "1   0   3" ++ nl ++
   "2*  4   5" ++ nl ++
   "3*  4   5" ++ nl ++
   "4*  4   5" ++ nl ++
   "5   5   5" ++ nl).

(** test/05.spec *)
Definition spec05 : list ascii :=
  txt (">0  1   3" ++ nl ++
   "1   0   3" ++ nl ++
   "2   1   4" ++ nl ++
   "3*  5   5" ++ nl ++
   "4   3   3" ++ nl ++
   "5*  5   5" ++ nl).

(** test/06.spec *)
Definition spec06 : list ascii :=
  txt ("0*  2   0" ++ nl ++
   ">1  0   1,2" ++ nl ++
   ">2  1   _" ++ nl).

(** test/07.spec *)
Definition spec07 : list ascii :=
  txt (">0* 8       2,6,8" ++ nl ++
   "1   0       _" ++ nl ++
   "2   _       0" ++ nl ++
   "3   1,2,5,6 _" ++ nl ++
   "4   7       1,5,7" ++ nl ++
   "5   3       _" ++ nl ++
   "6   _       3" ++ nl ++
   "7   4       _" ++ nl ++
   "8   _       4" ++ nl).

(** test/08.spec *)
Definition spec08 : list ascii :=
  txt (">0* 1   2" ++ nl ++
   "1*  0   0" ++ nl ++
   "2*  3   3" ++ nl ++
   "3*  5   4" ++ nl ++
   "4*  3   _" ++ nl ++
   "5*  0   _" ++ nl).

(** test/09.spec *)
Definition spec09 : list ascii :=
  txt (">0* 1,4 1" ++ nl ++
   "1   0   _" ++ nl ++
   "2   _   0" ++ nl ++
   ">3  2,5 2" ++ nl ++
   "4   3   _" ++ nl ++
   "5   _   3" ++ nl ++
   "6   6   4,5,6" ++ nl).

(** test/10.spec *)
Definition spec10 : list ascii :=
  txt (">0*" ++ tab ++ "0" ++ tab ++ "1" ++ nl ++
   "1" ++ tab ++ "1" ++ tab ++ "2" ++ nl ++
   "2" ++ tab ++ "2" ++ tab ++ "3" ++ nl ++
   "3" ++ tab ++ "3" ++ tab ++ "4" ++ nl ++
   "4" ++ tab ++ "4" ++ tab ++ "5" ++ nl ++
   "5" ++ tab ++ "5" ++ tab ++ "6" ++ nl ++
   "6" ++ tab ++ "6" ++ tab ++ "7" ++ nl ++
   "7" ++ tab ++ "7" ++ tab ++ "8" ++ nl ++
   "8" ++ tab ++ "8" ++ tab ++ "0" ++ nl).

(** src/test0.cpp:18-24  expected_dump *)
Definition expected (rows : list (string * string * string)) : list ascii :=
  concat (map (fun '(a, b, c) => txt (a ++ tab ++ b ++ tab ++ c ++ nl)) rows).
(** What the tests compare: the dump of a transformed graph *)
Definition shows (spec : list ascii) (f : Graph -> res Graph) : res (list ascii) :=
  do g <- from_istream spec; do g' <- f g; dump g'.

(** src/test0.cpp:29-36  test_graph_dump *)
Example t01_graph_dump_02 : shows spec02 Ok = Ok (expected
  [(">0", "1", "0"); ("1*", "2", "1"); ("2*", "0", "1")]).
Proof. vm_compute. reflexivity. Qed.

(** src/test0.cpp:39-45  test_graph_dump *)
Example t02_graph_dump_03 : shows spec03 Ok = Ok (expected
  [("0*", "1", "0"); (">1*", "0", "1")]).
Proof. vm_compute. reflexivity. Qed.

(** src/test0.cpp:48-58  test_graph_dump *)
Example t03_graph_dump_04 : shows spec04 Ok = Ok (expected
  [(">0", "1", "2"); ("1", "0", "3"); ("2*", "4", "5"); ("3*", "4", "5"); ("4*", "4", "5"); ("5", "5", "5")]).
Proof. vm_compute. reflexivity. Qed.

(** src/test0.cpp:61-73  test_graph_dump *)
Example t04_graph_dump_06 : shows spec06 Ok = Ok (expected
  [(">0", "1", "0"); ("1*", "2", "3"); ("2*", "0", "4"); ("3*", "3", "3"); ("4*", "5", "4"); ("5", "6", "7"); ("6", "4", "0"); ("7", "7", "7")]).
Proof. vm_compute. reflexivity. Qed.

(** src/test0.cpp:76-89  test_graph_dump *)
Example t05_graph_dump_07 : shows spec07 Ok = Ok (expected
  [(">0*", "1", "2"); ("1", "3", "4"); ("2", "3", "5"); ("3", "3", "3"); ("4", "6", "7"); ("5*", "8", "8"); ("6", "4", "3"); ("7", "5", "3"); ("8", "5", "5")]).
Proof. vm_compute. reflexivity. Qed.

(** src/test0.cpp:92-103  test_graph_dump *)
Example t06_graph_dump_08 : shows spec08 Ok = Ok (expected
  [(">0*", "1", "2"); ("1*", "0", "0"); ("2*", "3", "3"); ("3*", "4", "5"); ("4*", "0", "6"); ("5*", "3", "6"); ("6", "6", "6")]).
Proof. vm_compute. reflexivity. Qed.

(** src/test0.cpp:106-117  test_graph_dump *)
Example t07_graph_dump_09 : shows spec09 Ok = Ok (expected
  [(">0*", "1", "2"); ("1", "0", "0"); ("2", "3", "3"); ("3*", "4", "5"); ("4", "0", "6"); ("5", "3", "6"); ("6", "6", "6")]).
Proof. vm_compute. reflexivity. Qed.

(** src/test0.cpp:124-138  test_graph_reversed *)
Example t08_graph_reversed_01 : shows spec01 reversed = Ok (expected
  [(">0*", "1", "2"); ("1", "3", "4"); ("2", "3", "5"); ("3", "3", "3"); ("4", "6", "7"); ("5*", "8", "8"); ("6", "4", "3"); ("7", "5", "3"); ("8", "5", "5")]).
Proof. vm_compute. reflexivity. Qed.

(** src/test0.cpp:141-154  test_graph_reversed *)
Example t09_graph_reversed_02 : shows spec02 reversed = Ok (expected
  [(">0", "1", "0"); ("1*", "2", "3"); ("2*", "0", "4"); ("3*", "3", "3"); ("4*", "5", "4"); ("5", "6", "7"); ("6", "4", "0"); ("7", "7", "7")]).
Proof. vm_compute. reflexivity. Qed.

(** src/test0.cpp:161-169  test_graph_minimized *)
Example t10_graph_minimized_02 : shows spec02 minimized = Ok (expected
  [(">0", "1", "0"); ("1*", "2", "1"); ("2*", "0", "1")]).
Proof. vm_compute. reflexivity. Qed.

(** src/test0.cpp:173-179  test_graph_minimized *)
Example t11_graph_minimized_03 : shows spec03 minimized = Ok (expected
  [(">0*", "0", "0")]).
Proof. vm_compute. reflexivity. Qed.

(** src/test0.cpp:183-191  test_graph_minimized *)
Example t12_graph_minimized_04 : shows spec04 minimized = Ok (expected
  [(">0", "0", "1"); ("1*", "1", "2"); ("2", "2", "2")]).
Proof. vm_compute. reflexivity. Qed.

(** src/test0.cpp:195-202  test_graph_minimized *)
Example t13_graph_minimized_05 : shows spec05 minimized = Ok (expected
  [(">0", "0", "1"); ("1*", "1", "1")]).
Proof. vm_compute. reflexivity. Qed.

(** src/test0.cpp:278-285  test_negated *)
Example t14_negated_02 : shows spec02 negated = Ok (expected
  [(">0*", "1", "0"); ("1", "2", "1"); ("2", "0", "1")]).
Proof. vm_compute. reflexivity. Qed.

(** src/test0.cpp:288-294  test_negated *)
Example t15_negated_03 : shows spec03 negated = Ok (expected
  [("0", "1", "0"); (">1", "0", "1")]).
Proof. vm_compute. reflexivity. Qed.

(** src/test0.cpp:297-307  test_negated *)
Example t16_negated_04 : shows spec04 negated = Ok (expected
  [(">0*", "1", "2"); ("1*", "0", "3"); ("2", "4", "5"); ("3", "4", "5"); ("4", "4", "5"); ("5*", "5", "5")]).
Proof. vm_compute. reflexivity. Qed.

(** src/test0.cpp:310-322  test_negated *)
Example t17_negated_06 : shows spec06 negated = Ok (expected
  [(">0*", "1", "0"); ("1", "2", "3"); ("2", "0", "4"); ("3", "3", "3"); ("4", "5", "4"); ("5*", "6", "7"); ("6*", "4", "0"); ("7*", "7", "7")]).
Proof. vm_compute. reflexivity. Qed.

(** src/test0.cpp:325-338  test_negated *)
Example t18_negated_07 : shows spec07 negated = Ok (expected
  [(">0", "1", "2"); ("1*", "3", "4"); ("2*", "3", "5"); ("3*", "3", "3"); ("4*", "6", "7"); ("5", "8", "8"); ("6*", "4", "3"); ("7*", "5", "3"); ("8*", "5", "5")]).
Proof. vm_compute. reflexivity. Qed.

(** src/test0.cpp:341-352  test_negated *)
Example t19_negated_08 : shows spec08 negated = Ok (expected
  [(">0", "1", "2"); ("1", "0", "0"); ("2", "3", "3"); ("3", "4", "5"); ("4", "0", "6"); ("5", "3", "6"); ("6*", "6", "6")]).
Proof. vm_compute. reflexivity. Qed.

(** src/test0.cpp:355-366  test_negated *)
Example t20_negated_09 : shows spec09 negated = Ok (expected
  [(">0", "1", "2"); ("1*", "0", "0"); ("2*", "3", "3"); ("3", "4", "5"); ("4*", "0", "6"); ("5*", "3", "6"); ("6*", "6", "6")]).
Proof. vm_compute. reflexivity. Qed.

(** src/test0.cpp:203-265 (test_monitor): the monitor Spot builds for a formula is written down by hand;
    BDD variables are numbered like the propositions. *)
Definition v (n : nat) : nat -> option nat := fun i => if (i <? n)%nat then Some i else None.
Definition lit (i : nat) (pos : bool) (rest : bdd) : bdd := if pos then BN i BF rest else BN i rest BF.

(** !F(p0 & Xp1) *)
Definition mon1 : monitor :=
  {| m_ns := 2; m_init := 0; m_var := v 2;
     m_out := fun q => match q with
       | 0 => [(0, lit 0 false BT); (1, lit 0 true BT)]
       | _ => [(0, lit 0 false (lit 1 false BT)); (1, lit 0 true (lit 1 false BT))] end |}.
(** src/test0.cpp:209-220  test_monitor *)
Example m1_test_monitor : (do g <- from_ltl_formula mon1 2 false; dump g) = Ok (expected
  [(">0*", "1", "2"); ("1", "0", "0"); ("2", "3", "3"); ("3*", "4", "5"); ("4", "0", "6"); ("5", "3", "6"); ("6", "6", "6")]).
Proof. vm_compute. reflexivity. Qed.

(** G(p0 -> p1 W p2) *)
Definition mon2 : monitor :=
  {| m_ns := 2; m_init := 0; m_var := v 3;
     m_out := fun q => match q with
       | 0 => [(0, BN 0 BT (BN 2 BF BT)); (1, lit 0 true (lit 1 true (lit 2 false BT)))]
       | _ => [(0, BN 2 BF BT); (1, lit 1 true (lit 2 false BT))] end |}.
(** src/test0.cpp:223-238  test_monitor *)
Example m2_test_monitor : (do g <- from_ltl_formula mon2 3 false; dump g) = Ok (expected
  [(">0*", "1", "2"); ("1", "3", "3"); ("2", "4", "5"); ("3", "0", "0"); ("4", "6", "0"); ("5", "7", "0"); ("6", "6", "6"); ("7*", "8", "8"); ("8", "9", "10"); ("9", "6", "0"); ("10", "7", "0")]).
Proof. vm_compute. reflexivity. Qed.

(** G(p3 | p4 | (p0 & p1 & p2)) *)
Definition mon3 : monitor :=
  {| m_ns := 1; m_init := 0; m_var := v 5;
     m_out := fun q => let r := BN 3 (lit 4 true BT) BT in [(0, BN 0 r (BN 1 r (BN 2 r BT)))] |}.
(** src/test0.cpp:241-258  test_monitor *)
Example m3_test_monitor : (do g <- from_ltl_formula mon3 5 false; dump g) = Ok (expected
  [(">0*", "1", "2"); ("1", "3", "3"); ("2", "4", "5"); ("3", "6", "6"); ("4", "6", "6"); ("5", "6", "7"); ("6", "8", "9"); ("7", "10", "10"); ("8", "11", "0"); ("9", "0", "0"); ("10", "0", "0"); ("11", "11", "11")]).
Proof. vm_compute. reflexivity. Qed.

(** G(p3 & p4) *)
Definition mon4 : monitor :=
  {| m_ns := 1; m_init := 0; m_var := v 5; m_out := fun q => [(0, lit 3 true (lit 4 true BT))] |}.
(** src/test0.cpp:261-271  test_monitor *)
Example m4_test_monitor : (do g <- from_ltl_formula mon4 5 false; dump g) = Ok (expected
  [(">0*", "1", "1"); ("1", "2", "2"); ("2", "3", "3"); ("3", "4", "5"); ("4", "4", "4"); ("5", "4", "0")]).
Proof. vm_compute. reflexivity. Qed.

(** test/01-01.in *)
Definition in_01_01 : list N := (concat (repeat [3]%N 800)).
(** test_homfa.sh:87 *)
Example p01_plain : do_run_dfa_plain spec01 in_01_01 2 = Ok true.
Proof. vm_compute. reflexivity. Qed.
(** test/01-02.in *)
Definition in_01_02 : list N := (concat (repeat [1]%N 800)).
(** test_homfa.sh:88 *)
Example p02_plain : do_run_dfa_plain spec01 in_01_02 2 = Ok false.
Proof. vm_compute. reflexivity. Qed.
(** test/01-03.in *)
Definition in_01_03 : list N := (concat (repeat [0; 1; 2; 2; 3]%N 160)).
(** test_homfa.sh:89 *)
Example p03_plain : do_run_dfa_plain spec01 in_01_03 2 = Ok true.
Proof. vm_compute. reflexivity. Qed.
(** test/01-04.in *)
Definition in_01_04 : list N := (concat (repeat [1; 0]%N 160) ++ concat (repeat [1; 2; 0; 2; 0; 2; 0; 2; 0; 2; 0; 2]%N 1) ++ concat (repeat [0; 2]%N 155)).
(** test_homfa.sh:90 *)
Example p04_plain : do_run_dfa_plain spec01 in_01_04 2 = Ok false.
Proof. vm_compute. reflexivity. Qed.
(** test/01-05.in *)
Definition in_01_05 : list N := (concat (repeat [0; 1; 2; 2; 3]%N 800)).
(** test_homfa.sh:91 *)
Example p05_plain : do_run_dfa_plain spec01 in_01_05 2 = Ok true.
Proof. vm_compute. reflexivity. Qed.
(** test/01-06.in *)
Definition in_01_06 : list N := (concat (repeat [1; 0]%N 800) ++ concat (repeat [1; 2; 0; 2; 0; 2; 0; 2; 0; 2; 0; 2]%N 1) ++ concat (repeat [0; 2]%N 1195)).
(** test_homfa.sh:92 *)
Example p06_plain : do_run_dfa_plain spec01 in_01_06 2 = Ok false.
Proof. vm_compute. reflexivity. Qed.
(** test/01-07.in *)
Definition in_01_07 : list N := (concat (repeat [3; 3; 3; 3]%N 1)).
(** test_homfa.sh:93 *)
Example p07_plain : do_run_dfa_plain spec01 in_01_07 2 = Ok true.
Proof. vm_compute. reflexivity. Qed.
(** test/01-08.in *)
Definition in_01_08 : list N := (concat (repeat [1; 1; 1; 1]%N 1)).
(** test_homfa.sh:94 *)
Example p08_plain : do_run_dfa_plain spec01 in_01_08 2 = Ok false.
Proof. vm_compute. reflexivity. Qed.
(** test/10-01.in *)
Definition in_10_01 : list N := (concat (repeat [255; 1]%N 100)).
(** test_homfa.sh:95 *)
Example p09_plain : do_run_dfa_plain spec10 in_10_01 9 = Ok true.
Proof. vm_compute. reflexivity. Qed.
(** test/10-02.in *)
Definition in_10_02 : list N := (concat (repeat [255; 0]%N 100)).
(** test_homfa.sh:96 *)
Example p10_plain : do_run_dfa_plain spec10 in_10_02 9 = Ok false.
Proof. vm_compute. reflexivity. Qed.
(** test/10-03.in *)
Definition in_10_03 : list N := (concat (repeat [255; 0]%N 90)).
(** test_homfa.sh:97 *)
Example p11_plain : do_run_dfa_plain spec10 in_10_03 9 = Ok true.
Proof. vm_compute. reflexivity. Qed.
(** test_homfa.sh:77-80  spec2att | att2spec | wc -l *)
Example a01_att : (do t <- do_spec2att spec01; do t' <- do_att2spec t; Ok (count_occ ascii_dec t' "010"%char)) = Ok 9.
Proof. vm_compute. reflexivity. Qed.
