(** Model of the unit test program src/test0.cpp, and of test_homfa.sh as a whole. *)
From Coq Require Import String.
From Coq Require Import List Arith Bool NArith ZArith Ascii.
Import ListNotations.
From Verif Require Import Base GraphModel TextModel CliModel DotModel StreamModel InputSpec TorusModel ParModel ClientModel CmdModel LtlModel MainModel ScriptModel.
Local Open Scope list_scope.

(** src/test0.cpp:18-24  expected_dump: three words make a line; s.at(i + 1) and s.at(i + 2) may throw *)
Fixpoint expected_dump (s : list string) : res text :=
  match s with
  | [] => Ok []
  | a :: b :: c :: s => do rest <- expected_dump s; Ok (lit a ++ [c_tab] ++ lit b ++ [c_tab] ++ lit c ++ [c_nl] ++ rest)
  | _ => Fail FOutOfRange
  end.
(** src/test0.cpp:29-36 and the other blocks of the same form: a graph is printed and compared *)
Definition prints (g : res Graph) (s : list string) : res unit :=
  do g <- g; do t <- dump g; do e <- expected_dump s; assert_ (path_eqb t e) (Ok tt).

Section Test0.
Context (T : tfhe) (Y : crypto T) (spot : spot_lib).

(** (auxiliary) Graph::from_file of a file in test/, src/test0.cpp:29 *)
Definition spec_file (f : fs) (name : string) : res Graph := from_file f (lit name).

(** src/test0.cpp:26-119  test_graph_dump *)
Definition test_graph_dump (f : fs) : res unit :=
  do _ <- prints (spec_file f "test/02.spec"%string)
    [">0"; "1"; "0";  "1*"; "2"; "1";  "2*"; "0"; "1"]%string;
  do _ <- prints (spec_file f "test/03.spec"%string)
    ["0*"; "1"; "0";  ">1*"; "0"; "1"]%string;
  do _ <- prints (spec_file f "test/04.spec"%string)
    [">0"; "1"; "2";  "1"; "0"; "3";  "2*"; "4"; "5";  "3*"; "4"; "5";  "4*"; "4"; "5";  "5"; "5"; "5"]%string;
  do _ <- prints (spec_file f "test/06.spec"%string)
    [">0"; "1"; "0";  "1*"; "2"; "3";  "2*"; "0"; "4";  "3*"; "3"; "3";  "4*"; "5"; "4";  "5"; "6"; "7";  "6"; "4"; "0";  "7"; "7"; "7"]%string;
  do _ <- prints (spec_file f "test/07.spec"%string)
    [">0*"; "1"; "2";  "1"; "3"; "4";  "2"; "3"; "5";  "3"; "3"; "3";  "4"; "6"; "7";  "5*"; "8"; "8";  "6"; "4"; "3";  "7"; "5"; "3";  "8"; "5"; "5"]%string;
  do _ <- prints (spec_file f "test/08.spec"%string)
    [">0*"; "1"; "2";  "1*"; "0"; "0";  "2*"; "3"; "3";  "3*"; "4"; "5";  "4*"; "0"; "6";  "5*"; "3"; "6";  "6"; "6"; "6"]%string;
  prints (spec_file f "test/09.spec"%string)
    [">0*"; "1"; "2";  "1"; "0"; "0";  "2"; "3"; "3";  "3*"; "4"; "5";  "4"; "0"; "6";  "5"; "3"; "6";  "6"; "6"; "6"]%string.

(** src/test0.cpp:121-156  test_graph_reversed *)
Definition test_graph_reversed (f : fs) : res unit :=
  do _ <- prints (do gr <- spec_file f "test/01.spec"%string; reversed gr)
    [">0*"; "1"; "2";  "1"; "3"; "4";  "2"; "3"; "5";  "3"; "3"; "3";  "4"; "6"; "7";  "5*"; "8"; "8";  "6"; "4"; "3";  "7"; "5"; "3";  "8"; "5"; "5"]%string;
  prints (do gr <- spec_file f "test/02.spec"%string; reversed gr)
    [">0"; "1"; "0";  "1*"; "2"; "3";  "2*"; "0"; "4";  "3*"; "3"; "3";  "4*"; "5"; "4";  "5"; "6"; "7";  "6"; "4"; "0";  "7"; "7"; "7"]%string.

(** src/test0.cpp:158-204  test_graph_minimized *)
Definition test_graph_minimized (f : fs) : res unit :=
  do _ <- prints (do gr <- spec_file f "test/02.spec"%string; minimized gr)
    [">0"; "1"; "0";  "1*"; "2"; "1";  "2*"; "0"; "1"]%string;
  do _ <- prints (do gr <- spec_file f "test/03.spec"%string; minimized gr)
    [">0*"; "0"; "0"]%string;
  do _ <- prints (do gr <- spec_file f "test/04.spec"%string; minimized gr)
    [">0"; "0"; "1";  "1*"; "1"; "2";  "2"; "2"; "2"]%string;
  prints (do gr <- spec_file f "test/05.spec"%string; minimized gr)
    [">0"; "0"; "1";  "1*"; "1"; "1"]%string.

(** src/test0.cpp:206-273  test_monitor *)
Definition test_monitor : res unit :=
  let ltl := fun (fml : string) n => do M <- ltl_to_monitor spot (lit fml) n; from_ltl_formula M n false in
  do _ <- prints (ltl "!F(p0 & Xp1)"%string 2)
    [">0*"; "1"; "2";  "1"; "0"; "0";  "2"; "3"; "3";  "3*"; "4"; "5";  "4"; "0"; "6";  "5"; "3"; "6";  "6"; "6"; "6"]%string;
  do _ <- prints (ltl "G(p0 -> p1 W p2)"%string 3)
    [">0*"; "1"; "2";  "1"; "3"; "3";  "2"; "4"; "5";  "3"; "0"; "0";  "4"; "6"; "0";  "5"; "7"; "0";  "6"; "6"; "6";  "7*"; "8"; "8";  "8"; "9"; "10";  "9"; "6"; "0";  "10"; "7"; "0"]%string;
  do _ <- prints (ltl "G(p3 | p4 | (p0 & p1 & p2))"%string 5)
    [">0*"; "1"; "2";  "1"; "3"; "3";  "2"; "4"; "5";  "3"; "6"; "6";  "4"; "6"; "6";  "5"; "6"; "7";  "6"; "8"; "9";  "7"; "10"; "10";  "8"; "11"; "0";  "9"; "0"; "0";  "10"; "0"; "0";  "11"; "11"; "11"]%string;
  prints (ltl "G(p3 & p4)"%string 5)
    [">0*"; "1"; "1";  "1"; "2"; "2";  "2"; "3"; "3";  "3"; "4"; "5";  "4"; "4"; "4";  "5"; "4"; "0"]%string.

(** src/test0.cpp:275-368  test_negated *)
Definition test_negated (f : fs) : res unit :=
  let neg := fun (name : string) => do gr <- spec_file f name; negated gr in
  do _ <- prints (neg "test/02.spec"%string)
    [">0*"; "1"; "0";  "1"; "2"; "1";  "2"; "0"; "1"]%string;
  do _ <- prints (neg "test/03.spec"%string)
    ["0"; "1"; "0";  ">1"; "0"; "1"]%string;
  do _ <- prints (neg "test/04.spec"%string)
    [">0*"; "1"; "2";  "1*"; "0"; "3";  "2"; "4"; "5";  "3"; "4"; "5";  "4"; "4"; "5";  "5*"; "5"; "5"]%string;
  do _ <- prints (neg "test/06.spec"%string)
    [">0*"; "1"; "0";  "1"; "2"; "3";  "2"; "0"; "4";  "3"; "3"; "3";  "4"; "5"; "4";  "5*"; "6"; "7";  "6*"; "4"; "0";  "7*"; "7"; "7"]%string;
  do _ <- prints (neg "test/07.spec"%string)
    [">0"; "1"; "2";  "1*"; "3"; "4";  "2*"; "3"; "5";  "3*"; "3"; "3";  "4*"; "6"; "7";  "5"; "8"; "8";  "6*"; "4"; "3";  "7*"; "5"; "3";  "8*"; "5"; "5"]%string;
  do _ <- prints (neg "test/08.spec"%string)
    [">0"; "1"; "2";  "1"; "0"; "0";  "2"; "3"; "3";  "3"; "4"; "5";  "4"; "0"; "6";  "5"; "3"; "6";  "6*"; "6"; "6"]%string;
  prints (neg "test/09.spec"%string)
    [">0"; "1"; "2";  "1*"; "0"; "0";  "2*"; "3"; "3";  "3"; "4"; "5";  "4*"; "0"; "6";  "5*"; "3"; "6";  "6*"; "6"; "6"]%string.

(** (auxiliary) src/test0.cpp:387, 411, 414, 423, 426: == of ciphertexts, here of their words: an encryption contains no NaN *)
Definition words_eqb (a b : list N) : bool := if list_eq_dec N.eq_dec a b then true else false.
(** src/test0.cpp:370-389  test_serializer_deserializer; [org] is the encryption made with a fresh key *)
Definition test_serializer_deserializer (org : list N) : res unit :=
  let ss := mkIs (save org) 0 false in
  do '(tmp, _) <- load (c_words T Y) (seek (c_words T Y) 0 DBeg ss);
  assert_ (words_eqb org tmp) (Ok tt).

(** src/test0.cpp:408, 412, 415, 420, 424, 427: assert(st.size() == n) *)
Definition says (n : nat) (k : client fs) : client fs := PSize (fun m => if m =? n then k else PRet (Fail FAssert)).
(** src/test0.cpp:410-411, 413-414, 422-423, 425-426: c = st.next(); assert(c == e) *)
Definition gives (e : list N) (k : client fs) : client fs := PNext (fun c => if words_eqb c e then k else PRet (Fail FAssert)).
(** src/test0.cpp:406-416, 418-428: one of the two streams; the files stay as they are *)
Definition stream_test (kd : kind) (f : fs) (a b : list N) : command :=
  mkCommand kd (lit "_test_in") (says 2 (gives a (says 1 (gives b (says 0 (PRet (Ok f))))))).
(** src/test0.cpp:391-429  test_input_stream, with the encryptions [c0] and [c1]: every execution ends,
    with an outcome that satisfies [Q] *)
Definition input_stream_ends (f : fs) (c0 c1 : list N) (Q : res fs -> Prop) : Prop :=
  let f1 := write f (lit "_test_in") (save c0 ++ save c1) in
  exists r, run_ends T Y (Ok (stream_test Reversed f1 c1 c0)) f1 r /\
    match r with
    | Fail e => Q (Fail e)
    | Ok f2 => exists r, run_ends T Y (Ok (stream_test Forward f2 c0 c1)) f2 r /\ Q r
    end.

(** (auxiliary) src/test0.cpp:433-437: the tests that involve no encryption *)
Definition graph_tests (f : fs) : res unit :=
  do _ <- test_graph_dump f;
  do _ <- test_graph_reversed f;
  do _ <- test_graph_minimized f;
  do _ <- test_monitor;
  test_negated f.
(** src/test0.cpp:431-440  main.  The keys are fresh: the three encryptions are any words of the right
    number. *)
Definition test0_ends (f : fs) (Q : res fs -> Prop) : Prop :=
  forall org c0 c1, is_ctxt (c_words T Y) org -> is_ctxt (c_words T Y) c0 -> is_ctxt (c_words T Y) c1 ->
  match (do _ <- graph_tests f; test_serializer_deserializer org) with
  | Fail e => Q (Fail e)
  | Ok _ => input_stream_ends f c0 c1 Q
  end.

(** test_homfa.sh:77-80: the conversion to AT&T and back, and the number of lines (wc -l) *)
Definition att_check (f : fs) : res unit :=
  do b <- open_file f (lit "test/01.spec");
  do att <- do_spec2att (map ascii_of_N b);
  do spec <- do_att2spec att;
  if length (filter (fun c => Ascii.eqb c c_nl) spec) =? 9 then Ok tt else Fail FExit.
(** test_homfa.sh:72-140: the whole script with the checks [l]; a program that fails ends it (line 1, -e) *)
Definition whole_script_ends (f : fs) (l : list test) (Q : res fs -> Prop) : Prop :=
  test0_ends f (fun r =>
    match r with
    | Fail e => Q (Fail FExit)
    | Ok f1 => match att_check f1 with Fail e => Q (Fail FExit) | Ok _ => script_ends T Y spot f1 l Q end
    end).
End Test0.

(** * The specifications that test0 reads *)
(** test/02.spec:1-3 *)
Definition spec_02 : text := lit ">0  1   0
1*  2   1
2*  0   1
".
(** test/03.spec:1-2 *)
Definition spec_03 : text := lit "0*   1   0
>1*  0   1
".
(** test/04.spec:1-6 *)
Definition spec_04 : text := lit ">0  1   2
1   0   3
2*  4   5
3*  4   5
4*  4   5
5   5   5
".
(** test/05.spec:1-6 *)
Definition spec_05 : text := lit ">0  1   3
1   0   3
2   1   4
3*  5   5
4   3   3
5*  5   5
".
(** test/06.spec:1-3 *)
Definition spec_06 : text := lit "0*  2   0
>1  0   1,2
>2  1   _
".
(** test/07.spec:1-9 *)
Definition spec_07 : text := lit ">0* 8       2,6,8
1   0       _
2   _       0
3   1,2,5,6 _
4   7       1,5,7
5   3       _
6   _       3
7   4       _
8   _       4
".
(** test/08.spec:1-6 *)
Definition spec_08 : text := lit ">0* 1   2
1*  0   0
2*  3   3
3*  5   4
4*  3   _
5*  0   _
".
(** test/09.spec:1-7 *)
Definition spec_09 : text := lit ">0* 1,4 1
1   0   _
2   _   0
>3  2,5 2
4   3   _
5   _   3
6   6   4,5,6
".
(** test/02.spec ... test/09.spec *)
Definition more_files : list (string * list N) :=
  [("test/02.spec"%string, map N_of_ascii spec_02);
   ("test/03.spec"%string, map N_of_ascii spec_03);
   ("test/04.spec"%string, map N_of_ascii spec_04);
   ("test/05.spec"%string, map N_of_ascii spec_05);
   ("test/06.spec"%string, map N_of_ascii spec_06);
   ("test/07.spec"%string, map N_of_ascii spec_07);
   ("test/08.spec"%string, map N_of_ascii spec_08);
   ("test/09.spec"%string, map N_of_ascii spec_09)].
