(** Model of the program counter of src/counter.cpp (645-774): its self-test, which runs five
    tests in parallel on encrypted and plain runners, and its main function, which keeps the keys
    in two files.

    Not modelled: the option --cpu (it limits the number of threads; here the tests interleave in
    every possible way), std::binomial_distribution (any bits may be drawn), and the threads inside
    one call of the encrypted runner (src/counter.cpp:305-347, 517-526; see CounterModel.v). *)
From Coq Require Import String.
From Coq Require Import List Arith Bool NArith ZArith Ascii.
Import ListNotations.
From Verif Require Import Base GraphModel TextModel DotModel TorusModel RunnerModel ParModel CmdModel CrashModel CounterModel.
Local Open Scope list_scope.

(** * The texts *)
(** src/counter.cpp:502-504, 650: os << a number that may be as large as 2^64 - 1 *)
Definition show_N (n : N) : text := uint_text (N.to_uint n).
(** src/counter.cpp:500, 647, 708-711: os << a bool *)
Definition show_bool (b : bool) : text := if b then lit "1" else lit "0".
(** src/counter.cpp:503-504, 649-650: the lines of the counters *)
Fixpoint dump_counters (i : nat) (cs : list N) : text :=
  match cs with
  | [] => []
  | c :: cs => lit "cnt" ++ show_nat i ++ lit ": " ++ show_N c ++ [c_nl] ++ dump_counters (S i) cs
  end.
(** src/counter.cpp:645-651  BTTPlaintextRunner::dump *)
Definition plain_dump (p : plain) : text :=
  lit "acc:  " ++ show_bool (p_accept p) ++ [c_nl] ++ lit "st#:  " ++ show_nat (p_cur p) ++ [c_nl] ++ dump_counters 0 (p_counter p).
(** src/counter.cpp:497-505  BTTRunner::dump, for the values of [runner_dump] *)
Definition dump_text (v : bool * State * N * list N) : text :=
  let '(accept, q, info, counter) := v in
  lit "acc:  " ++ show_bool accept ++ [c_nl] ++ lit "st#:  " ++ show_nat q ++ [c_nl] ++ lit "info: " ++ show_N info ++ [c_nl] ++
  dump_counters 0 counter.
(** src/counter.cpp:707-708: the lines of the inputs *)
Fixpoint history_text (i : nat) (history : list bool) : text :=
  match history with
  | [] => []
  | b :: h => lit "Input " ++ show_nat i ++ lit ":" ++ [c_tab] ++ show_bool b ++ [c_nl] ++ history_text (S i) h
  end.

(** src/counter.cpp:685 *)
Definition num_tests : nat := 5.
(** src/counter.cpp:695 *)
Definition num_rounds : nat := N.to_nat 10000.

Section Test.
(** The cryptography; the secret key; for each test the order of its reductions, the bits it
    draws and the ciphertexts it makes of them *)
Context (T : tfhe) (G : gates T) (key : list Z)
        (order : nat -> nat -> nat -> red) (draw : nat -> nat -> bool) (enc : nat -> nat -> bool -> trgsw T).

(** src/counter.cpp:705-713: the message *)
Definition error_text (history : list bool) (result : bool) (s : runner T) (expected : bool) (p : plain) : res text :=
  do v <- runner_dump T s key;
  Ok (lit "======= TEST ERROR =======" ++ [c_nl] ++ history_text 0 history ++
      [c_nl] ++ lit "Runner result:" ++ [c_tab] ++ show_bool result ++ [c_nl] ++ dump_text v ++
      [c_nl] ++ lit "PRunner result:" ++ [c_tab] ++ show_bool expected ++ [c_nl] ++ plain_dump p ++
      lit "==========================" ++ [c_nl]).

(** Where a test is, src/counter.cpp:688-719: about to print its number; about to print the blank;
    about to load should_abort for round i; in round i; about to set should_abort; returned *)
Inductive task :=
| Entering | Entered
| Checking (i : nat) (s : runner T) (p : plain) (history : list bool)
| Working (i : nat) (s : runner T) (p : plain) (history : list bool)
| Aborting
| Returned.

(** src/counter.cpp:698-703: one round *)
Definition test_round (t i : nat) (s : runner T) (p : plain) : res (runner T * plain * bool * bool) :=
  let input := draw t i in
  do s <- runner_eval_one T G (order t) s (enc t i input);
  do '(c, s) <- runner_result T G (order t) s;
  do p <- plain_eval_one p input;
  Ok (s, p, TLWELvl1_decrypt (t_n1 T) c key, plain_result p).

(** What one step of a test does: its new place, what it prints, the message it leaves *)
(** src/counter.cpp:688-719: the next step of test t, which finds [abort] in should_abort *)
Definition advance (t : nat) (k : task) (abort : bool) : res (task * bool * text * option text) :=
  match k with
  | Entering => Ok (Entered, abort, show_nat t, None)
  | Entered =>
      do s <- runner_new T test_btt 1;
      Ok (Checking 0 s (plain_new test_btt) [], abort, lit " ", None)
  | Checking i s p h =>
      if i =? num_rounds then Ok (Returned, abort, [], None)
      else if abort then Ok (Returned, abort, [], None)
      else Ok (Working i s p h, abort, [], None)
  | Working i s p h =>
      let h := h ++ [draw t i] in
      do '(s, p, result, expected) <- test_round t i s p;
      if Bool.eqb result expected then Ok (Checking (S i) s p h, abort, [], None)
      else do m <- error_text h result s expected p; Ok (Aborting, abort, [], Some m)
  | Aborting => Ok (Returned, true, [], None)
  | Returned => Ok (Returned, abort, [], None)
  end.

(** The shared variables of test(): src/counter.cpp:686-687 and std::cerr *)
Record world := mkWorld { wd_tasks : list task; wd_abort : bool; wd_messages : list text; wd_cerr : text }.
(** src/counter.cpp:685-688 *)
Definition test_start : world := mkWorld (repeat Entering num_tests) false (repeat [] num_tests) [].
(** src/counter.cpp:688-719: a step of test t that has not returned *)
Definition step_of (w : world) (t : nat) : res (option world) :=
  match nth_error (wd_tasks w) t with
  | None | Some Returned => Ok None
  | Some k =>
      do '(k', a, e, m) <- advance t k (wd_abort w);
      Ok (Some (mkWorld (upd t k' (wd_tasks w)) a
                        (match m with Some m => upd t m (wd_messages w) | None => wd_messages w end)
                        (wd_cerr w ++ e)))
  end.
(** src/counter.cpp:688-719: some test makes a step *)
Definition tmove (w w' : world) : Prop := exists t, step_of w t = Ok (Some w').
(** src/counter.cpp:688-719  every interleaving of the tests *)
Inductive tmoves : world -> world -> Prop :=
| tm_refl w : tmoves w w
| tm_step w w1 w2 : tmoves w w1 -> tmove w1 w2 -> tmoves w w2.
(** src/counter.cpp:719: parallel_for returns when all tests have *)
Definition returned (w : world) : Prop := forall t k, nth_error (wd_tasks w) t = Some k -> k = Returned.

(** src/counter.cpp:721-726: the messages that are printed *)
Fixpoint report_text (i : nat) (ms : list text) : text :=
  match ms with
  | [] => []
  | m :: ms => match m with
               | [] => report_text (S i) ms
               | _ => lit "TEST " ++ show_nat i ++ [c_nl] ++ m ++ [c_nl] ++ report_text (S i) ms
               end
  end.
(** src/counter.cpp:653-727  test: what std::cerr holds when it ends; an exception inside a parallel
    algorithm ends the program *)
Inductive test_ends : res text -> Prop :=
| te_done w : tmoves test_start w -> returned w ->
    test_ends (Ok (wd_cerr w ++ if wd_abort w then report_text 0 (wd_messages w) else []))
| te_fail w t f : tmoves test_start w -> step_of w t = Fail f -> test_ends (Fail f).
(** src/counter.cpp:770-774  the end of main: the exit status and what is on std::cerr *)
Inductive main_ends : res (nat * text) -> Prop :=
| me_done err : test_ends (Ok err) -> main_ends (Ok (0, err))
| me_fail f : test_ends (Fail f) -> main_ends (Fail f).
End Test.

(** * The key files *)
Section Keys.
(** SecretKey and BKey, their archives, and the keys a run would make *)
Context {SK BK : Type} (save_sk : SK -> list N) (save_bk : BK -> list N)
        (read_sk : list N -> option SK) (read_bk : list N -> option BK).

(** src/counter.cpp:756 *)
Definition skey_filename : text := lit "_skey".
(** src/counter.cpp:756 *)
Definition bkey_filename : text := lit "_bkey".
(** (auxiliary) src/archive.hpp:20-31: an archive that cannot be read ends the program *)
Definition read_archive {K} (read : list N -> option K) (bytes : list N) : res K :=
  match read bytes with Some k => Ok k | None => Fail FExit end.

(** src/counter.cpp:753-768: the keys that are used, and the files; [sk], [bk] are the keys made when
    there are none *)
Definition main_keys (f : fs) (sk : SK) (bk : BK) : res (SK * BK * fs) :=
  match f skey_filename, f bkey_filename with
  | Some a, Some b => do sk' <- read_archive read_sk a; do bk' <- read_archive read_bk b; Ok (sk', bk', f)
  | _, _ => Ok (sk, bk, write (write f skey_filename (save_sk sk)) bkey_filename (save_bk bk))
  end.
(** src/counter.cpp:753-774: what a run leaves behind that is killed, or aborts, or ends *)
Definition keys_left (f : fs) (sk : SK) (bk : BK) (f' : fs) : Prop :=
  same_files f f' \/
  ((f skey_filename = None \/ f bkey_filename = None) /\
   (part_written f skey_filename (save_sk sk) f' \/
    part_written (write f skey_filename (save_sk sk)) bkey_filename (save_bk bk) f')).
End Keys.
