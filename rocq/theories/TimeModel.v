(** Model of the time recorder, src/timeit.hpp and src/timeit.cpp.  The measured durations are
    inputs of the model. *)
From Coq Require Import String.
From Coq Require Import List Arith Bool NArith ZArith Ascii Permutation.
Import ListNotations.
From Verif Require Import Base TextModel.
Local Open Scope list_scope.

(** src/timeit.hpp:13-17  TimeRecorder::TARGET *)
Inductive target := CircuitBootstrapping | Bootstrapping | Cmux.
(** (auxiliary) its operator==, src/timeit.cpp:34 *)
Definition target_eqb (a b : target) : bool :=
  match a, b with
  | CircuitBootstrapping, CircuitBootstrapping | Bootstrapping, Bootstrapping | Cmux, Cmux => true
  | _, _ => false
  end.
(** src/timeit.hpp:20-24  TimeRecorder::Sample; the time in microseconds *)
Record sample := mkSample { s_target : target; s_count : N; s_time : Z }.

(** The calls made on a recorder: timeit with the duration that was measured, and clear.
    src/timeit.cpp:19-28 *)
Inductive timer_call := Record (t : target) (count : N) (time : Z) | Clear.
(** src/timeit.cpp:19-28 *)
Definition timer_step (samples : list sample) (c : timer_call) : list sample :=
  match c with
  | Record t n d => samples ++ [mkSample t n d]
  | Clear => []
  end.

(** (auxiliary) size_t addition wraps; src/timeit.cpp:37 *)
Definition add_size (a b : N) : N := ((a + b) mod 2 ^ 64)%N.
(** (auxiliary) the 64-bit signed addition of two durations; overflow is undefined.  src/timeit.cpp:38 *)
Definition add_time (a b : Z) : res Z :=
  if (-2 ^ 63 <=? a + b)%Z && (a + b <? 2 ^ 63)%Z then Ok (a + b)%Z else Fail FUndefined.

(** src/timeit.cpp:33-39: emplace keeps an entry that is there; [inserted] is false then *)
Fixpoint summarize (s : sample) (summary : list (target * sample)) : res (list (target * sample)) :=
  match summary with
  | [] => Ok [(s_target s, s)]
  | (t, e) :: rest =>
      if target_eqb t (s_target s)
      then do d <- add_time (s_time e) (s_time s);
           Ok ((t, mkSample (s_target e) (add_size (s_count e) (s_count s)) d) :: rest)
      else do rest <- summarize s rest; Ok ((t, e) :: rest)
  end.

(** src/timeit.cpp:42-52 *)
Definition target_name (t : target) : text :=
  list_ascii_of_string match t with
  | CircuitBootstrapping => "time_recorder-circuit_bootstrapping"
  | Bootstrapping => "time_recorder-bootstrapping"
  | Cmux => "time_recorder-cmux"
  end.
(** (auxiliary) operator<< of an integer, src/timeit.cpp:53 *)
Definition show_Z (z : Z) : text :=
  if (z <? 0)%Z then "-"%char :: uint_text (N.to_uint (Z.to_N (- z))) else uint_text (N.to_uint (Z.to_N z)).
(** src/timeit.cpp:41-54: one line *)
Definition csv_line (e : target * sample) : text :=
  target_name (fst e) ++ [","%char] ++ uint_text (N.to_uint (s_count (snd e))) ++ [","%char] ++
  show_Z (s_time (snd e)) ++ [c_nl].

(** src/timeit.cpp:30-55  TimeRecorder::dumpCSV: [dumpCSV samples r] says that r is a possible
    outcome.  The iteration order of the std::unordered_map is unspecified. *)
Definition dumpCSV (samples : list sample) (r : res text) : Prop :=
  match foldM (fun m s => summarize s m) samples [] with
  | Fail f => r = Fail f
  | Ok summary => exists order, Permutation summary order /\ r = Ok (concat (map csv_line order))
  end.
