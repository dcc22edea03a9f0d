(** Base layer of the model: outcomes, vectors, ordered sets, bounded loops.
    None of these definitions models a homfa function by itself; each says which
    C++ construct it stands for. *)
From Coq Require Import List Arith Bool Lia.
Import ListNotations.

(** How a C++ computation can stop without returning. *)
Inductive fault :=
| FOutOfRange   (* std::out_of_range thrown by vector::at, map::at, stoi; never caught in graph.cpp/online_dfa.cpp *)
| FAssert       (* assert(...) failed: SIGABRT.  CMakeLists.txt:57-62 clears CMAKE_CXX_FLAGS_RELEASE, so NDEBUG is not defined *)
| FExit         (* error_die(...): src/error.hpp:54-77, exit(EXIT_FAILURE) *)
| FBadOptional  (* std::bad_optional_access from optional::value() *)
| FUndefined    (* undefined behaviour *)
| FFuel.        (* artefact of the model: a loop exhausted its fuel (proved unreachable) *)

Inductive res (A : Type) : Type :=
| Ok (a : A)
| Fail (f : fault).
Arguments Ok {A} a.
Arguments Fail {A} f.

Definition bind {A B} (m : res A) (k : A -> res B) : res B :=
  match m with Ok a => k a | Fail f => Fail f end.

Definition rmap {A B} (f : A -> B) (m : res A) : res B :=
  match m with Ok a => Ok (f a) | Fail e => Fail e end.

Notation "'do' x <- m ; k" := (bind m (fun x => k))
  (at level 200, x name, m at level 100, k at level 200, right associativity).
Notation "'do' ' p <- m ; k" := (bind m (fun x => match x with p => k end))
  (at level 200, p strict pattern, m at level 100, k at level 200, right associativity).

(** [assert(b); k] *)
Definition assert_ {A} (b : bool) (k : res A) : res A := if b then k else Fail FAssert.

(** A range-for loop whose body may stop the program. *)
Fixpoint foldM {A S} (f : S -> A -> res S) (l : list A) (s : S) : res S :=
  match l with
  | [] => Ok s
  | a :: l' => do s' <- f s a; foldM f l' s'
  end.

Fixpoint mapM {A B} (f : A -> res B) (l : list A) : res (list B) :=
  match l with
  | [] => Ok []
  | a :: l' => do b <- f a; do bs <- mapM f l'; Ok (b :: bs)
  end.

(** std::vector *)
Definition at_ {A} (v : list A) (i : nat) : res A :=     (* v.at(i), reading *)
  match nth_error v i with Some a => Ok a | None => Fail FOutOfRange end.

Fixpoint upd {A} (i : nat) (a : A) (v : list A) : list A :=
  match v, i with
  | [], _ => []
  | _ :: v', O => a :: v'
  | x :: v', S i' => x :: upd i' a v'
  end.

Definition set_at {A} (v : list A) (i : nat) (a : A) : res (list A) :=  (* v.at(i) = a *)
  if i <? length v then Ok (upd i a v) else Fail FOutOfRange.

Definition resize {A} (v : list A) (n : nat) (d : A) : list A :=        (* v.resize(n, d) *)
  firstn n v ++ repeat d (n - length v).

(** std::set<int>: strictly ascending list of its elements. *)
Fixpoint sinsert (x : nat) (s : list nat) : list nat :=
  match s with
  | [] => [x]
  | y :: s' => if x <? y then x :: s else if x =? y then s else y :: sinsert x s'
  end.

Definition smem (x : nat) (s : list nat) : bool := existsb (Nat.eqb x) s.

Definition sinsert_range (s l : list nat) : list nat :=   (* s.insert(l.begin(), l.end()) *)
  fold_left (fun acc x => sinsert x acc) l s.

Definition set_of (l : list nat) : list nat := sinsert_range [] l.

(** The representation invariant of std::set<int> (a fact about the C++ type). *)
Fixpoint is_set (s : list nat) : Prop :=
  match s with
  | [] => True
  | x :: s' => (match s' with [] => True | y :: _ => x < y end) /\ is_set s'
  end.

Fixpoint is_setb (s : list nat) : bool :=
  match s with
  | [] => true
  | x :: s' => (match s' with [] => true | y :: _ => x <? y end) && is_setb s'
  end.

(** [iter2 k step s] performs up to [2^k] iterations of a while loop whose body is
    [step]; [inr] leaves the loop. *)
Fixpoint iter2 {S R} (k : nat) (step : S -> S + R) (s : S) : S + R :=
  match k with
  | O => step s
  | S k' => match iter2 k' step s with
            | inl s' => iter2 k' step s'
            | inr r => inr r
            end
  end.

Definition loop {S R} (k : nat) (step : S -> S + res R) (s : S) : res R :=
  match iter2 k step s with
  | inl _ => Fail FFuel
  | inr r => r
  end.

(** Turn a loop body that either continues or stops the program into a [step]. *)
Definition cont {S R} (m : res S) : S + res R :=
  match m with Ok s => inl s | Fail f => inr (Fail f) end.
