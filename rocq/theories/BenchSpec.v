(** Specification vocabulary for the benchmark program: what its output must say.  Written without
    the definitions of the program, except for the type of its lines. *)
From Coq Require Import String.
From Coq Require Import List Arith Bool NArith ZArith Ascii.
Import ListNotations.
From Verif Require Import Base GraphModel Spec TextModel InputSpec CmdModel TimeModel PropsTime.
Local Open Scope list_scope.

(** The values printed under a key, in order. *)
Definition values (key : string) (out : list (text * text)) : list text :=
  map snd (filter (fun l => if list_eq_dec ascii_dec (fst l) (list_ascii_of_string key) then true else false) out).

(** The numbers 1 .. n that are multiples of k. *)
Definition multiples (k n : nat) : list nat := filter (fun m => m mod k =? 0) (seq 1 n).
(** The values printed under "result" are right: one verdict after every [freq] inputs. *)
Definition shows (v : text) (b : bool) : Prop := v = [if b then "1"%char else "0"%char].
Definition right_results (verdict : list bool -> res bool) (w : list bool) (freq : nat) (vs : list text) : Prop :=
  Forall2 (fun v m => exists b, verdict (firstn m w) = Ok b /\ shows v b) vs (multiples freq (length w)).

(** The specification file holds the automaton g; the input file holds the word w, in valuations of
    [ap] bits. *)
Definition workload (f : fs) (spec input : text) (ap : nat) (g : Graph) (w : list bool) : Prop :=
  from_file f spec = Ok g /\ 0 < size g /\ 0 < ap /\
  exists vals blocks, Forall2 (packs ap) vals blocks /\ f input = Some (concat blocks) /\ w = concat vals.

(** The history of the calls on a runner: the inputs, with a question after every [freq] of them,
    when n inputs have been fed already. *)
Fixpoint schedule {C} (freq n : nat) (l : list C) : list (option C) :=
  match l with
  | [] => []
  | x :: l' => Some x :: (if S n mod freq =? 0 then [None] else []) ++ schedule freq (S n) l'
  end.

(** For every input of a history: how many inputs a runner with a queue of [q] has consumed (in its
    last evaluation) when it gets that input; n consumed and p in the queue at the beginning.
    Compare [flushes]. *)
Fixpoint consumed {C} (q n p : nat) (h : list (option C)) : list nat :=
  match h with
  | [] => []
  | Some _ :: h' => n :: (if S p <? q then consumed q n (S p) h' else consumed q (n + S p) 0 h')
  | None :: h' => if p =? 0 then consumed q n 0 h' else consumed q (n + p) 0 h'
  end.

(** The table printed by a time recorder: a line for each operation that was counted, in any order. *)
Definition table (counts : list (target * N)) (out : res text) : Prop :=
  exists lines, Permutation.Permutation lines (filter (fun c => negb (snd c =? 0)%N) counts) /\
    exists dur : target -> Z, out = Ok (concat (map (fun '(t, n) => csv t (n mod 2 ^ 64) (dur t)) lines)).

(** The measured durations: not negative, and together below 2^63 microseconds. *)
Definition measured (times : nat -> Z) : Prop :=
  (forall i, 0 <= times i)%Z /\ forall n, (fold_right Z.add 0 (map times (seq 0 n)) < 2 ^ 63)%Z.

(** * The cost of BLOCK.  [W n] is the number of states reachable with exactly n inputs. *)
(** CMUXes and circuit bootstrappings of the evaluation that goes from a to b consumed inputs: a
    CMUX for every state that is reachable before each input; if the state at a is not known, its
    number is bootstrapped bit by bit and looked up. *)
Definition index_bits (n : nat) : nat := Nat.log2 n + 1.
Definition eval_cmuxes (W : nat -> nat) (a b : nat) : nat :=
  list_sum (map W (seq a (b - a))) + (if W a =? 1 then 0 else 2 ^ index_bits (W a) - 1).
Definition eval_bootstraps (W : nat -> nat) (a : nat) : nat := if W a =? 1 then 0 else index_bits (W a).
(** over consecutive evaluations at a, then at the numbers [bs] of consumed inputs *)
Fixpoint cmuxes (W : nat -> nat) (a : nat) (bs : list nat) : nat :=
  match bs with [] => 0 | b :: bs' => eval_cmuxes W a b + cmuxes W b bs' end.
Fixpoint bootstraps (W : nat -> nat) (a : nat) (bs : list nat) : nat :=
  match bs with [] => 0 | b :: bs' => eval_bootstraps W a + bootstraps W b bs' end.
