(** What the tests of test_benchmark.sh mean, and when the encrypted runs are within their limits. *)
From Coq Require Import String.
From Coq Require Import List Arith Bool NArith ZArith Ascii.
Import ListNotations.
From Verif Require Import Base GraphModel Spec TextModel TextSpec TorusModel TfheSpec RunnerSpec CmdModel MainSpec BenchSpec BenchScriptModel.
Local Open Scope list_scope.

(** Durations are decimal numbers, not negative, and together below 2^63 microseconds. *)
Definition ordinary (clock : nat -> text) (times : nat -> Z) : Prop :=
  (forall n, Forall Digit (clock n)) /\ measured times.
(** The files that the script writes. *)
Definition logs : list text := map list_ascii_of_string ["_test_log"; "_test_log_plain_last"; "_test_log_plain"]%string.
(** Names that the shell takes as they are. *)
Definition shell_word (p : text) : Prop :=
  p <> [] /\ Forall (fun c => In c (list_ascii_of_string
    "abcdefghijklmnopqrstuvwxyzABCDEFGHIJKLMNOPQRSTUVWXYZ0123456789_./-")) p.

(** The budgets of the runs for a specification g and an input w, with the
    parameters of the script. *)
Definition bench_fits (T : tfhe) (E : noise) (g : Graph) (w : list bool) : Prop :=
  (Z.of_nat (length w) < 2 ^ 31)%Z /\
  back_margin E (N.to_nat 30000) /\
  flut_margin (size g * 2 ^ 7) 15 1 E /\ 2 ^ 8 <= t_n1 T /\ (forall n k, n <= length w -> width g n k -> k < 2 ^ 8) /\
  block_margin g 30 E /\ Nat.log2 (size g) + 1 < t_n1 T /\ Nat.log2 (size g) + 1 < 31.

(** The test t is about the specification g, the specification r of the mirrored words, and the input w. *)
Definition about (T : tfhe) (E : noise) (f : fs) (t : btest) (x : Graph * Graph * list bool) : Prop :=
  let '(g, r, w) := x in
  exists n, positive (bt_ap t) n /\ workload f (bt_spec t) (bt_in t) n g w /\ workload f (bt_rev t) (bt_in t) n r w /\
    Forall (fun p => shell_word p /\ ~ In p logs) [bt_ap t; bt_spec t; bt_rev t; bt_in t] /\ bench_fits T E g w.

(** What the test finds right: there are thirty inputs, and after every thirty of them the mirrored
    specification says of the mirrored inputs what the specification says of the inputs. *)
Definition consistent (x : Graph * Graph * list bool) : Prop :=
  let '(g, r, w) := x in
  30 <= length w /\
  forall k, 30 * k <= length w -> 0 < k -> accepts r (rev (firstn (30 * k) w)) = accepts g (firstn (30 * k) w).
