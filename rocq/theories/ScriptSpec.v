(** What the checks of test_homfa.sh mean, and when the encrypted runs are within their limits. *)
From Coq Require Import String.
From Coq Require Import List Arith Bool NArith ZArith Ascii.
Import ListNotations.
From Verif Require Import Base GraphModel Spec TextModel DotModel TorusModel TfheSpec RunnerSpec CmdModel CmdSpec MainSpec BenchSpec ScriptModel.
Local Open Scope list_scope.

(** The files that the script writes. *)
Definition scratch : list text := [lit "_test_sk"; lit "_test_bk"; lit "_test_in"; lit "_test_out"].
(** Files other than the ciphertexts are the same. *)
Definition kept (f f' : fs) : Prop := forall p, p <> lit "_test_in" -> p <> lit "_test_out" -> f' p = f p.

(** The word that is judged: with a specification of the mirrored words, the mirrored one. *)
Definition reading (m : mode) (w : list bool) : list bool :=
  match m with online_dfa_reversed_with_rev_spec => rev w | _ => w end.

(** The budgets of a run for an automaton g and a word w, with the parameters of the script. *)
Definition fits (T : tfhe) (Y : crypto T) (E : noise) (m : mode) (g : Graph) (w : list bool) : Prop :=
  let file_fits := (Z.of_nat (length w * (c_words T Y * 8)) < 2 ^ 64)%Z in
  match m with
  | dfa_plain => True
  | offline_dfa => back_margin E (N.to_nat 8000) /\ (Z.of_nat (length w) < 2 ^ 31)%Z /\ file_fits
  | online_dfa_reversed | online_dfa_reversed_with_rev_spec => back_margin E (N.to_nat 8000) /\ file_fits
  | online_dfa_qtrlwe2 => flut_margin (size g * 2 ^ 7) 15 1 E /\ 2 ^ 8 <= t_n1 T /\ file_fits /\
      forall n k, n <= length w -> width g n k -> k < 2 ^ 8
  | online_dfa_blockbackstream => block_margin g 15 E /\ Nat.log2 (size g) + 1 < t_n1 T /\ Nat.log2 (size g) + 1 < 31 /\
      w <> [] /\ file_fits
  end.

(** The verdict of a check: the specification accepts the word in the input file. *)
Definition verdict (T : tfhe) (Y : crypto T) (E : noise) (f : fs) (t : test) (v : bool) : Prop :=
  exists n g w, positive (t_ap t) n /\ workload f (t_spec t) (t_in t) n g w /\
    ~ In (t_spec t) scratch /\ ~ In (t_in t) scratch /\
    accepts g (reading (t_mode t) w) = Ok v /\ fits T Y E (t_mode t) g w.

(** The keys at the start of the script: none, a secret key, or both. *)
Definition keys_ready {T} (Y : crypto T) (f : fs) : Prop :=
  (f (lit "_test_sk") = None /\ f (lit "_test_bk") = None) \/
  ((exists b, f (lit "_test_sk") = Some b /\ c_read_skey T Y b = true) /\ f (lit "_test_bk") = None) \/
  keys_at Y f (lit "_test_sk") (lit "_test_bk").
