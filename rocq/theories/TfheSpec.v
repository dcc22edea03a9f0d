(** Specification vocabulary for ciphertexts: phases, messages, noise, and the contract of the
    TFHEpp functions (an assumption of the theorems that mention it, listed in DESIGN.md). *)
From Coq Require Import List Arith Bool NArith ZArith.
Import ListNotations.
From Verif Require Import Base TorusModel.

Local Open Scope Z_scope.

(** Equal torus elements; equal up to a noise of absolute value at most e. *)
Definition eqm (x y : Z) : Prop := (x - y) mod two32 = 0.
Definition near (e x y : Z) : Prop := exists d, Z.abs d <= e /\ eqm x (y + d).

(** Sum of f 0 .. f (n-1). *)
Fixpoint sum_upto (n : nat) (f : nat -> Z) : Z :=
  match n with O => 0 | S m => sum_upto m f + f m end.

(** The phase b - <a,s> of a TLWE ciphertext of dimension n under the key s. *)
Definition tlwe_phase (n : nat) (s : list Z) (c : list Z) : Z :=
  nth n c 0 - sum_upto n (fun j => nth j c 0 * nth j s 0).

(** Z[X]/(X^n+1): the coefficient of X^m for any integer m, with X^n = -1.  [X^k * p] then has the
    coefficient [ext n p (i-k)] at [X^i]. *)
Definition ext (n : nat) (p : nat -> Z) (m : Z) : Z :=
  (if Z.even (m / Z.of_nat n) then 1 else -1) * p (Z.to_nat (m mod Z.of_nat n)).

(** The i-th coefficient of the phase b - a*s of a TRLWE ciphertext. *)
Definition trlwe_phase (n : nat) (s : list Z) (c : list Z * list Z) (i : nat) : Z :=
  nth i (snd c) 0 - sum_upto n (fun j => nth j s 0 * ext n (fun k => nth k (fst c) 0) (Z.of_nat i - Z.of_nat j)).

(** The two message spaces: {0,1/2} and {-1/8,1/8}. *)
Definition msg_0_1o2 (b : bool) : Z := if b then t_1o2 else 0.
Definition msg_1o8 (b : bool) : Z := if b then t_1o8 else - t_1o8.

(** * The contract of the TFHEpp functions. *)
Record noise := mkNoise {
  e_cmux : Z;      (* added by one CMUX *)
  e_iks : Z;       (* added by an identity key switch *)
  e_round : Z;     (* blind rotation decides the sign of a phase this far from 0 and 1/2 *)
  e_br : Z;        (* noise of the output of a blind rotation *)
  e_pk : Z;        (* added by the TLWE-to-TRLWE key switch *)
  e_cb : Z }.      (* circuit bootstrapping decides the sign of a phase this far from 0 and 1/2 *)

(** [positive e x]: the representative of x in [0,2^32) is in (e, 1/2 - e); [negative]: in
    (1/2 + e, 1 - e). *)
Definition positive (e x : Z) : Prop := e < x mod two32 < t_1o2 - e.
Definition negative (e x : Z) : Prop := t_1o2 + e < x mod two32 < two32 - e.

(** [bit c b]: the TRGSW ciphertext c encrypts the bit b. *)
Record tfhe_ok (T : tfhe) (s0 s1 : list Z) (bit : trgsw T -> bool -> Prop) (E : noise) : Prop := mkOk {
  ok_n1 : (0 < t_n1 T)%nat;
  ok_cmux : forall c b w1 w0 i, bit c b -> (i < t_n1 T)%nat ->
    near (e_cmux E) (trlwe_phase (t_n1 T) s1 (cmux T c w1 w0) i)
                    (trlwe_phase (t_n1 T) s1 (if b then w1 else w0) i);
  ok_sei : forall w i, (i < t_n1 T)%nat ->
    eqm (tlwe_phase (t_n1 T) s1 (sei T w i)) (trlwe_phase (t_n1 T) s1 w i);
  ok_iks_len : forall t, length (iks T t) = S (t_n0 T);
  ok_iks : forall t, near (e_iks E) (tlwe_phase (t_n0 T) s0 (iks T t)) (tlwe_phase (t_n1 T) s1 t);
  ok_br_len : forall t mu, length (snd (blind_rotate T t mu)) = t_n1 T;
  ok_br_pos : forall t mu, positive (e_round E) (tlwe_phase (t_n0 T) s0 t) ->
    near (e_br E) (trlwe_phase (t_n1 T) s1 (blind_rotate T t (repeat mu (t_n1 T))) 0) mu;
  ok_br_neg : forall t mu, negative (e_round E) (tlwe_phase (t_n0 T) s0 t) ->
    near (e_br E) (trlwe_phase (t_n1 T) s1 (blind_rotate T t (repeat mu (t_n1 T))) 0) (- mu);
  ok_pk_0 : forall t, near (e_pk E) (trlwe_phase (t_n1 T) s1 (packks T t) 0) (tlwe_phase (t_n1 T) s1 t);
  ok_pk_i : forall t i, (0 < i < t_n1 T)%nat -> near (e_pk E) (trlwe_phase (t_n1 T) s1 (packks T t) i) 0;
  ok_cb_pos : forall t, positive (e_cb E) (tlwe_phase (t_n1 T) s1 t) -> bit (cbfft T t) true;
  ok_cb_neg : forall t, negative (e_cb E) (tlwe_phase (t_n1 T) s1 t) -> bit (cbfft T t) false }.

(** * A TFHE instance that works on phases and adds a fixed noise e to every operation: it shows
    that the contract is satisfiable, for every key, every ring dimension and every noise. *)
Definition triv_tlwe (n : nat) (x : Z) : list Z := repeat 0 n ++ [x].
Definition triv_trlwe (n : nat) (f : nat -> Z) : list Z * list Z := (repeat 0 n, map f (seq 0 n)).
Definition toy (n0 n1 : nat) (s0 s1 : list Z) (e : Z) : tfhe := {|
  t_n0 := n0; t_n1 := n1; trgsw := bool;
  cmux := fun c w1 w0 => triv_trlwe n1 (fun i => trlwe_phase n1 s1 (if c then w1 else w0) i + e);
  sei := fun w i => triv_tlwe n1 (trlwe_phase n1 s1 w i);
  iks := fun t => triv_tlwe n0 (tlwe_phase n1 s1 t + e);
  blind_rotate := fun t v =>
    triv_trlwe n1 (fun _ => (if tlwe_phase n0 s0 t mod two32 <? t_1o2 then nth 0 v 0 else - nth 0 v 0) + e);
  packks := fun t => triv_trlwe n1 (fun i => (if (i =? 0)%nat then tlwe_phase n1 s1 t else 0) + e);
  cbfft := fun t => tlwe_phase n1 s1 t mod two32 <? t_1o2 |}.
Definition toy_noise (e : Z) : noise := mkNoise (Z.abs e) (Z.abs e) 0 (Z.abs e) (Z.abs e) 0.
