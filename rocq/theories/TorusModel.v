(** Model of the ciphertext helpers of src/tfhepp_util.cpp:182-461.

    uint32_t is Z modulo 2^32.  A polynomial, a TLWE ciphertext and a secret key are lists of
    uint32_t read through [cf], so every list denotes an array of uint32_t.  The ring dimensions
    Lvl0::n and Lvl1::n are parameters.  The functions of the TFHEpp library the code calls are
    fields of the record [tfhe]; what is assumed about them is in TfheSpec.v. *)
From Coq Require Import List Arith Bool NArith ZArith Ascii.
Import ListNotations.
From Verif Require Import Base.
Local Open Scope list_scope.

(** src/tfhepp_util.hpp:125-178 and the whole of src/tfhepp_util.cpp:182-461: Torus32 arithmetic. *)
Definition two32 : Z := 4294967296%Z.
(** src/tfhepp_util.cpp:246-304  uint32_t arithmetic *)
Definition w32 (x : Z) : Z := (x mod two32)%Z.

Notation poly := (list Z) (only parsing).
Notation tlwe := (list Z) (only parsing).          (* n coefficients, then b *)
Notation trlwe := (list Z * list Z)%type (only parsing).  (* [0] = a, [1] = b *)

(** src/tfhepp_util.cpp:246-314  reading c[i] *)
Definition cf (p : list Z) (i : nat) : Z := w32 (nth i p 0%Z).

(** src/tfhepp_util.cpp:197-244, 317-388.
    1u << 29, 1u << 30, 1u << 31: the torus elements 1/8, 1/4, 1/2 *)
Definition t_1o8 : Z := 536870912%Z.
(** src/tfhepp_util.cpp:332-388, 401, 418 *)
Definition t_1o4 : Z := 1073741824%Z.
(** src/tfhepp_util.cpp:239-244, 401, 407, 418 *)
Definition t_1o2 : Z := 2147483648%Z.

(** src/tfhepp_util.cpp:184-244, 404-414.
    An array of n words given by its entries; writing one entry *)
Definition mk_poly (n : nat) (f : nat -> Z) : poly := map f (seq 0 n).
(** src/tfhepp_util.cpp:197-244 *)
Definition put (p : poly) (i : nat) (v : Z) : poly := upd i (w32 v) p.

(** src/tfhepp_util.cpp:184-195 *)
Definition trivial_TRLWELvl1 (n : nat) (src : poly) : trlwe := (repeat 0%Z n, src).
(** src/tfhepp_util.cpp:191-195 *)
Definition trivial_TRLWELvl1_zero (n : nat) : trlwe := (repeat 0%Z n, repeat 0%Z n).

(** src/tfhepp_util.cpp:197-223  (n is Lvl0::n or Lvl1::n) *)
Definition trivial_TLWE_minus_1over8 (n : nat) : tlwe := put (repeat 0%Z (S n)) n (- t_1o8).
(** src/tfhepp_util.cpp:204-209, 218-223 *)
Definition trivial_TLWE_1over8 (n : nat) : tlwe := put (repeat 0%Z (S n)) n t_1o8.

(** src/tfhepp_util.cpp:225-244 *)
Definition trivial_TRLWELvl1_minus_1over8 (n : nat) : trlwe := (repeat 0%Z n, put (repeat 0%Z n) 0 (- t_1o8)).
(** src/tfhepp_util.cpp:232-237 *)
Definition trivial_TRLWELvl1_1over8 (n : nat) : trlwe := (repeat 0%Z n, put (repeat 0%Z n) 0 t_1o8).
(** src/tfhepp_util.cpp:239-244 *)
Definition trivial_TRLWELvl1_1over2 (n : nat) : trlwe := (repeat 0%Z n, put (repeat 0%Z n) 0 t_1o2).

(** src/tfhepp_util.cpp:246-256  TLWELvl0_add / TLWELvl1_add *)
Definition TLWE_add (n : nat) (lhs rhs : tlwe) : tlwe :=
  mk_poly (S n) (fun i => w32 (cf lhs i + cf rhs i)).

(** src/tfhepp_util.cpp:258-265 *)
Definition TRLWELvl1_add (n : nat) (out src : trlwe) : trlwe :=
  (mk_poly n (fun i => w32 (cf (fst out) i + cf (fst src) i)),
   mk_poly n (fun i => w32 (cf (snd out) i + cf (snd src) i))).

(** src/tfhepp_util.cpp:267-289  PolyLvl1_mult_X_k.  Every entry of out is written once, by the
    first loop if i < k (resp. k2) and by the second one otherwise.  For k2 > n the loops run
    outside of both arrays. *)
Definition PolyLvl1_mult_X_k (n : nat) (src : poly) (k : nat) : res poly :=
  if k =? 0 then Ok (mk_poly n (cf src))
  else if k <? n then
    Ok (mk_poly n (fun i => if i <? k then w32 (- cf src (i + n - k)) else cf src (i - k)))
  else
    let k2 := k - n in
    if n <? k2 then Fail FUndefined
    else Ok (mk_poly n (fun i => if i <? k2 then cf src (i + n - k2) else w32 (- cf src (i - k2)))).

(** src/tfhepp_util.cpp:291-296 *)
Definition TRLWELvl1_mult_X_k (n : nat) (src : trlwe) (k : nat) : res trlwe :=
  do a <- PolyLvl1_mult_X_k n (fst src) k;
  do b <- PolyLvl1_mult_X_k n (snd src) k;
  Ok (a, b).

(** src/tfhepp_util.cpp:298-304  phase_of_TLWELvl1 (also used for level 0) *)
Definition phase_of_TLWE (n : nat) (src : tlwe) (key : list Z) : Z :=
  fold_left (fun phase i => w32 (phase - cf src i * cf key i)) (seq 0 n) (cf src n).

(** src/tfhepp_util.cpp:306-314  phase_of_TRLWELvl1.  TFHEpp::PolyMul is the product of
    Z_{2^32}[X]/(X^n+1): coefficient i of the product of a and s. *)
Definition poly_mul_coef (n : nat) (a s : poly) (i : nat) : Z :=
  fold_left (fun acc j => if j <=? i then w32 (acc + cf a (i - j) * cf s j)
                          else w32 (acc - cf a (n + i - j) * cf s j)) (seq 0 n) 0%Z.
(** src/tfhepp_util.cpp:306-314 *)
Definition phase_of_TRLWELvl1 (n : nat) (src : trlwe) (key : list Z) : poly :=
  mk_poly n (fun i => w32 (cf (snd src) i - poly_mul_coef n (fst src) key i)).

(** * The TFHEpp functions the code calls (keys are implicit in the operations). *)
(** src/tfhepp_util.cpp:316-461, src/backstream_dfa_runner.cpp:63-65, src/online_dfa.cpp:190-535. *)
Record tfhe := mkTfhe {
  t_n0 : nat;                                        (* Lvl0::n *)
  t_n1 : nat;                                        (* Lvl1::n *)
  trgsw : Type;                                      (* TRGSWLvl1FFT *)
  cmux : trgsw -> trlwe -> trlwe -> trlwe;           (* CMUXFFT<Lvl1>(res, cs, c1, c0) *)
  sei : trlwe -> nat -> tlwe;                        (* SampleExtractIndex<Lvl1>(tlwe, trlwe, index) *)
  iks : tlwe -> tlwe;                                (* IdentityKeySwitch<lvl10param> *)
  blind_rotate : tlwe -> poly -> trlwe;              (* BlindRotate<lvl01param>(res, tlwe, bk, testvector) *)
  packks : tlwe -> trlwe;                            (* TLWE2TRLWEIKS<lvl11param> *)
  cbfft : tlwe -> trgsw }.                           (* CircuitBootstrappingFFT<lvl10, lvl02, lvl21> *)

Section T.
Context (T : tfhe).

(** src/tfhepp_util.cpp:317-359, 451-461.
    TFHEpp::mu-polygen<Lvl1, mu>() : every coefficient is mu *)
Definition mupolygen (mu : Z) : poly := repeat mu (t_n1 T).

(** src/tfhepp_util.cpp:316-327  do_SEI_IKS_GBTLWE2TRLWE (lvl1param::mu is 1/8) *)
Definition do_SEI_IKS_GBTLWE2TRLWE (w : trlwe) : trlwe :=
  blind_rotate T (iks T (sei T w 0)) (mupolygen t_1o8).

(** src/tfhepp_util.cpp:332-359.
    src[Lvl0::n] -= (1 << 30) *)
Definition sub_quarter (src : tlwe) : tlwe := put src (t_n0 T) (cf src (t_n0 T) - t_1o4).

(** src/tfhepp_util.cpp:329-344  BS_TLWE_0_1o2_to_TRLWE_0_1o2 *)
Definition BS_TLWE_0_1o2_to_TRLWE_0_1o2 (src : tlwe) : trlwe :=
  let out := blind_rotate T (sub_quarter src) (mupolygen t_1o4) in
  (fst out, put (snd out) 0 (cf (snd out) 0 + t_1o4)).

(** src/tfhepp_util.cpp:346-359  BS_TLWE_0_1o2_to_TRLWE_m1o8_1o8 *)
Definition BS_TLWE_0_1o2_to_TRLWE_m1o8_1o8 (src : tlwe) : trlwe :=
  blind_rotate T (sub_quarter src) (mupolygen t_1o8).

(** src/tfhepp_util.cpp:361-374  do_SEI_IKS_GBTLWE2TRLWE_2 *)
Definition do_SEI_IKS_GBTLWE2TRLWE_2 (w : trlwe) : trlwe :=
  BS_TLWE_0_1o2_to_TRLWE_0_1o2 (iks T (sei T w 0)).

(** src/tfhepp_util.cpp:376-388  do_SEI_IKS_GBTLWE2TRLWE_3 *)
Definition do_SEI_IKS_GBTLWE2TRLWE_3 (w : trlwe) : trlwe :=
  BS_TLWE_0_1o2_to_TRLWE_m1o8_1o8 (iks T (sei T w 0)).

(** src/tfhepp_util.cpp:444-449  CircuitBootstrappingFFTLvl11 *)
Definition CircuitBootstrappingFFTLvl11 (src : tlwe) : trgsw T := cbfft T src.

(** src/tfhepp_util.cpp:451-461  HomXORwoSE (Lvl0::mu is 1/8) *)
Definition HomXORwoSE (lhs rhs : tlwe) : trlwe :=
  let temp := mk_poly (S (t_n0 T)) (fun i => w32 (2 * cf lhs i + 2 * cf rhs i)) in
  let temp := put temp (t_n0 T) (cf temp (t_n0 T) + 2 * t_1o8) in
  blind_rotate T temp (mupolygen t_1o8).
End T.

(** src/tfhepp_util.cpp:395-402  decrypt_TLWELvl1_to_bit *)
Definition decrypt_TLWELvl1_to_bit (n : nat) (c : tlwe) (key : list Z) : bool :=
  (t_1o2 <? w32 (phase_of_TLWE n c key + t_1o4))%Z.

(** src/tfhepp_util.cpp:404-414  uint2weight; x is a uint64_t *)
Definition uint2weight (n : nat) (x : N) : poly :=
  mk_poly n (fun i => if i <? 64 then (if N.testbit_nat x i then t_1o2 else 0%Z) else 0%Z).

(** src/tfhepp_util.cpp:416-420  between_25_75 *)
Definition between_25_75 (x : Z) : bool := ((t_1o4 <=? x) && (x <=? t_1o4 + t_1o2))%Z.

(** src/tfhepp_util.cpp:422-442  dump_weight / weight2bitstring *)
Definition dump_weight (n : nat) (w : poly) : list ascii :=
  concat (map (fun i => (if i mod 32 =? 0 then ["010"%char] else if i mod 8 =? 0 then [" "%char] else [])
                        ++ [if between_25_75 (cf w i) then "1"%char else "0"%char]) (seq 0 n)) ++ ["010"%char].
(** src/tfhepp_util.cpp:437-442 *)
Definition weight2bitstring (n : nat) (w : poly) : list ascii := dump_weight n w.
