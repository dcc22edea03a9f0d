(** Specification vocabulary for the commands: the contract of the remaining cryptography, how
    many bits an input file holds, when a monitor reports. *)
From Coq Require Import List Arith Bool NArith ZArith Ascii.
Import ListNotations.
From Verif Require Import Base GraphModel TextModel TorusModel StreamModel InputSpec RunnerSpec CmdModel.

(** The contract of key generation, encryption and of the memory layout of a ciphertext (an
    assumption of the theorems that mention it, listed in DESIGN.md). *)
Record crypto_ok (T : tfhe) (Y : crypto T) (s1 : list Z) (bit : trgsw T -> bool -> Prop) : Prop := mkCryptoOk {
  y_words : 0 < c_words T Y;
  y_block : (Z.of_nat (c_words T Y * 8) < 2 ^ 63)%Z;
  y_key : c_key T Y = s1;
  y_ctxt : forall coin b, is_ctxt (c_words T Y) (c_save T Y (c_enc T Y coin b));
  y_round : forall coin b, c_load T Y (c_save T Y (c_enc T Y coin b)) = c_enc T Y coin b;
  y_bit : forall coin b, bit (c_enc T Y coin b) b;
  y_skey : c_read_skey T Y (c_skey T Y) = true;
  y_bkey : c_read_bkey T Y (c_bkey T Y) = Some (true, true) }.

(** The key files are in place. *)
Definition keys_at {T} (Y : crypto T) (f : fs) (skey bkey : text) : Prop :=
  (exists b, f skey = Some b /\ c_read_skey T Y b = true) /\
  (exists b, f bkey = Some b /\ c_read_bkey T Y b = Some (true, true)).

(** Number of bits in an input file with valuations of [ap] bits, each in whole bytes. *)
Definition nbits (ap : nat) (bytes : list N) : nat := length bytes / ((ap + 7) / 8) * ap.

(** The history of a monitor that reports after every [freq]-th input, if [freq] is given, and at
    the end; [i] inputs have gone before. *)
Fixpoint asked {C} (freq : option nat) (i : nat) (l : list C) : list (option C) :=
  match l with
  | [] => [None]
  | c :: l' => Some c :: match freq with
                         | Some k => if S i mod k =? 0 then None :: asked freq (S i) l' else asked freq (S i) l'
                         | None => asked freq (S i) l'
                         end
  end.

(** The numbers of inputs after which it reports, out of the numbers i+1 .. i+n, and at the end. *)
Definition reports (freq : option nat) (i n : nat) : list nat :=
  match freq with Some k => filter (fun j => j mod k =? 0) (seq (S i) n) | None => [] end ++ [i + n].

(** The file names of the reports: "<dir>/<number>.out". *)
Definition report_file (dir : text) (j : nat) : text :=
  let name := show_nat j ++ [".";"o";"u";"t"]%char in
  if list_eq_dec ascii_dec dir [] then name
  else if ascii_dec (last dir " "%char) "/"%char then dir ++ name
  else dir ++ ["/"%char] ++ name.

(** What is printed for a verdict. *)
Definition answer (b : bool) : text := [if b then "1"%char else "0"%char].
