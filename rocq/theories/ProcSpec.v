(** Specification: what it means that commands run at the same time do not disturb each other. *)
From Coq Require Import List Arith Bool NArith ZArith Ascii.
Import ListNotations.
From Verif Require Import Base GraphModel Spec TextModel BitsModel TorusModel TfheSpec RunnerModel RunnerSpec ParModel StreamModel
  CmdModel CmdSpec CrashModel ProcModel.

(** A command reads only files with the property R and writes only files with the property W, whatever the
    files contain, the stream delivers and the computations yield. *)
Fixpoint within (R W : text -> Prop) (w : work) : Prop :=
  match w with
  | WRet _ => True
  | WRead p k => R p /\ forall o, within R W (k o)
  | WOpen _ _ p k => R p /\ within R W k
  | WSize k => forall n, within R W (k n)
  | WNext k => forall c, within R W (k c)
  | WAny _ k => forall x, within R W (k x)
  | WCreate p k => W p /\ within R W k
  | WAppend p _ _ k => W p /\ within R W k
  end.

(** The commands of a process have ended, with what they printed or with an error. *)
Definition stopped (q : process) (r : res text) : Prop :=
  match q with
  | (out, (_, Ended (Ok t)), []) => r = Ok (out ++ t)
  | (_, (_, Ended (Fail e)), _) => r = Fail e
  | _ => False
  end.

(** Every execution is finite, and Q holds whenever no process can move any more. *)
Definition all_end (ps : list process) (f : fs) (Q : list process -> fs -> Prop) : Prop :=
  Acc (fun y x => wmove x y) (ps, f) /\
  forall ps' f', wmoves (ps, f) (ps', f') -> (forall y, ~ wmove (ps', f') y) -> Q ps' f'.

(** Run alone in the directory f, the commands always end with the outcome r and leave the files g. *)
Definition alone (l : list work) (f : fs) (r : res text) (g : fs) : Prop :=
  all_end [begin l] f (fun ps f' => exists q, ps = [q] /\ stopped q r /\ same_files g f').

(** The command w, run alone in the directory f, always has the outcome r.  An encrypted run that ends with
    an error leaves files that depend on how far it came; they are left open here. *)
Definition does (w : work) (f : fs) (r : res fs) : Prop :=
  match r with
  | Ok g => alone [w] f (Ok []) g
  | Fail e => all_end [begin [w]] f (fun ps f' => exists q, ps = [q] /\ stopped q (Fail e))
  end.
(** The files that a run with the options --out and --out-dir writes. *)
Definition outputs (output_filename output_dirname : option text) (p : text) : Prop :=
  output_filename = Some p \/ exists d j, output_dirname = Some d /\ p = report_file d j.

(** What is said about one of the processes that run at the same time. *)
Record job := mkJob {
  j_script : list work;             (* its commands *)
  j_reads : text -> Prop;           (* the files they read *)
  j_writes : text -> Prop;          (* the files they write *)
  j_result : res text;              (* what they print when they run alone *)
  j_files : fs }.                   (* the files they leave then *)

(** A user of the key files [u_skey] and [u_bkey] who encrypts an input, runs it encrypted in one of the four
    modes and decrypts the answer; every file has a name of the user's choice. *)
Inductive mode :=
| Offline (interval : nat)
| Reverse (freq interval : nat)
| Flut (queue_size interval max_depth freq : nat)
| Block (queue_size : nat).
Record user := mkUser {
  u_skey : text; u_bkey : text; u_spec : text; u_input : text; u_cipher : text; u_output : text;
  u_ap : nat; u_coin : nat; u_mode : mode }.
Section Users.
Context (T : tfhe) (Y : crypto T).
Definition u_run (u : user) : work :=
  match u_mode u with
  | Offline interval => work_offline T Y (u_spec u) (u_cipher u) (u_output u) interval (u_bkey u) false
  | Reverse freq interval => work_reverse T Y (u_spec u) (u_cipher u) (Some (u_output u)) None freq interval false (u_bkey u) false
  | Flut q interval d freq => work_flut T Y (u_spec u) (u_cipher u) (Some (u_output u)) None freq q interval (u_bkey u) (Some d) None false
  | Block q => work_block T Y (u_spec u) (u_cipher u) (u_output u) q (u_bkey u) false
  end.
(** enc, run, dec *)
Definition u_script (u : user) : list work :=
  [work_enc T Y (u_skey u) (u_input u) (u_cipher u) (u_ap u) (u_coin u); u_run u; work_dec T Y (u_skey u) (u_output u)].
(** genkey, genbkey, enc, run, dec *)
Definition u_session (u : user) : list work := work_genkey T Y (u_skey u) :: work_genbkey T Y (u_skey u) (u_bkey u) :: u_script u.
Definition u_names (u : user) : list text := [u_skey u; u_bkey u; u_spec u; u_input u; u_cipher u; u_output u].
(** What the modes ask of the parameters, the noise, the specification g and the number of bits (as for one user alone). *)
Definition mode_ok (E : noise) (g : Graph) (m : mode) (bits : nat) : Prop :=
  match m with
  | Offline interval => 0 < interval /\ back_margin E interval /\ (Z.of_nat bits < 2 ^ 31)%Z
  | Reverse _ interval => 0 < interval /\ back_margin E interval
  | Flut q interval d _ =>
      0 < q < 31 /\ 0 < interval /\ d < 31 /\ table_fits (t_n1 T) d q g /\ flut_margin (size g * 2 ^ (q / 2)) q interval E /\
      (forall n k, In n (flushes q 0 0 (asked None 0 (repeat tt bits))) -> width g n k -> k < 2 ^ d)
  | Block q => 0 < bits /\ block_margin g q E /\ Nat.log2 (size g) + 1 < t_n1 T /\ Nat.log2 (size g) + 1 < 31
  end.
(** The user's files: run plain answers [printed] on them. *)
Definition user_ok (E : noise) (f : fs) (u : user) (printed : text) : Prop :=
  0 < u_ap u /\ run_plain f (u_spec u) (u_input u) (u_ap u) = Ok printed /\
  exists g bytes, from_file f (u_spec u) = Ok g /\ f (u_input u) = Some bytes /\
    mode_ok E g (u_mode u) (nbits (u_ap u) bytes) /\ (Z.of_nat (nbits (u_ap u) bytes * (c_words T Y * 8)) < 2 ^ 64)%Z.
End Users.
