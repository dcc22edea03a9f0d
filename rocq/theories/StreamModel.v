(** Model of the ciphertext files: src/tfhepp_util.hpp:19-60, 62-111 and
    src/tfhepp_util.cpp:1-180.

    A TRGSWLvl1FFT is an array of (2l) x 2 x n doubles; the model uses the flat list of its
    4*l*n entries in the order in which the three nested loops visit them, every double being
    its 64-bit pattern.  [words] is 4*l*n. *)
From Coq Require Import List Arith Bool NArith ZArith.
Import ListNotations.
From Verif Require Import Base.

Notation ctxt := (list N) (only parsing).

(** The bytes of a double in memory, least significant first (little endian is asserted by both
    constructors, src/tfhepp_util.cpp:6-16 and 43-53). *)
Fixpoint le_bytes (k : nat) (w : N) : list N :=
  match k with
  | O => []
  | S k' => (w mod 256)%N :: le_bytes k' (w / 256)%N
  end.
(** src/tfhepp_util.cpp:55-67  a double, as a bit pattern, from its little-endian bytes *)
Fixpoint of_le (bs : list N) : N :=
  match bs with
  | [] => 0%N
  | b :: bs' => (b + 256 * of_le bs')%N
  end.

(** src/tfhepp_util.cpp:18-39  TRGSWLvl1FFTSerializer::save: what is appended to the file.
    A failing sputn (disk full) makes assert(written_size == size) fail: see DiskModel. *)
Definition save (src : ctxt) : list N := concat (map (le_bytes 8) src).

(** src/tfhepp_util.hpp:34-40.
    The std::ifstream: content, read position, failbit. *)
Record istream := mkIs { is_data : list N; is_pos : nat; is_fail : bool }.

(** src/tfhepp_util.cpp:59 
    rdbuf()->sgetn(data, k): what could be read, and the stream afterwards.  It ignores failbit. *)
Definition sgetn (is : istream) (k : nat) : list N * istream :=
  let got := firstn k (skipn (is_pos is) (is_data is)) in
  (got, mkIs (is_data is) (is_pos is + length got) (is_fail is)).

(** src/tfhepp_util.cpp:55-67  load_binary / load_double *)
Definition load_double (is : istream) : res (N * istream) :=
  let '(got, is') := sgetn is 8 in
  assert_ (length got =? 8) (Ok (of_le got, is')).

(** src/tfhepp_util.cpp:91-97  load, for a ciphertext of [words] doubles *)
Fixpoint load (words : nat) (is : istream) : res (ctxt * istream) :=
  match words with
  | O => Ok ([], is)
  | S w => do '(d, is1) <- load_double is;
           do '(ds, is2) <- load w is1;
           Ok (d :: ds, is2)
  end.

(** src/tfhepp_util.hpp:42-43  BLOCK_SIZE *)
Definition block_size (words : nat) : nat := words * 8.

(** src/tfhepp_util.cpp:71, 78, 83.
    is_.tellg(): -1 when the stream has failed *)
Definition tellg (is : istream) : Z := if is_fail is then (-1)%Z else Z.of_nat (is_pos is).

(** (auxiliary) size_t and std::streamoff are 64-bit types, src/tfhepp_util.cpp:71, 88 *)
Definition two64 : Z := 18446744073709551616%Z.
(** src/tfhepp_util.cpp:88.
    conversion to the signed 64-bit type std::streamoff *)
Definition to_off (x : Z) : Z :=
  let y := (x mod two64)%Z in if (y <? 9223372036854775808)%Z then y else (y - two64)%Z.

(** src/tfhepp_util.cpp:69-74  tell(): tellg() as a size_t must be a multiple of the block size *)
Definition tell (words : nat) (is : istream) : res Z :=
  let org := (tellg is mod two64)%Z in
  let bs := Z.of_nat (block_size words) in
  assert_ (org mod bs =? 0)%Z (Ok (org / bs)%Z).

(** src/tfhepp_util.cpp:76-84.  is_.beg, is_.cur and is_.end are the constants
    std::ios_base::beg = 0, cur = 1, end = 2 of type seekdir; comparing them with tellg() compares
    with the offsets 0 and 2 (libstdc++'s values). *)
Inductive seekdir := DBeg | DCur | DEnd.
(** src/tfhepp_util.cpp:76-84  the values is_.beg, is_.cur and is_.end *)
Definition dir_value (d : seekdir) : Z := match d with DBeg => 0 | DCur => 1 | DEnd => 2 end%Z.
(** src/tfhepp_util.cpp:76-79 *)
Definition is_beg (is : istream) : bool := (tellg is =? dir_value DBeg)%Z.
(** src/tfhepp_util.cpp:81-84 *)
Definition is_end (is : istream) : bool := (tellg is =? dir_value DEnd)%Z.

(** src/tfhepp_util.cpp:86-89  seek: off * BLOCK_SIZE is computed in size_t and converted to
    streamoff.  seekg does nothing on a failed stream and fails when the target is negative. *)
Definition seek (words : nat) (off : Z) (dir : seekdir) (is : istream) : istream :=
  let o := to_off ((off mod two64) * Z.of_nat (block_size words)) in
  if is_fail is then is
  else
    let base := match dir with DBeg => 0 | DCur => Z.of_nat (is_pos is) | DEnd => Z.of_nat (length (is_data is)) end%Z in
    if (base + o <? 0)%Z then mkIs (is_data is) (is_pos is) true
    else mkIs (is_data is) (Z.to_nat (base + o)) (is_fail is).

(** * The input streams: a caller thread and one loader thread.

    Shared data: the deserialiser (hence the ifstream) and loaded_.  [wop] are the atomic steps of
    the loader, [cop] those of the caller. *)
(** src/tfhepp_util.cpp:122-129, 159-169. *)
Inductive wop :=
| WAssertNotBeg              (* assert(!deser_.is_beg()) *)
| WSeek (off : Z)            (* deser_.seek(off, cur) *)
| WLoad (i : nat).           (* load_double(loaded_[i]) *)

(** src/tfhepp_util.hpp:62-111  the two classes of input streams *)
Inductive kind := Forward | Reversed.

(** src/tfhepp_util.cpp:122-129 and 159-169: the body of the lambda given to the pool *)
Definition load_ops (words : nat) : list wop := map WLoad (seq 0 words).
(** src/tfhepp_util.cpp:125-128, 162-168  running_: a future, with the loader's remaining steps *)
Definition task (k : kind) (words : nat) : list wop :=
  match k with
  | Forward => load_ops words
  | Reversed => [WAssertNotBeg; WSeek (-1)] ++ load_ops words ++ [WSeek (-1)]
  end.

(** src/tfhepp_util.cpp:117-120, 131-140, 154-157, 171-180  the steps of the caller thread *)
Inductive cop :=
| CSize         (* size(): reports current_size_ *)
| CAssertMore   (* assert(current_size_ > 0) *)
| CGet          (* running_.get() *)
| CCopy         (* ret = loaded_ *)
| CDecr         (* current_size_-- *)
| CMore         (* if (current_size_ > 0) start_loading_next();  or  if (!deser_.is_beg()) ... *)
| CReturn.      (* return ret *)

(** src/tfhepp_util.hpp:62-111  the public member functions size() and next()
    The calls a caller can make. *)
Inductive call := Size | Next.

(** src/tfhepp_util.cpp:117-120, 131-140, 154-157, 171-180 *)
Definition call_ops (k : kind) (c : call) : list cop :=
  match c, k with
  | Size, _ => [CSize]
  | Next, Forward => [CAssertMore; CGet; CCopy; CDecr; CMore; CReturn]
  | Next, Reversed => [CAssertMore; CGet; CCopy; CMore; CDecr; CReturn]
  end.

(** src/tfhepp_util.cpp:117-120, 131-140, 154-157, 171-180.
    What the caller sees. *)
Inductive event := ESize (n : nat) | EValue (c : ctxt).

(** src/tfhepp_util.hpp:62-111  the data members of both classes *)
Record stream := mkStream {
  s_is : istream;
  s_loaded : ctxt;                    (* loaded_ *)
  s_size : nat;                       (* current_size_ *)
  s_run : option (list wop);          (* running_: invalid, or valid with the loader's remaining steps *)
  s_ret : ctxt;                       (* the local variable ret *)
  s_out : list event;                 (* events so far *)
  s_prog : list cop }.                (* what the caller still has to do *)

(** src/tfhepp_util.cpp:126-127, 163-167  one step of the loader thread
    One step of the loader, on the shared data. *)
Definition wstep (words : nat) (o : wop) (is : istream) (loaded : ctxt) : res (istream * ctxt) :=
  match o with
  | WAssertNotBeg => assert_ (negb (is_beg is)) (Ok (is, loaded))
  | WSeek off => Ok (seek words off DCur is, loaded)
  | WLoad i => do '(d, is') <- load_double is; do l' <- set_at loaded i d; Ok (is', l')
  end.

(** start_loading_next: src/tfhepp_util.cpp:122-129, 159-169 *)
Definition start (k : kind) (words : nat) (run : option (list wop)) : res (option (list wop)) :=
  match run with
  | Some _ => Fail FAssert                          (* assert(!running_.valid()) *)
  | None => Ok (Some (task k words))
  end.

(** src/tfhepp_util.cpp:122-129, 131-140, 159-169, 171-180.
    Touching shared data while the loader is still working would be a data race. *)
Definition quiet {A} (run : option (list wop)) (m : res A) : res A :=
  match run with
  | None => m
  | Some [] => m
  | Some (_ :: _) => Fail FUndefined
  end.

(** src/tfhepp_util.cpp:117-140, 154-180.
    One step of the caller; None: it is blocked. *)
Definition cstep (k : kind) (words : nat) (o : cop) (s : stream) (rest : list cop) : option (res stream) :=
  match o with
  | CSize => Some (Ok (mkStream (s_is s) (s_loaded s) (s_size s) (s_run s) (s_ret s) (s_out s ++ [ESize (s_size s)]) rest))
  | CAssertMore => Some (assert_ (0 <? s_size s)
                     (Ok (mkStream (s_is s) (s_loaded s) (s_size s) (s_run s) (s_ret s) (s_out s) rest)))
  | CGet =>
      match s_run s with
      | None => Some (Fail FUndefined)               (* get() on an invalid future *)
      | Some [] => Some (Ok (mkStream (s_is s) (s_loaded s) (s_size s) None (s_ret s) (s_out s) rest))
      | Some (_ :: _) => None                        (* blocked *)
      end
  | CCopy => Some (quiet (s_run s)
                 (Ok (mkStream (s_is s) (s_loaded s) (s_size s) (s_run s) (s_loaded s) (s_out s) rest)))
  | CDecr => Some (Ok (mkStream (s_is s) (s_loaded s) (s_size s - 1) (s_run s) (s_ret s) (s_out s) rest))
  | CMore =>
      let go := do r <- start k words (s_run s);
                Ok (mkStream (s_is s) (s_loaded s) (s_size s) r (s_ret s) (s_out s) rest) in
      let skip := Ok (mkStream (s_is s) (s_loaded s) (s_size s) (s_run s) (s_ret s) (s_out s) rest) in
      Some (match k with
            | Forward => if 0 <? s_size s then go else skip
            | Reversed => quiet (s_run s) (if negb (is_beg (s_is s)) then go else skip)
            end)
  | CReturn => Some (Ok (mkStream (s_is s) (s_loaded s) (s_size s) (s_run s) (s_ret s)
                                  (s_out s ++ [EValue (s_ret s)]) rest))
  end.

(** src/tfhepp_util.hpp:62-111  the caller and the single thread of pool_ *)
Inductive thread := Caller | Loader.

(** src/tfhepp_util.cpp:99-180.
    One step of the chosen thread; None if it cannot move. *)
Definition step (k : kind) (words : nat) (t : thread) (s : stream) : option (res stream) :=
  match t with
  | Loader =>
      match s_run s with
      | Some (o :: os) =>
          Some (do '(is', l') <- wstep words o (s_is s) (s_loaded s);
                Ok (mkStream is' l' (s_size s) (Some os) (s_ret s) (s_out s) (s_prog s)))
      | _ => None
      end
  | Caller =>
      match s_prog s with
      | [] => None
      | o :: rest => cstep k words o s rest
      end
  end.

(** src/tfhepp_util.cpp:99-180.
    A schedule: which thread moves next; choosing a thread that cannot move changes nothing. *)
Definition exec (k : kind) (words : nat) (sched : list thread) (s : stream) : res stream :=
  foldM (fun s t => match step k words t s with None => Ok s | Some r => r end) sched s.

(** src/tfhepp_util.cpp:101-115, 144-152  the constructors; [calls] is what the caller is going to
    do with the stream.  loaded_ starts out with arbitrary content [junk]; a file that cannot be
    opened fails assert(is), not modelled. *)
Definition open_stream (k : kind) (words : nat) (file : list N) (junk : ctxt) (calls : list call) : res stream :=
  let is0 := seek words 0 DEnd (mkIs file 0 false) in
  do n <- tell words is0;
  let prog := concat (map (call_ops k) calls) in
  match k with
  | Forward =>
      let is1 := seek words 0 DBeg is0 in
      do r <- (if (0 <? n)%Z then start k words None else Ok None);
      Ok (mkStream is1 junk (Z.to_nat n) r junk [] prog)
  | Reversed =>
      do r <- (if negb (is_beg is0) then start k words None else Ok None);
      Ok (mkStream is0 junk (Z.to_nat n) r junk [] prog)
  end.
