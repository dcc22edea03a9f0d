(** Independent, declarative description of the two text formats.
    Only character classes and decimal values are shared with the model. *)
From Coq Require Import List Arith Bool NArith Ascii.
Import ListNotations.
From Verif Require Import Base GraphModel Spec.

Notation text := (list ascii) (only parsing).

(** Character classes, by enumeration. *)
Definition Digit (c : ascii) : Prop :=
  In c ["0"; "1"; "2"; "3"; "4"; "5"; "6"; "7"; "8"; "9"]%char.
Definition Blank (c : ascii) : Prop :=   (* tab, newline, vertical tab, form feed, CR, space *)
  In c ["009"; "010"; "011"; "012"; "013"; " "]%char.

(** The decimal value of a digit string. *)
Definition digit (c : ascii) : N :=
  (if Ascii.eqb c "0" then 0 else if Ascii.eqb c "1" then 1 else if Ascii.eqb c "2" then 2
   else if Ascii.eqb c "3" then 3 else if Ascii.eqb c "4" then 4 else if Ascii.eqb c "5" then 5
   else if Ascii.eqb c "6" then 6 else if Ascii.eqb c "7" then 7 else if Ascii.eqb c "8" then 8
   else 9)%N.
Inductive decimal : text -> N -> Prop :=
| dec_one c : Digit c -> decimal [c] (digit c)
| dec_more s n c : decimal s n -> Digit c -> decimal (s ++ [c]) (10 * n + digit c)%N.

(** A number that fits into a C++ int. *)
Definition int_number (s : text) (n : nat) : Prop :=
  exists v, decimal s v /\ (v <= 2147483647)%N /\ n = N.to_nat v.

(** The lines of a text: every line is ended by a newline, except that the last one may lack
    it if it is not empty. *)
Inductive lines_of : text -> list text -> Prop :=
| lines_nil : lines_of [] []
| lines_last l : l <> [] -> ~ In "010"%char l -> lines_of l [l]
| lines_cons l t ls : ~ In "010"%char l -> lines_of t ls -> lines_of (l ++ "010"%char :: t) (l :: ls).

(** ** Specification rows:   [>] number [*]  blanks  targets  blanks  targets *)
Definition targets_field (f : text) : Prop :=
  f = ["_"%char] \/ (f <> [] /\ Forall (fun c => Digit c \/ c = ","%char) f).

Definition row_format (line : text) (init : bool) (num : text) (final : bool) (f0 f1 : text) : Prop :=
  exists b0 b1,
    line = (if init then [">"%char] else []) ++ num ++ (if final then ["*"%char] else []) ++
           b0 ++ f0 ++ b1 ++ f1 /\
    num <> [] /\ Forall Digit num /\
    b0 <> [] /\ Forall Blank b0 /\ b1 <> [] /\ Forall Blank b1 /\
    targets_field f0 /\ targets_field f1.

Definition is_row (line : text) : Prop :=
  exists i n f f0 f1, row_format line i n f f0 f1.

(** Numbers separated by commas (a single trailing comma is tolerated); "_" is the empty list. *)
Inductive targets : text -> list nat -> Prop :=
| tg_none : targets ["_"%char] []
| tg_one s n : int_number s n -> targets s [n]
| tg_trail s n : int_number s n -> targets (s ++ [","%char]) [n]
| tg_cons s n f l : int_number s n -> f <> ["_"%char] -> targets f l ->
    targets (s ++ ","%char :: f) (n :: l).

(** A row of the automaton: initial?, final?, 0-successors, 1-successors. *)
Notation arow := (bool * bool * list nat * list nat)%type (only parsing).

(** [rows_of i ls rows]: the row lines among [ls] carry the state numbers i, i+1, ... and
    describe [rows]; all other lines are ignored. *)
Inductive rows_of : nat -> list text -> list arow -> Prop :=
| rows_nil i : rows_of i [] []
| rows_skip i l ls rows : ~ is_row l -> rows_of i ls rows -> rows_of i (l :: ls) rows
| rows_row i l ls rows init num final f0 f1 q0s q1s :
    row_format l init num final f0 f1 ->
    int_number num i -> targets f0 q0s -> targets f1 q1s ->
    rows_of (S i) ls rows ->
    rows_of i (l :: ls) ((init, final, q0s, q1s) :: rows).

(** The automaton of a list of rows. *)
Definition number {A} (l : list A) : list (nat * A) := combine (seq 0 (length l)) l.
Definition table_of (rows : list arow) : nfa_table :=
  map (fun '(q, (_, _, q0s, q1s)) => (q, q0s, q1s)) (number rows).
Definition finals_of (rows : list arow) : list nat :=
  map fst (filter (fun '(_, (_, f, _, _)) => f) (number rows)).
Definition marked_inits (rows : list arow) : list nat :=
  map fst (filter (fun '(_, (i, _, _, _)) => i) (number rows)).
Definition inits_of (rows : list arow) : list nat :=
  match marked_inits rows with [] => [0] | l => l end.
Definition deterministic (rows : list arow) : Prop :=
  length (inits_of rows) = 1 /\
  Forall (fun '(_, _, q0s, q1s) => length q0s = 1 /\ length q1s = 1) rows.
(** No transition of any row leads to a missing row. *)
Definition closed_table (rows : list arow) : Prop :=
  Forall (fun '(_, _, q0s, q1s) => Forall (fun q => q < length rows) (q0s ++ q1s)) rows.

(** ** AT&T lines:  from TAB to TAB bit,   or   final-state *)
Inductive att_item := AEdge (from to : nat) (b : bool) | AFinal (q : nat).
Inductive att_denotes : text -> att_item -> Prop :=
| att_edge0 a b f t : int_number a f -> int_number b t ->
    att_denotes (a ++ "009"%char :: b ++ "009"%char :: ["0"%char]) (AEdge f t false)
| att_edge1 a b f t : int_number a f -> int_number b t ->
    att_denotes (a ++ "009"%char :: b ++ "009"%char :: ["1"%char]) (AEdge f t true)
| att_final a q : int_number a q -> att_denotes a (AFinal q).

Inductive att_path (items : list att_item) : nat -> list bool -> nat -> Prop :=
| att_path_nil q : att_path items q [] q
| att_path_cons q b q1 w q2 : In (AEdge q q1 b) items -> att_path items q1 w q2 ->
    att_path items q (b :: w) q2.
Definition att_accepts (items : list att_item) (w : list bool) : Prop :=
  exists q, att_path items 0 w q /\ In (AFinal q) items.
