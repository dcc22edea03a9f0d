(** What a text in the DOT language says (the part of the language that is used here): tokens,
    statements, and the pictures of automata.  Independent of the model. *)
From Coq Require Import String.
From Coq Require Import List Arith Bool Ascii.
Import ListNotations.
From Verif Require Import Base GraphModel Spec TextModel DotModel.
Local Open Scope list_scope.

(** * Tokens *)
Definition blank (c : ascii) : Prop := In c [" "; "009"; "010"; "013"]%char.
Definition id_char (c : ascii) : bool :=
  let n := nat_of_ascii c in
  ((48 <=? n) && (n <=? 57)) || ((65 <=? n) && (n <=? 90)) || ((97 <=? n) && (n <=? 122)) || (n =? 95).
Inductive token := Word (s : text) | Quoted (s : text) | Punct (c : ascii) | Arrow.
(** A word is as long as possible. *)
Definition stops (t : text) : Prop := match t with [] => True | c :: _ => id_char c = false end.
Inductive lexes : text -> list token -> Prop :=
| lex_end : lexes [] []
| lex_blank c t ts : blank c -> lexes t ts -> lexes (c :: t) ts
| lex_punct c t ts : In c ["{"; "}"; "["; "]"; "="; ","; ";"]%char -> lexes t ts -> lexes (c :: t) (Punct c :: ts)
| lex_arrow t ts : lexes t ts -> lexes ("-"%char :: ">"%char :: t) (Arrow :: ts)
| lex_quoted s t ts : ~ In "034"%char s -> lexes t ts -> lexes ("034"%char :: s ++ "034"%char :: t) (Quoted s :: ts)
| lex_word s t ts : s <> [] -> Forall (fun c => id_char c = true) s -> stops t -> lexes t ts -> lexes (s ++ t) (Word s :: ts).

(** * Statements *)
Inductive stmt :=
| Node (name : text) (attrs : list (text * text))          (* name [a=b, c=d] *)
| Edge (from to : text) (attrs : list (text * text))       (* from -> to [a=b] *)
| Assign (name v : text).                                  (* name = v *)
(** a value: a word or a quoted text *)
Inductive val_of : token -> text -> Prop :=
| val_word s : val_of (Word s) s
| val_quoted s : val_of (Quoted s) s.
(** a=b, c=d ] *)
Inductive attrs_of : list token -> list (text * text) -> list token -> Prop :=
| attrs_last a v t rest : val_of v t -> attrs_of (Word a :: Punct "=" :: v :: Punct "]" :: rest) [(a, t)] rest
| attrs_more a v t ts l rest : val_of v t -> attrs_of ts l rest ->
    attrs_of (Word a :: Punct "=" :: v :: Punct "," :: ts) ((a, t) :: l) rest.
Definition no_bracket (ts : list token) : Prop := hd_error ts <> Some (Punct "[").
(** The statements up to the closing brace. *)
Inductive stmts_of : list token -> list stmt -> Prop :=
| stmts_end : stmts_of [Punct "}"] []
| stmts_assign n v t ts l : val_of v t -> stmts_of ts l -> stmts_of (Word n :: Punct "=" :: v :: ts) (Assign n t :: l)
| stmts_node n ts a rest l : attrs_of ts a rest -> stmts_of rest l -> stmts_of (Word n :: Punct "[" :: ts) (Node n a :: l)
| stmts_edge m n ts a rest l : attrs_of ts a rest -> stmts_of rest l ->
    stmts_of (Word m :: Arrow :: Word n :: Punct "[" :: ts) (Edge m n a :: l)
| stmts_edge0 m n rest l : no_bracket rest -> stmts_of rest l -> stmts_of (Word m :: Arrow :: Word n :: rest) (Edge m n [] :: l).
(** digraph "name" { statements } *)
Definition dot_says (t : text) (l : list stmt) : Prop :=
  exists name ts, lexes t (Word (lit "digraph") :: Quoted name :: Punct "{" :: ts) /\ stmts_of ts l.

(** * The picture of an automaton *)
Definition bit_char (b : bool) : ascii := if b then "1" else "0".
(** the label mentions the bit *)
Definition mentions (l : text) (b : bool) : Prop := In (bit_char b) l.
Definition has (q : text) (k v : string) (l : list stmt) : Prop := exists a, In (Node q a) l /\ In (lit k, lit v) a.

Record pictures (l : list stmt) (g : Graph) : Prop := mkPictures {
  (* the circles are the states, each labelled with its number, double if and only if it is final;
     every other node is the default or the invisible start *)
  pic_state : forall q, q < size g -> exists a, In (Node (show_nat q) a) l /\ In (lit "label", show_nat q) a;
  pic_node : forall n a, In (Node n a) l -> n = lit "node" \/ n = lit "I" \/ exists q, q < size g /\ n = show_nat q;
  pic_final : forall q, q < size g -> (has (show_nat q) "peripheries" "2" l <-> is_final_state g q = Ok true);
  (* the arrows are the transitions *)
  pic_edge : forall p b q, p < size g ->
    (next_state g p b = Ok q <-> exists lbl, In (Edge (show_nat p) (show_nat q) [(lit "label", lbl)]) l /\ mentions lbl b);
  (* the arrow from nowhere leads to the initial state *)
  pic_initial : forall n a, In (Edge (lit "I") n a) l <-> n = show_nat (initial_state g) /\ a = [];
  pic_start : has (lit "I") "style" "invis" l;
  (* there is no other arrow, and each one is drawn once *)
  pic_other : forall m n a, In (Edge m n a) l -> m = lit "I" \/
    exists p q lbl, p < size g /\ q < size g /\ m = show_nat p /\ n = show_nat q /\ a = [(lit "label", lbl)] /\
      (mentions lbl false \/ mentions lbl true);
  pic_once : NoDup l }.
