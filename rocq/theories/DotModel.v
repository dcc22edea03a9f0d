(** Model of Graph::dump_dot and of spec2dot. *)
From Coq Require Import String.
From Coq Require Import List Arith Bool Ascii.
Import ListNotations.
From Verif Require Import Base GraphModel TextModel.
Local Open Scope list_scope.

(** (auxiliary) a string literal, e.g. src/graph.cpp:595; the double quote and the newline are written
    separately *)
Definition lit (s : string) : text := list_ascii_of_string s.
(** src/graph.cpp:595  the double quote character *)
Definition c_quote : ascii := "034".

(** src/graph.cpp:600-611  the text of one state *)
Definition dot_row (g : Graph) (q : State) : res text :=
  do q0 <- next_state g q false;
  do q1 <- next_state g q true;
  do f <- is_final_state g q;
  let edge to (label : string) := lit "  " ++ show_nat q ++ lit " -> " ++ show_nat to ++ lit " [label=" ++ [c_quote] ++ lit label ++ [c_quote] ++ lit "]" ++ [c_nl] in
  Ok (lit "  " ++ show_nat q ++ lit " [label=" ++ [c_quote] ++ show_nat q ++ [c_quote] ++
      (if f : bool then lit ", peripheries=2" else []) ++ lit "]" ++
      (if q0 =? q1 then edge q0 "0,1"%string else edge q0 "0"%string ++ edge q1 "1"%string)).

(** src/graph.cpp:593-613  Graph::dump_dot *)
Definition dump_dot (g : Graph) : res text :=
  do rows <- mapM (dot_row g) (all_states g);
  Ok (lit "digraph " ++ [c_quote] ++ lit "graph" ++ [c_quote] ++ lit " {" ++ [c_nl] ++
      lit "rankdir=" ++ [c_quote] ++ lit "LR" ++ [c_quote] ++
      lit "  node[shape=" ++ [c_quote] ++ lit "circle" ++ [c_quote] ++ lit "]" ++ [c_nl] ++
      lit "  I [label=" ++ [c_quote; c_quote] ++ lit ", style=invis, width=0]" ++ [c_nl] ++
      lit "  I -> " ++ show_nat (initial_state g) ++ [c_nl] ++
      concat rows ++ lit "}" ++ [c_nl]).

(** src/main.cpp:497-504  do_spec2dot *)
Definition do_spec2dot (spec : text) : res text := do gr <- from_istream spec; dump_dot gr.
