(** What test0 expects of Spot: the automata that ltl2spec prints for four formulas. *)
From Coq Require Import String.
From Coq Require Import List Arith Ascii.
Import ListNotations.
From Verif Require Import Base GraphModel TextModel CliModel DotModel LtlModel.
Local Open Scope list_scope.

(** The formula, the number of propositions, and the specification, one state per line. *)
Definition expectations : list (string * nat * string) :=
  [("!F(p0 & Xp1)", 2, ">0*	1	2
1	0	0
2	3	3
3*	4	5
4	0	6
5	3	6
6	6	6
"); ("G(p0 -> p1 W p2)", 3, ">0*	1	2
1	3	3
2	4	5
3	0	0
4	6	0
5	7	0
6	6	6
7*	8	8
8	9	10
9	6	0
10	7	0
"); ("G(p3 | p4 | (p0 & p1 & p2))", 5, ">0*	1	2
1	3	3
2	4	5
3	6	6
4	6	6
5	6	7
6	8	9
7	10	10
8	11	0
9	0	0
10	0	0
11	11	11
"); ("G(p3 & p4)", 5, ">0*	1	1
1	2	2
2	3	3
3	4	5
4	4	4
5	4	0
")]%string.
(** ltl2spec prints what is expected. *)
Definition spot_as_expected (spot : spot_lib) : Prop :=
  forall fml n t, In (fml, n, t) expectations -> parses spot (lit fml) = true /\ do_ltl2spec (spot (lit fml) n) n false = Ok (lit t).
