(** Model of the specification converters of src/main.cpp.  Files are their contents; reading
    standard input or a file makes no difference (src/main.cpp:485-487, 499-503, 508-512, 517-521).
    Argument parsing is in MainModel.v. *)
From Coq Require Import List Arith Bool.
Import ListNotations.
From Verif Require Import Base GraphModel TextModel.

(** src/main.cpp:482-495  do_spec2spec *)
Definition do_spec2spec (spec : text) (opt_minimized opt_reversed opt_negated : bool) : res text :=
  do gr <- from_istream spec;
  do gr <- (if opt_negated then negated gr else Ok gr);
  do gr <- (if opt_reversed then reversed gr else Ok gr);
  do gr <- (if opt_minimized then minimized gr else Ok gr);
  dump gr.

(** src/main.cpp:506-513  do_att2spec *)
Definition do_att2spec (att : text) : res text := do gr <- from_att_istream att; dump gr.

(** src/main.cpp:515-522  do_spec2att *)
Definition do_spec2att (spec : text) : res text := do gr <- from_istream spec; dump_att gr.
