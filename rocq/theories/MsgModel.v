(** What reading a specification writes to the standard error, src/graph.cpp:107-244 with src/error.hpp:55-78.

    The readers are those of TextModel, written once more with what they log: a computation is paired with its messages.
    That the results are the same is C78_same.  A message is its level and its text; the time stamp and the name in
    front of it (src/error.hpp:18-20) are not modelled.  The backtrace that error_die prints is the parameter [trace].
    std::exit, the assert and an uncaught exception are the faults of Base; what the C++ runtime prints about the last
    two is not modelled. *)
From Coq Require Import String.
From Coq Require Import List Arith Bool NArith Ascii.
Import ListNotations.
From Verif Require Import Base GraphModel TextModel DotModel CmdModel.
Local Open Scope list_scope.

(** src/graph.cpp:141 and src/error.hpp:61-78  the two levels in use here: spdlog::info and spdlog::error *)
Inductive level := LInfo | LError.
(** (auxiliary) a message, src/error.hpp:20 *)
Definition note : Type := (level * text)%type.
(** (auxiliary) a computation with its messages, src/error.hpp:18 (the sink is the standard error) *)
Definition said (A : Type) : Type := (list note * res A)%type.
(** (auxiliary) ; of C++: what follows an exit or an exception is not executed, src/graph.cpp:107-244 *)
Definition after {A B} (m : said A) (k : A -> said B) : said B :=
  match m with
  | (l, Fail e) => (l, Fail e)
  | (l, Ok a) => let (l', r) := k a in (l ++ l', r)
  end.
(** (auxiliary) a computation without messages, src/graph.cpp:107-244 *)
Definition mute {A} (r : res A) : said A := ([], r).
(** (auxiliary) a loop, src/graph.cpp:120, 139, 213 *)
Fixpoint loop {A S} (f : S -> A -> said S) (l : list A) (s : S) : said S :=
  match l with
  | [] => mute (Ok s)
  | a :: l' => after (f s a) (fun s' => loop f l' s')
  end.

Section Trace.
Context (trace : text).
(** src/error.hpp:61-78  error_die: the message, the announcement of the backtrace and the backtrace *)
Definition die_notes (m : text) : list note := [(LError, m); (LError, lit "Preparing backtrace..."); (LError, trace)].
(** src/error.hpp:61-78 *)
Definition error_die {A} (m : text) : said A := (die_notes m, Fail FExit).

(** src/graph.cpp:119-128  one round of the loop with its handler; what() of the exception of stoi is "stoi" *)
Definition load_state (ret : list State) (field : text) : said (list State) :=
  match stoi field with
  | StoiOk n => mute (Ok (ret ++ [N.to_nat n]))
  | StoiInvalid => error_die (lit "Expected number as comma separted state, but got " ++ field ++ lit " (" ++ lit "stoi" ++ lit ")")
  | StoiRange => mute (Fail FOutOfRange)
  end.
(** src/graph.cpp:110-129  load_comma_separated_states *)
Definition load_states_said (s : text) : said (list State) :=
  if list_eq_dec ascii_dec s [c_us] then mute (Ok []) else loop load_state (getlines c_comma [] s) [].

(** src/graph.cpp:139-163  one line *)
Definition parse_line_said (s : parse_st) (line : text) : said parse_st :=
  match match_row line with
  | None => ([(LInfo, lit "Skip line """ ++ line ++ lit """")], Ok s)
  | Some m =>
      let q := length (p_delta s) in
      after (load_states_said (m_f0 m)) (fun q0s =>
      after (load_states_said (m_f1 m)) (fun q1s =>
      match stoi (m_num m) with
      | StoiInvalid => mute (Fail FUndefined)     (* cannot happen: \d+ is not empty *)
      | StoiRange => mute (Fail FOutOfRange)
      | StoiOk n =>
          if (N.of_nat q =? n)%N then
            mute (Ok (mkParse (if m_init m then sinsert q (p_init s) else p_init s)
                              (if m_final m then sinsert q (p_final s) else p_final s)
                              (p_delta s ++ [(q, q0s, q1s)])
                              (if (length q0s =? 1) && (length q1s =? 1) then p_dfa s else false)))
          else error_die (lit "Invalid state number: " ++ show_nat (N.to_nat n) ++ lit " != " ++ show_nat q)
      end))
  end.

(** src/graph.cpp:164-193  what from_istream does after its loop; nothing is logged *)
Definition after_lines (s : parse_st) : res Graph :=
  let init_sts := match p_init s with [] => [0] | l => l end in
  let is_dfa := if length init_sts =? 1 then p_dfa s else false in
  if is_dfa then
    do new_delta <- mapM (fun '(q, q0s, q1s) =>
                            assert_ ((length q0s =? 1) && (length q1s =? 1))
                              (do a <- at_ q0s 0; do b <- at_ q1s 0; Ok (q, a, b)))
                         (p_delta s);
    match init_sts with
    | [] => Fail FUndefined
    | i :: _ => graph_new i (p_final s) new_delta
    end
  else from_nfa init_sts (p_final s) (p_delta s).
(** src/graph.cpp:107-194  Graph::from_istream *)
Definition from_istream_said (t : text) : said Graph :=
  after (loop parse_line_said (getlines c_nl [] t) (mkParse [] [] [] true)) (fun s => mute (after_lines s)).
(** src/graph.cpp:196-201  Graph::from_file *)
Definition from_file_said (f : fs) (p : text) : said Graph :=
  match f p with Some b => from_istream_said (map ascii_of_N b) | None => mute (Fail FAssert) end.

(** src/graph.cpp:213-232  one line; "Invalid letter" cannot happen, the pattern admits only 0 and 1 *)
Definition att_line_said (s : list State * NFADelta) (line : text) : said (list State * NFADelta) :=
  let '(finals, delta) := s in
  match match_att_edge line with
  | Some (a, b, ch) => mute (
      do from <- stoi_plain a;
      do to <- stoi_plain b;
      let delta1 := att_grow delta from in
      do '(q, d0, d1) <- at_ delta1 from;
      do delta2 <- set_at delta1 from (if ch : bool then (q, d0, d1 ++ [to]) else (q, d0 ++ [to], d1));
      Ok (finals, delta2))
  | None =>
      match match_att_final line with
      | Some a => mute (do st <- stoi_plain a; Ok (sinsert st finals, delta))
      | None => error_die (lit "Invalid line: " ++ line)
      end
  end.
(** src/graph.cpp:203-236  Graph::from_att_istream *)
Definition from_att_istream_said (t : text) : said Graph :=
  after (loop att_line_said (getlines c_nl [] t) ([], [])) (fun '(finals, delta) => mute (from_nfa [0] finals delta)).
(** src/graph.cpp:238-244  Graph::from_att_file *)
Definition from_att_file_said (f : fs) (p : text) : said Graph :=
  match f p with Some b => from_att_istream_said (map ascii_of_N b) | None => error_die (lit "Invalid filename: " ++ p) end.
End Trace.

(** src/main.cpp:651-660, src/error.hpp:16  what is shown: with --quiet only the errors *)
Definition shown (quiet : bool) (l : list note) : list note :=
  filter (fun n => match fst n with LError => true | LInfo => negb quiet end) l.
