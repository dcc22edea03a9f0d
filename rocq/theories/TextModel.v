(** Model of the text formats of src/graph.cpp: from_istream, from_att_istream, dump, dump_att,
    dump_dot.  A text is the list of its bytes.  Simplifications: the stream is readable
    ([assert(is)] holds); std::regex is replaced by hand-written deterministic matchers for the
    three patterns used (TextFacts.v proves them equivalent to the declarative formats of
    TextSpec.v); the "C" locale; log lines are not modelled. *)
From Coq Require Import List Arith Bool NArith ZArith Ascii.
Import ListNotations.
From Verif Require Import Base GraphModel.

Notation text := (list ascii) (only parsing).

(** (auxiliary) characters of src/graph.cpp:112, 120, 133, 139, 210, 577-591, 615-623 *)
Definition c_nl : ascii := "010".
(** src/graph.cpp:210, 586-588, 618-619 *)
Definition c_tab : ascii := "009".
(** src/graph.cpp:120, 133 *)
Definition c_comma : ascii := ",".
(** src/graph.cpp:133, 585 *)
Definition c_star : ascii := "*".
(** src/graph.cpp:133, 581 *)
Definition c_gt : ascii := ">".
(** src/graph.cpp:112, 133 *)
Definition c_us : ascii := "_".

(** src/graph.cpp:133, 210.
    std::isdigit / the class \d of std::regex; std::isspace / the class \s ("C" locale) *)
Definition is_digit (c : ascii) : bool :=
  let n := N_of_ascii c in (48 <=? n)%N && (n <=? 57)%N.
(** src/graph.cpp:133  the class \s; also skipped by std::stoi *)
Definition is_space (c : ascii) : bool :=
  let n := N_of_ascii c in ((9 <=? n)%N && (n <=? 13)%N) || (n =? 32)%N.
(** src/graph.cpp:133.
    the class [\d,] *)
Definition is_digit_comma (c : ascii) : bool := is_digit c || Ascii.eqb c c_comma.

(** src/graph.cpp:120, 139, 213.
    std::getline(is, line) called until it fails: cut at every separator; a last piece that is
    not followed by a separator counts only if it is not empty. *)
Fixpoint getlines (sep : ascii) (cur : text) (s : text) : list text :=
  match s with
  | [] => match cur with [] => [] | _ => [cur] end
  | c :: s' => if Ascii.eqb c sep then cur :: getlines sep [] s' else getlines sep (cur ++ [c]) s'
  end.

(** src/graph.cpp:133, 210.
    Longest prefix whose characters satisfy [p]. *)
Fixpoint span (p : ascii -> bool) (s : text) : text * text :=
  match s with
  | [] => ([], [])
  | c :: s' => if p c then let '(a, b) := span p s' in (c :: a, b) else ([], s)
  end.

(** src/graph.cpp:133, 210.
    One or more characters of a class: p+ *)
Definition plus (p : ascii -> bool) (s : text) : option (text * text) :=
  match span p s with
  | ([], _) => None
  | r => Some r
  end.

(** src/graph.cpp:133.
    One optional character: (c)? *)
Definition optc (c : ascii) (s : text) : bool * text :=
  match s with
  | x :: s' => if Ascii.eqb x c then (true, s') else (false, s)
  | [] => (false, [])
  end.

(** src/graph.cpp:133.
    The alternative (_|[\d,]+) *)
Definition field (s : text) : option (text * text) :=
  match optc c_us s with
  | (true, s') => Some ([c_us], s')
  | (false, _) => plus is_digit_comma s
  end.

(** src/graph.cpp:133, 145-151.
    The match groups of a specification row. *)
Record row_match := mkRow {
  m_init : bool; m_num : text; m_final : bool; m_f0 : text; m_f1 : text }.

(** src/graph.cpp:133,140  std::regex_match(line, match, re) with
    re = ^(>)?(\d+)([*])?\s+(_|[\d,]+)\s+(_|[\d,]+)$  ([*] is written as an escaped star in the source) *)
Definition match_row (line : text) : option row_match :=
  let '(i, s1) := optc c_gt line in
  match plus is_digit s1 with
  | None => None
  | Some (num, s2) =>
      let '(f, s3) := optc c_star s2 in
      match plus is_space s3 with
      | None => None
      | Some (_, s4) =>
          match field s4 with
          | None => None
          | Some (f0, s5) =>
              match plus is_space s5 with
              | None => None
              | Some (_, s6) =>
                  match field s6 with
                  | Some (f1, []) => Some (mkRow i num f f0 f1)
                  | _ => None
                  end
              end
          end
      end
  end.

(** src/graph.cpp:121, 151, 215-216, 227  the values read by std::stoi
    std::stoi on a string of digits: std::invalid_argument on the empty string,
    std::out_of_range above INT_MAX.  The two callers treat invalid_argument differently, so it
    is a separate outcome. *)
Definition digit_val (c : ascii) : N := (N_of_ascii c - 48)%N.
(** src/graph.cpp:121, 151, 215-216, 227 *)
Definition digits_val (s : text) : N := fold_left (fun a c => 10 * a + digit_val c)%N s 0%N.
(** src/graph.cpp:121, 151, 215-216, 227  the largest int *)
Definition int_max : N := 2147483647%N.

(** src/graph.cpp:121, 151, 215-216, 227  value, std::invalid_argument or std::out_of_range *)
Inductive stoi_result := StoiOk (n : N) | StoiInvalid | StoiRange.
(** src/graph.cpp:121, 151, 215-216, 227 *)
Definition stoi (s : text) : stoi_result :=
  match s with
  | [] => StoiInvalid
  | _ => if (digits_val s <=? int_max)%N then StoiOk (digits_val s) else StoiRange
  end.

(** src/graph.cpp:110-129  load_comma_separated_states.  invalid_argument is caught and turned
    into error_die; out_of_range is not caught. *)
Definition load_states (s : text) : res (list State) :=
  if list_eq_dec ascii_dec s [c_us] then Ok []
  else mapM (fun f => match stoi f with
                      | StoiOk n => Ok (N.to_nat n)
                      | StoiInvalid => Fail FExit
                      | StoiRange => Fail FOutOfRange
                      end) (getlines c_comma [] s).

(** src/graph.cpp:131-135.
    The variables of the loop of from_istream. *)
Record parse_st := mkParse {
  p_init : list State; p_final : list State; p_delta : NFADelta; p_dfa : bool }.

(** src/graph.cpp:139-163  one line *)
Definition parse_line (s : parse_st) (line : text) : res parse_st :=
  match match_row line with
  | None => Ok s                                                   (* skipped *)
  | Some m =>
      let q := length (p_delta s) in
      do q0s <- load_states (m_f0 m);
      do q1s <- load_states (m_f1 m);
      match stoi (m_num m) with
      | StoiInvalid => Fail FUndefined     (* cannot happen: \d+ is not empty *)
      | StoiRange => Fail FOutOfRange
      | StoiOk n =>
          if (N.of_nat q =? n)%N then
            Ok (mkParse (if m_init m then sinsert q (p_init s) else p_init s)
                        (if m_final m then sinsert q (p_final s) else p_final s)
                        (p_delta s ++ [(q, q0s, q1s)])
                        (if (length q0s =? 1) && (length q1s =? 1) then p_dfa s else false))
          else Fail FExit
      end
  end.

(** src/graph.cpp:107-194  Graph::from_istream *)
Definition from_istream (t : text) : res Graph :=
  do s <- foldM parse_line (getlines c_nl [] t) (mkParse [] [] [] true);
  let init_sts := match p_init s with [] => [0] | l => l end in
  let is_dfa := if length init_sts =? 1 then p_dfa s else false in
  if is_dfa then
    do new_delta <- mapM (fun '(q, q0s, q1s) =>
                            assert_ ((length q0s =? 1) && (length q1s =? 1))
                              (do a <- at_ q0s 0; do b <- at_ q1s 0; Ok (q, a, b)))
                         (p_delta s);
    match init_sts with
    | [] => Fail FUndefined
    | i :: _ => graph_new i (p_final s) new_delta
    end
  else from_nfa init_sts (p_final s) (p_delta s).

(** src/graph.cpp:210  ^([0-9]+)\t([0-9]+)\t(0|1)$ *)
Definition c_0 : ascii := "0".
(** src/graph.cpp:210 *)
Definition c_1 : ascii := "1".
(** src/graph.cpp:210  ^([0-9]+)\t([0-9]+)\t(0|1)$ *)
Definition match_att_edge (line : text) : option (text * text * bool) :=
  match plus is_digit line with
  | None => None
  | Some (a, s1) =>
      match optc c_tab s1 with
      | (false, _) => None
      | (true, s2) =>
          match plus is_digit s2 with
          | None => None
          | Some (b, s3) =>
              match optc c_tab s3 with
              | (false, _) => None
              | (true, s4) =>
                  match s4 with
                  | [c] => if Ascii.eqb c c_0 then Some (a, b, false)
                           else if Ascii.eqb c c_1 then Some (a, b, true) else None
                  | _ => None
                  end
              end
          end
      end
  end.

(** src/graph.cpp:210  ^([0-9]+)$ *)
Definition match_att_final (line : text) : option text :=
  match plus is_digit line with
  | Some (a, []) => Some a
  | _ => None
  end.

(** src/graph.cpp:215-216, 227.
    stoi outside of any try block: invalid_argument would not be caught (and cannot happen on
    [0-9]+). *)
Definition stoi_plain (s : text) : res State :=
  match stoi s with
  | StoiOk n => Ok (N.to_nat n)
  | StoiInvalid => Fail FUndefined
  | StoiRange => Fail FOutOfRange
  end.

(** src/graph.cpp:217-218  while (delta.size() <= from) delta.push_back({delta.size(), {}, {}}) *)
Definition att_grow (delta : NFADelta) (from : State) : NFADelta :=
  delta ++ map (fun q => (q, [], [])) (seq (length delta) (S from - length delta)).

(** src/graph.cpp:213-232  one line *)
Definition att_line (s : list State * NFADelta) (line : text) : res (list State * NFADelta) :=
  let '(finals, delta) := s in
  match match_att_edge line with
  | Some (a, b, ch) =>
      do from <- stoi_plain a;
      do to <- stoi_plain b;
      let delta1 := att_grow delta from in
      do '(q, d0, d1) <- at_ delta1 from;
      do delta2 <- set_at delta1 from (if ch : bool then (q, d0, d1 ++ [to]) else (q, d0 ++ [to], d1));
      Ok (finals, delta2)
  | None =>
      match match_att_final line with
      | Some a => do st <- stoi_plain a; Ok (sinsert st finals, delta)
      | None => Fail FExit
      end
  end.

(** src/graph.cpp:203-236  Graph::from_att_istream *)
Definition from_att_istream (t : text) : res Graph :=
  do '(finals, delta) <- foldM att_line (getlines c_nl [] t) ([], []);
  from_nfa [0] finals delta.

(** src/graph.cpp:577-591, 615-623.
    os << int: decimal digits, most significant first *)
Fixpoint uint_text (u : Decimal.uint) : text :=
  match u with
  | Decimal.Nil => []
  | Decimal.D0 u => "0"%char :: uint_text u
  | Decimal.D1 u => "1"%char :: uint_text u
  | Decimal.D2 u => "2"%char :: uint_text u
  | Decimal.D3 u => "3"%char :: uint_text u
  | Decimal.D4 u => "4"%char :: uint_text u
  | Decimal.D5 u => "5"%char :: uint_text u
  | Decimal.D6 u => "6"%char :: uint_text u
  | Decimal.D7 u => "7"%char :: uint_text u
  | Decimal.D8 u => "8"%char :: uint_text u
  | Decimal.D9 u => "9"%char :: uint_text u
  end.
(** src/graph.cpp:577-591, 615-623  os << n *)
Definition show_nat (n : nat) : text := uint_text (N.to_uint (N.of_nat n)).

(** src/graph.cpp:577-591  Graph::dump *)
Definition dump_row (g : Graph) (q : State) : res text :=
  do f <- is_final_state g q;
  do a <- next_state g q false;
  do b <- next_state g q true;
  Ok ((if initial_state g =? q then [c_gt] else []) ++ show_nat q ++
      (if f : bool then [c_star] else []) ++ [c_tab] ++ show_nat a ++ [c_tab] ++ show_nat b ++ [c_nl]).
(** src/graph.cpp:577-591 *)
Definition dump (g : Graph) : res text :=
  do rows <- mapM (dump_row g) (all_states g); Ok (concat rows).

(** src/graph.cpp:615-623  Graph::dump_att *)
Definition dump_att_row (g : Graph) (q : State) : res text :=
  do a <- next_state g q false;
  do b <- next_state g q true;
  do f <- is_final_state g q;
  Ok (show_nat q ++ [c_tab] ++ show_nat a ++ [c_tab; c_0; c_nl] ++
      show_nat q ++ [c_tab] ++ show_nat b ++ [c_tab; c_1; c_nl] ++
      (if f : bool then show_nat q ++ [c_nl] else [])).
(** src/graph.cpp:615-623 *)
Definition dump_att (g : Graph) : res text :=
  do rows <- mapM (dump_att_row g) (all_states g); Ok (concat rows).
