(** Model of the command line of src/main.cpp: which options each subcommand registers, what they
    store, and which function main calls.

    CLI11 itself is not in the repository (empty submodule).  The model covers command lines of the
    form [general flags] subcommand [subcommand] (--option value | --flag | positional)*, which
    CLI11 handles as follows: an unknown option, an option given twice, a missing required option or a
    failed check ends the program; otherwise the values are stored.  Other spellings
    (--option=value, a repeated flag, several subcommands in one command line, a positional that is the
    name of a subcommand, -- and config files, numbers that are not in plain decimal) give FUndefined,
    which here means: not modelled (for --option=value see JoinedModel.v).  --help and -h, after which CLI11 prints a help text and ends the
    program, count as unknown options. *)
From Coq Require Import String.
From Coq Require Import List Arith Bool NArith Ascii.
Import ListNotations.
From Verif Require Import Base GraphModel TextModel CliModel DotModel BitsModel TorusModel RunnerModel ParModel StreamModel
  ClientModel CmdModel LtlModel.
Local Open Scope list_scope.

(** src/main.cpp:26-52 *)
Inductive TYPE :=
| UNSPECIFIED | GENKEY | GENBKEY | ENC | DEC
| RUN_OFFLINE | RUN_REVERSE | RUN_BLOCK | RUN_FLUT | RUN_PLAIN
| BENCH_OFFLINE | BENCH_REVERSE | BENCH_BLOCK | BENCH_FLUT | BENCH_PLAIN
| LTL2SPEC | SPEC2SPEC | SPEC2DOT | ATT2SPEC | SPEC2ATT.
(** src/main.cpp:58-60: the bool members of Args *)
Inductive flag_field := Fminimized | Freversed | Fnegated | Fmake_all_live_states_final | Fis_spec_reversed | Fsanitize_result.
(** src/main.cpp:61-62: the optional strings of Args *)
Inductive text_field := Fspec | Fskey | Fbkey | Finput | Foutput | Foutput_dir | Fdebug_skey | Fformula | Fonline_method.
(** src/main.cpp:63-64: the optional numbers of Args *)
Inductive num_field := Fnum_vars | Fqueue_size | Fbootstrapping_freq | Fmax_second_lut_depth | Fnum_ap | Foutput_freq.
(** src/main.cpp:54-65 (verbosity only affects the log) *)
Record Args := mkArgs {
  a_type : TYPE;
  a_flag : flag_field -> bool;
  a_text : text_field -> option text;
  a_num : num_field -> option nat }.
(** (auxiliary) assignment to a member, src/main.cpp:54-65 *)
Definition flag_eq_dec (a b : flag_field) : {a = b} + {a <> b}. Proof. decide equality. Defined.
(** (auxiliary) src/main.cpp:54-65 *)
Definition text_eq_dec (a b : text_field) : {a = b} + {a <> b}. Proof. decide equality. Defined.
(** (auxiliary) src/main.cpp:54-65 *)
Definition num_eq_dec (a b : num_field) : {a = b} + {a <> b}. Proof. decide equality. Defined.
(** src/main.cpp:58-65: the default values *)
Definition args0 (t : TYPE) : Args := mkArgs t (fun _ => false) (fun _ => None) (fun _ => None).

(** What add_option and add_flag are given, e.g. src/main.cpp:94-101 *)
Inductive target := ToFlag (x : flag_field) | ToText (x : text_field) | ToNum (x : num_field).
(** CLI::ExistingFile, CLI::PositiveNumber or no check, e.g. src/main.cpp:96-100 *)
Inductive check := NoCheck | ExistingFile | PositiveNumber.
(** src/main.cpp:75-212, 611-647.  A name that does not begin with "-" is a positional argument. *)
Record opt := mkOpt { o_name : string; o_target : target; o_required : bool; o_check : check }.
(** src/main.cpp:75-212, 611-647: a subcommand: its names, the type it sets, its options *)
Record sub := mkSub { s_names : list string; s_type : TYPE; s_opts : list opt }.

(** src/main.cpp:75-80 *)
Definition genkey : sub := mkSub ["genkey"%string] GENKEY [mkOpt "--out" (ToText Foutput) true NoCheck].
(** src/main.cpp:82-91 *)
Definition genbkey : sub := mkSub ["genbkey"%string] GENBKEY
  [mkOpt "--key" (ToText Fskey) true ExistingFile; mkOpt "--out" (ToText Foutput) true NoCheck].
(** src/main.cpp:93-103 *)
Definition enc : sub := mkSub ["enc"%string] ENC
  [mkOpt "--ap" (ToNum Fnum_ap) true PositiveNumber; mkOpt "--key" (ToText Fskey) true ExistingFile;
   mkOpt "--in" (ToText Finput) true ExistingFile; mkOpt "--out" (ToText Foutput) true NoCheck].
(** src/main.cpp:105-111 *)
Definition dec : sub := mkSub ["dec"%string] DEC
  [mkOpt "--key" (ToText Fskey) true ExistingFile; mkOpt "--in" (ToText Finput) true ExistingFile].

(** src/main.cpp:113-131  add_run_common_options *)
Definition run_common_options (benchmark : bool) : list opt :=
  (if benchmark then [mkOpt "--ap" (ToNum Fnum_ap) true PositiveNumber]
   else [mkOpt "--bkey" (ToText Fbkey) true ExistingFile; mkOpt "--out" (ToText Foutput) true NoCheck]) ++
  [mkOpt "--spec" (ToText Fspec) true ExistingFile; mkOpt "--in" (ToText Finput) true ExistingFile;
   mkOpt "--debug-secret-key" (ToText Fdebug_skey) false ExistingFile].
(** src/main.cpp:133-143 *)
Definition offline (benchmark : bool) : sub := mkSub ["offline"%string] (if benchmark then BENCH_OFFLINE else RUN_OFFLINE)
  (run_common_options benchmark ++ [mkOpt "--bootstrapping-freq" (ToNum Fbootstrapping_freq) true PositiveNumber]).
(** src/main.cpp:145-160 *)
Definition reverse (benchmark : bool) : sub := mkSub ["reverse"%string; "reversed"%string] (if benchmark then BENCH_REVERSE else RUN_REVERSE)
  (run_common_options benchmark ++
   [mkOpt "--out-freq" (ToNum Foutput_freq) true PositiveNumber;
    mkOpt "--bootstrapping-freq" (ToNum Fbootstrapping_freq) true PositiveNumber;
    mkOpt "--spec-reversed" (ToFlag Fis_spec_reversed) false NoCheck]).
(** src/main.cpp:162-177 *)
Definition block (benchmark : bool) : sub :=
  mkSub ["block"%string; "bbs"%string; "block-backstream"%string] (if benchmark then BENCH_BLOCK else RUN_BLOCK)
  (run_common_options benchmark ++
   [mkOpt "--out-freq" (ToNum Foutput_freq) true PositiveNumber; mkOpt "--queue-size" (ToNum Fqueue_size) true PositiveNumber]).
(** src/main.cpp:179-199 *)
Definition flut (benchmark : bool) : sub := mkSub ["flut"%string; "qtrlwe2"%string] (if benchmark then BENCH_FLUT else RUN_FLUT)
  (run_common_options benchmark ++
   [mkOpt "--out-freq" (ToNum Foutput_freq) true PositiveNumber; mkOpt "--queue-size" (ToNum Fqueue_size) true PositiveNumber;
    mkOpt "--max-second-lut-depth" (ToNum Fmax_second_lut_depth) true PositiveNumber;
    mkOpt "--bootstrapping-freq" (ToNum Fbootstrapping_freq) true PositiveNumber]).
(** src/main.cpp:201-212 *)
Definition plain (benchmark : bool) : sub := mkSub ["plain"%string] (if benchmark then BENCH_PLAIN else RUN_PLAIN)
  [mkOpt "--ap" (ToNum Fnum_ap) true PositiveNumber; mkOpt "--spec" (ToText Fspec) true ExistingFile;
   mkOpt "--in" (ToText Finput) true ExistingFile].
(** src/main.cpp:611-619 *)
Definition ltl2spec : sub := mkSub ["ltl2spec"%string] LTL2SPEC
  [mkOpt "--make-all-live-states-final" (ToFlag Fmake_all_live_states_final) false NoCheck;
   mkOpt "formula" (ToText Fformula) true NoCheck; mkOpt "#vars" (ToNum Fnum_vars) true NoCheck].
(** src/main.cpp:620-629 *)
Definition spec2spec : sub := mkSub ["spec2spec"%string] SPEC2SPEC
  [mkOpt "--minimized" (ToFlag Fminimized) false NoCheck; mkOpt "--reversed" (ToFlag Freversed) false NoCheck;
   mkOpt "--negated" (ToFlag Fnegated) false NoCheck; mkOpt "SPEC-FILE" (ToText Fspec) false NoCheck].
(** src/main.cpp:630-635 *)
Definition spec2dot : sub := mkSub ["spec2dot"%string] SPEC2DOT [mkOpt "SPEC-FILE" (ToText Fspec) false NoCheck].
(** src/main.cpp:636-641 *)
Definition spec2att : sub := mkSub ["spec2att"%string] SPEC2ATT [mkOpt "SPEC-FILE" (ToText Fspec) false NoCheck].
(** src/main.cpp:642-647 *)
Definition att2spec : sub := mkSub ["att2spec"%string] ATT2SPEC [mkOpt "ATT-SPEC-FILE" (ToText Fspec) false NoCheck].

(** src/main.cpp:599-647: the subcommands of the program and of "run" *)
Definition subs : list sub := [genkey; genbkey; enc; dec; ltl2spec; spec2spec; spec2dot; spec2att; att2spec].
(** src/main.cpp:603-610 *)
Definition run_subs : list sub := [offline false; reverse false; block false; flut false; plain false].

(** * CLI11 *)
(** (auxiliary) comparison with a name, src/main.cpp:649 *)
Definition is_name (t : text) (s : string) : bool := path_eqb t (lit s).
(** (auxiliary) does the word begin with "-" (but is not "-"), src/main.cpp:649 *)
Definition dashed (t : text) : bool := match t with c :: _ :: _ => Ascii.eqb c "-" | _ => false end.
(** (auxiliary) spellings that are not modelled: an option with its value in one word, and words whose
    dashes are not followed by the first letter of a name, src/main.cpp:649 *)
Definition letter (c : ascii) : bool := negb (Ascii.eqb c "-") && (33 <? nat_of_ascii c).
(** (auxiliary) src/main.cpp:649 *)
Definition odd_word (t : text) : bool :=
  existsb (fun c => Ascii.eqb c "=") t ||
  match t with
  | _ :: b :: rest => if Ascii.eqb b "-" then match rest with c :: _ => negb (letter c) | [] => true end else negb (letter b)
  | _ => false
  end.
(** (auxiliary) src/main.cpp:649 *)
Definition find_sub (l : list sub) (t : text) : option sub := find (fun s => existsb (is_name t) (s_names s)) l.
(** (auxiliary) src/main.cpp:649 *)
Definition is_sub_name (t : text) : bool :=
  is_name t "run" || match find_sub (subs ++ run_subs) t with Some _ => true | None => false end.
(** (auxiliary) a positional argument among the options, src/main.cpp:617-618 *)
Definition positional (o : opt) : bool := negb (dashed (lit (o_name o))).

(** The words after the subcommand: options with their values, and positional arguments
    (src/main.cpp:649, CLI11_PARSE). *)
Fixpoint collect (opts : list opt) (argv : list text) : res (list (text * text) * list text) :=
  match argv with
  | [] => Ok ([], [])
  | a :: rest =>
      if dashed a then
        if odd_word a then Fail FUndefined
        else match find (fun o => is_name a (o_name o)) opts with
             | None => Fail FExit
             | Some o =>
                 match o_target o with
                 | ToFlag _ => do '(given, pos) <- collect opts rest; Ok ((a, []) :: given, pos)
                 | _ => match rest with
                        | [] => Fail FExit
                        | v :: rest' => do '(given, pos) <- collect opts rest'; Ok ((a, v) :: given, pos)
                        end
                 end
             end
      else if is_sub_name a then Fail FUndefined
      else do '(given, pos) <- collect opts rest; Ok (given, a :: pos)
  end.

(** (auxiliary) decimal numbers, src/main.cpp:649 *)
Definition read_num (t : text) : option N :=
  match t with
  | [] => None
  | c :: rest =>
      if forallb is_digit t && (negb (Ascii.eqb c "0") || match rest with [] => true | _ => false end) then
        let n := digits_val t in if (n <? 2 ^ 64)%N then Some n else None
      else None
  end.

(** (auxiliary) spellings of numbers that are not modelled (hexadecimal, octal, signs, blanks,
    fractions, overflow; "true", which some releases of CLI11 read as 1), src/main.cpp:649 *)
Definition odd_number (t : text) : bool := existsb is_digit t || is_name t "true".
(** (auxiliary) the value given for an option, src/main.cpp:649; the positional arguments are
    distributed in the order of registration *)
Fixpoint distribute (opts : list opt) (pos : list text) : res (list (text * text)) :=
  match opts with
  | [] => match pos with [] => Ok [] | _ => Fail FExit end
  | o :: opts' =>
      if positional o then
        match pos with
        | [] => Ok []
        | p :: pos' => do r <- distribute opts' pos'; Ok ((lit (o_name o), p) :: r)
        end
      else distribute opts' pos
  end.
(** (auxiliary) src/main.cpp:649 *)
Definition values_of (given : list (text * text)) (name : string) : list text :=
  map snd (filter (fun '(n, _) => is_name n name) given).

(** (auxiliary) one option: how often it was given, its check, the assignment, src/main.cpp:649 *)
Definition store (f : fs) (given : list (text * text)) (A : Args) (o : opt) : res Args :=
  match values_of given (o_name o) with
  | [] => if o_required o then Fail FExit else Ok A
  | [v] =>
      match o_target o with
      | ToFlag x => Ok (mkArgs (a_type A) (fun y => if flag_eq_dec y x then true else a_flag A y) (a_text A) (a_num A))
      | ToText x =>
          match o_check o, f v with
          | ExistingFile, None => Fail FExit
          | _, _ => Ok (mkArgs (a_type A) (a_flag A) (fun y => if text_eq_dec y x then Some v else a_text A y) (a_num A))
          end
      | ToNum x =>
          match read_num v with
          | None => if odd_number v then Fail FUndefined else Fail FExit
          | Some n =>
              match o_check o, n with
              | PositiveNumber, 0%N => Fail FExit
              | _, _ => Ok (mkArgs (a_type A) (a_flag A) (a_text A) (fun y => if num_eq_dec y x then Some (N.to_nat n) else a_num A y))
              end
          end
      end
  | _ => match o_target o with ToFlag _ => Fail FUndefined | _ => Fail FExit end
  end.

(** (auxiliary) a subcommand and the words after it, src/main.cpp:649 *)
Definition parse_sub (f : fs) (s : sub) (argv : list text) : res Args :=
  do '(given, pos) <- collect (s_opts s) argv;
  do more <- distribute (s_opts s) pos;
  foldM (fun A o => store f (given ++ more) A o) (s_opts s) (args0 (s_type s)).
(** src/main.cpp:594-649, 67-73: the general flags, the subcommand, and under "run" the algorithm.
    Neither is required by CLI11. *)
Fixpoint parse_from (seen : list text) (f : fs) (argv : list text) : res Args :=
  match argv with
  | [] => Ok (args0 UNSPECIFIED)
  | a :: rest =>
      if is_name a "--verbose" || is_name a "--quiet" then
        if existsb (path_eqb a) seen then Fail FUndefined else parse_from (a :: seen) f rest
      else if is_name a "run" then
        match rest with
        | [] => Ok (args0 UNSPECIFIED)
        | b :: rest' => match find_sub run_subs b with Some s => parse_sub f s rest' | None => if is_sub_name b then Fail FUndefined else Fail FExit end
        end
      else match find_sub subs a with Some s => parse_sub f s rest | None => if dashed a && odd_word a then Fail FUndefined else Fail FExit end
  end.
(** src/main.cpp:649 *)
Definition parse (f : fs) (argv : list text) : res Args := parse_from [] f argv.

(** * main *)
(** What a command does: it writes files, prints a text, or runs on a ciphertext stream,
    src/main.cpp:663-752. *)
Inductive action := Writes (f : fs) | Prints (t : text) | Runs (c : command).

(** (auxiliary) std::optional::value, src/main.cpp:664-731 *)
Definition value {A} (o : option A) : res A := match o with Some a => Ok a | None => Fail FBadOptional end.
(** src/main.cpp:485-487, 499-503, 508-512, 517-521: standard input or a file.  Without that file, from_file ends with its assert
    (src/graph.cpp:199) and from_att_file with error_die (src/graph.cpp:241-242): [missing]. *)
Definition source (missing : fault) (f : fs) (stdin : text) (name : option text) : res text :=
  let name := match name with Some n => n | None => lit "-" end in
  if is_name name "-" then Ok stdin else match f name with Some b => Ok (map ascii_of_N b) | None => Fail missing end.

Section Main.
Context (T : tfhe) (Y : crypto T).
(** [spot formula n]: the monitor for a formula with n propositions, src/graph.cpp:625-638 *)
Context (spot : spot_lib).

(** src/main.cpp:688-690, 698-700, 707-709 *)
Definition one_output (A : Args) : bool :=
  match a_text A Foutput, a_text A Foutput_dir with Some _, None | None, Some _ => true | _, _ => false end.

(** src/main.cpp:663-752  the switch of main; [coin] stands for the random choices of enc *)
Definition dispatch (f : fs) (stdin : text) (coin : nat) (A : Args) : res action :=
  match a_type A with
  | GENKEY => do o <- value (a_text A Foutput); do f' <- do_genkey T Y f o; Ok (Writes f')
  | GENBKEY => do k <- value (a_text A Fskey); do o <- value (a_text A Foutput); do f' <- do_genbkey T Y f k o; Ok (Writes f')
  | ENC => do k <- value (a_text A Fskey); do i <- value (a_text A Finput); do o <- value (a_text A Foutput);
           do n <- value (a_num A Fnum_ap); do f' <- do_enc T Y f k i o n coin; Ok (Writes f')
  | DEC => do k <- value (a_text A Fskey); do i <- value (a_text A Finput); do t <- do_dec T Y f k i; Ok (Prints t)
  | RUN_OFFLINE => do s <- value (a_text A Fspec); do i <- value (a_text A Finput); do o <- value (a_text A Foutput);
           do n <- value (a_num A Fbootstrapping_freq); do b <- value (a_text A Fbkey);
           do c <- do_run_offline T Y f s i o n b (a_flag A Fsanitize_result); Ok (Runs c)
  | RUN_REVERSE => if negb (one_output A) then Fail FExit else
           do s <- value (a_text A Fspec); do i <- value (a_text A Finput);
           do n <- value (a_num A Foutput_freq); do m <- value (a_num A Fbootstrapping_freq); do b <- value (a_text A Fbkey);
           do c <- do_run_reverse T Y f s i (a_text A Foutput) (a_text A Foutput_dir) n m (a_flag A Fis_spec_reversed) b (a_flag A Fsanitize_result);
           Ok (Runs c)
  | RUN_BLOCK => if negb (one_output A) then Fail FExit else
           do s <- value (a_text A Fspec); do i <- value (a_text A Finput); do o <- value (a_text A Foutput);
           do n <- value (a_num A Fqueue_size); do b <- value (a_text A Fbkey);
           do c <- do_run_block T Y f s i o n b (a_flag A Fsanitize_result); Ok (Runs c)
  | RUN_FLUT => if negb (one_output A) then Fail FExit else
           do s <- value (a_text A Fspec); do i <- value (a_text A Finput);
           do n <- value (a_num A Foutput_freq); do q <- value (a_num A Fqueue_size); do m <- value (a_num A Fbootstrapping_freq);
           do b <- value (a_text A Fbkey); do d <- value (a_num A Fmax_second_lut_depth);
           do c <- do_run_flut T Y f s i (a_text A Foutput) (a_text A Foutput_dir) n q m b (Some d) (a_text A Fdebug_skey) (a_flag A Fsanitize_result);
           Ok (Runs c)
  | RUN_PLAIN => do s <- value (a_text A Fspec); do i <- value (a_text A Finput); do n <- value (a_num A Fnum_ap);
           do t <- run_plain f s i n; Ok (Prints t)
  | LTL2SPEC => do fml <- value (a_text A Fformula); do n <- value (a_num A Fnum_vars);
           do M <- ltl_to_monitor spot fml n;
           do t <- do_ltl2spec M n (a_flag A Fmake_all_live_states_final); Ok (Prints t)
  | SPEC2SPEC => do s <- source FAssert f stdin (a_text A Fspec);
           do t <- do_spec2spec s (a_flag A Fminimized) (a_flag A Freversed) (a_flag A Fnegated); Ok (Prints t)
  | SPEC2DOT => do s <- source FAssert f stdin (a_text A Fspec); do t <- do_spec2dot s; Ok (Prints t)
  | SPEC2ATT => do s <- source FAssert f stdin (a_text A Fspec); do t <- do_spec2att s; Ok (Prints t)
  | ATT2SPEC => do s <- source FExit f stdin (a_text A Fspec); do t <- do_att2spec s; Ok (Prints t)
  | BENCH_OFFLINE | BENCH_REVERSE | BENCH_BLOCK | BENCH_FLUT | BENCH_PLAIN => Fail FExit
  | UNSPECIFIED => Fail FExit
  end.

(** src/main.cpp:590-755  main; [argv] without the name of the program *)
Definition main (f : fs) (stdin : text) (coin : nat) (argv : list text) : res action :=
  do A <- parse f argv; dispatch f stdin coin A.
End Main.
