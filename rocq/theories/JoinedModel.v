(** The command line of src/main.cpp once more, with options that are written with their value in one word,
    "--name=value".  MainModel.v leaves these open (FUndefined).  CLI11 cuts such a word at the first "=" and then
    treats the two parts like "--name value".  Still open: an empty value, a flag with a value ("--quiet=true"),
    and the other spellings that MainModel.v leaves open. *)
From Coq Require Import String.
From Coq Require Import List Arith Bool NArith Ascii.
Import ListNotations.
From Verif Require Import Base GraphModel TextModel CliModel DotModel BitsModel TorusModel RunnerModel ParModel StreamModel
  ClientModel CmdModel LtlModel MainModel.
Local Open Scope list_scope.

(** (auxiliary) the text before and after the first "=", src/main.cpp:649 (CLI11_PARSE) *)
Fixpoint cut_eq (t : text) : option (text * text) :=
  match t with
  | [] => None
  | c :: rest =>
      if Ascii.eqb c "=" then Some ([], rest)
      else match cut_eq rest with Some (n, v) => Some (c :: n, v) | None => None end
  end.
(** (auxiliary) the name (with its dashes) and the value of a word "--name=value", src/main.cpp:649.  None if there is no
    name, no value or no "=". *)
Definition joined (t : text) : option (text * text) :=
  match t with
  | a :: b :: c :: _ =>
      if Ascii.eqb a "-" && Ascii.eqb b "-" && letter c && negb (Ascii.eqb c "=") then
        match cut_eq t with
        | Some (n, v) => match v with [] => None | _ => Some (n, v) end
        | None => None
        end
      else None
  | _ => None
  end.

(** The words after the subcommand (src/main.cpp:649, CLI11_PARSE): [collect] of MainModel.v with the spelling
    --name=value.  The word after "--name" is its value, also if it looks like "--name=value". *)
Fixpoint collect_joined (opts : list opt) (argv : list text) : res (list (text * text) * list text) :=
  match argv with
  | [] => Ok ([], [])
  | a :: rest =>
      if dashed a then
        if odd_word a then
          match joined a with
          | None => Fail FUndefined
          | Some (n, v) =>
              match find (fun o => is_name n (o_name o)) opts with
              | None => Fail FExit
              | Some o =>
                  match o_target o with
                  | ToFlag _ => Fail FUndefined
                  | _ => do '(given, pos) <- collect_joined opts rest; Ok ((n, v) :: given, pos)
                  end
              end
          end
        else match find (fun o => is_name a (o_name o)) opts with
             | None => Fail FExit
             | Some o =>
                 match o_target o with
                 | ToFlag _ => do '(given, pos) <- collect_joined opts rest; Ok ((a, []) :: given, pos)
                 | _ => match rest with
                        | [] => Fail FExit
                        | v :: rest' => do '(given, pos) <- collect_joined opts rest'; Ok ((a, v) :: given, pos)
                        end
                 end
             end
      else if is_sub_name a then Fail FUndefined
      else do '(given, pos) <- collect_joined opts rest; Ok (given, a :: pos)
  end.
(** (auxiliary) a subcommand and the words after it, src/main.cpp:649 *)
Definition parse_sub_joined (f : fs) (s : sub) (argv : list text) : res Args :=
  do '(given, pos) <- collect_joined (s_opts s) argv;
  do more <- distribute (s_opts s) pos;
  foldM (fun A o => store f (given ++ more) A o) (s_opts s) (args0 (s_type s)).
(** (auxiliary) a word in the place of the subcommand that is none, src/main.cpp:649, 67-73: the program has no options of
    its own but the two general flags, so "--name=value" is refused unless it gives a value to one of these *)
Definition no_command (a : text) : fault :=
  if dashed a && odd_word a then
    match joined a with
    | Some (n, _) => if is_name n "--verbose" || is_name n "--quiet" then FUndefined else FExit
    | None => FUndefined
    end
  else FExit.
(** src/main.cpp:594-649, 67-73 *)
Fixpoint parse_joined_from (seen : list text) (f : fs) (argv : list text) : res Args :=
  match argv with
  | [] => Ok (args0 UNSPECIFIED)
  | a :: rest =>
      if is_name a "--verbose" || is_name a "--quiet" then
        if existsb (path_eqb a) seen then Fail FUndefined else parse_joined_from (a :: seen) f rest
      else if is_name a "run" then
        match rest with
        | [] => Ok (args0 UNSPECIFIED)
        | b :: rest' =>
            match find_sub run_subs b with
            | Some s => parse_sub_joined f s rest'
            | None => if is_sub_name b then Fail FUndefined else Fail FExit
            end
        end
      else match find_sub subs a with Some s => parse_sub_joined f s rest | None => Fail (no_command a) end
  end.
(** src/main.cpp:649 *)
Definition parse_joined (f : fs) (argv : list text) : res Args := parse_joined_from [] f argv.
(** src/main.cpp:590-755  main; [argv] without the name of the program *)
Definition main_joined (T : tfhe) (Y : crypto T) (spot : spot_lib) (f : fs) (stdin : text) (coin : nat) (argv : list text) : res action :=
  do A <- parse_joined f argv; dispatch T Y spot f stdin coin A.
