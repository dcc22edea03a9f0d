(** C86: options written with their value in one word, "--name=value".  The spellings are in JoinedSpec.v, the manual in
    MainSpec.v. *)
From Coq Require Import String.
From Coq Require Import List Arith Bool NArith ZArith Ascii Permutation Lia.
Import ListNotations.
From Verif Require Import Base BaseFacts GraphModel Spec TextModel PropsText CliModel DotModel TorusModel TfheSpec RunnerSpec PropsRunner StreamModel InputSpec
  CmdModel CmdSpec CmdFacts PropsCmd LtlModel LtlSpec PropsLtl MainModel MainSpec MainFacts MainClaims PropsMain JoinedModel JoinedSpec JoinedFacts.
Local Open Scope list_scope.

Section Commands.
Context (T : tfhe) (Y : crypto T) (spot : spot_lib).

(** ** C86: the program does what the manual says, however each option is spelled and whatever their order. *)
Theorem C86_manual f stdin coin argv c o p r : joined_line argv c o p -> manual T Y spot f stdin coin c o p r ->
  main_joined T Y spot f stdin coin argv = r.
Proof. apply joined_manual. Qed.
(** Every command line is in the manual or refused, apart from the spellings that are still left open. *)
Theorem C86_total f stdin coin argv :
  (exists c o p r, joined_line argv c o p /\ manual T Y spot f stdin coin c o p r /\ main_joined T Y spot f stdin coin argv = r) \/
  main_joined T Y spot f stdin coin argv = Fail FExit \/
  (main_joined T Y spot f stdin coin argv = Fail FUndefined /\ still_outside argv).
Proof.
  destruct (joined_cases T Y spot f stdin coin argv) as [(c & o & p & r & C & M)|H]; auto.
  left. exists c, o, p, r. split; auto. split; auto. eapply joined_manual; eauto.
Qed.
(** A command line that MainModel.v does not leave open does the same as there: C51 and the properties that build on it
    are not affected. *)
Theorem C86_same f stdin coin argv : main T Y spot f stdin coin argv <> Fail FUndefined ->
  main_joined T Y spot f stdin coin argv = main T Y spot f stdin coin argv.
Proof. apply joined_same. Qed.
(** Two spellings of one command do the same, whatever the order of the options. *)
Theorem C86_spellings f stdin coin argv argv' c o o' p r : joined_line argv c o p -> joined_line argv' c o' p -> Permutation o o' ->
  manual T Y spot f stdin coin c o p r ->
  main_joined T Y spot f stdin coin argv = main_joined T Y spot f stdin coin argv'.
Proof.
  intros H H' P M. rewrite (C86_manual _ _ _ _ _ _ _ _ H M). symmetry. apply (C86_manual _ _ _ _ c o p); auto.
  destruct H' as (g & items & w & G & W & E & PO & R). exists g, items, w. split; auto. split; auto. split; auto. split; auto.
  eapply Permutation_trans; [exact PO|]. apply Permutation_sym. auto.
Qed.
(** The options --out-dir and --sanitize-result are refused in this spelling too. *)
Theorem C86_no_out_dir f stdin coin c o p r g items w n v rest : manual T Y spot f stdin coin c o p r -> general g ->
  written_as items w -> incl (options items) o -> Forall plain_word (positionals items) ->
  In n ["--out-dir"; "--sanitize-result"]%string -> v <> [] ->
  main_joined T Y spot f stdin coin (g ++ map lit c ++ w ++ (lit n ++ "="%char :: v) :: rest) = Fail FExit.
Proof. apply joined_unregistered. Qed.
End Commands.

(** A command line with both spellings; the value of --in looks like an option. *)
Definition ex_joined : list text :=
  map lit ["--quiet"; "run"; "plain"; "--spec=s"; "--in"; "--ap=3"; "--ap=2"]%string.
Definition ex_joined_f : fs := fun n => if path_eqb n (lit "--ap=3") then ex_f (lit "i") else ex_f n.
Example C86_nonvacuous :
  joined_line ex_joined ["run"; "plain"]%string
    [("--ap", Some (lit "2")); ("--spec", Some (lit "s")); ("--in", Some (lit "--ap=3"))]%string [] /\
  manual ex_T ex_Y ex_spot ex_joined_f [] 0 ["run"; "plain"]%string
    [("--ap", Some (lit "2")); ("--spec", Some (lit "s")); ("--in", Some (lit "--ap=3"))]%string []
    (prints (run_plain ex_joined_f (lit "s") (lit "--ap=3") 2)) /\
  main_joined ex_T ex_Y ex_spot ex_joined_f [] 0 ex_joined = Ok (Prints (lit "1")) /\
  main ex_T ex_Y ex_spot ex_joined_f [] 0 ex_joined = Fail FUndefined.
Proof.
  split; [|split; [|split]].
  - exists [lit "--quiet"], [Opt "--spec" (lit "s"); Opt "--in" (lit "--ap=3"); Opt "--ap" (lit "2")],
      (map lit ["--spec=s"; "--in"; "--ap=3"; "--ap=2"]%string).
    split; [split; [constructor; [right; reflexivity|constructor]|repeat constructor; intros []]|].
    split; [|split; [reflexivity|split; [|split; [reflexivity|constructor]]]].
    + apply (wa_one "--spec" (lit "s")); [discriminate|]. apply (wa_two "--in"). apply (wa_one "--ap" (lit "2")); [discriminate|]. constructor.
    + cbn. apply Permutation_sym. apply (Permutation_cons_app [_; _] [] (_ : string * option text)). apply Permutation_refl.
  - constructor; [discriminate|discriminate|]. split; [split; [reflexivity|lia]|lia].
  - vm_compute. reflexivity.
  - vm_compute. reflexivity.
Qed.
(** Refused: an unknown name, an option given in both spellings, a missing file.  Left open: no value, a flag with a value. *)
Example C86_refused :
  let run w := main_joined ex_T ex_Y ex_spot ex_f [] 0 (map lit w) in
  run ["genkey"; "--output=x"]%string = Fail FExit /\
  run ["--out=x"; "genkey"]%string = Fail FExit /\
  run ["genkey"; "--out=x"; "--out"; "y"]%string = Fail FExit /\
  run ["run"; "plain"; "--spec=none"; "--in=i"; "--ap=2"]%string = Fail FExit /\
  run ["genkey"; "--out="]%string = Fail FUndefined /\
  run ["spec2spec"; "--minimized=true"]%string = Fail FUndefined /\
  run ["--quiet=true"; "spec2spec"]%string = Fail FUndefined.
Proof. repeat split; vm_compute; reflexivity. Qed.
(** A value may contain "=": only the first one is cut at. *)
Example C86_value_with_equals :
  match main_joined ex_T ex_Y ex_spot ex_f [] 0 (map lit ["genkey"; "--out=a=b"]%string) with
  | Ok (Writes f') => f' (lit "a=b") <> None /\ f' (lit "a") = None
  | _ => False
  end.
Proof. vm_compute. split; [discriminate|reflexivity]. Qed.
Example C86_no_out_dir_nonvacuous :
  main_joined ex_T ex_Y ex_spot ex_f [] 0 (map lit ["genkey"; "--out=sk"; "--out-dir=d"]%string) = Fail FExit.
Proof.
  apply (C86_no_out_dir ex_T ex_Y ex_spot ex_f [] 0 ["genkey"%string] [("--out"%string, Some (lit "sk"))] [] (writes (do_genkey ex_T ex_Y ex_f (lit "sk"))) []
    [Opt "--out" (lit "sk")] [lit "--out=sk"] "--out-dir" (lit "d") []).
  - constructor.
  - split; constructor.
  - apply (wa_one "--out" (lit "sk")); [discriminate|constructor].
  - cbn. intros x H. exact H.
  - constructor.
  - left. reflexivity.
  - discriminate.
Qed.

Print Assumptions C86_manual.
Print Assumptions C86_total.
Print Assumptions C86_same.
Print Assumptions C86_spellings.
Print Assumptions C86_no_out_dir.
