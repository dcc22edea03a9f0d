(** C51: the command line.  The manual is in MainSpec.v. *)
From Coq Require Import String.
From Coq Require Import List Arith Bool NArith ZArith Ascii Permutation Lia.
Import ListNotations.
From Verif Require Import Base BaseFacts GraphModel Spec TextModel PropsText CliModel DotModel TorusModel TfheSpec RunnerSpec PropsRunner StreamModel InputSpec
  CmdModel CmdSpec CmdFacts PropsCmd Quotient LtlModel LtlSpec PropsLtl DotSpec PropsDot MainModel MainSpec MainFacts MainClaims.
Local Open Scope list_scope.

Section Commands.
Context (T : tfhe) (Y : crypto T) (spot : spot_lib).

(** ** C51: the program does what the manual says, whatever the order of the options. *)
Theorem C51_manual f stdin coin argv c o p r : command_line argv c o p -> manual T Y spot f stdin coin c o p r ->
  main T Y spot f stdin coin argv = r.
Proof. apply manual_main. Qed.
(** Every command line is in the manual or refused, apart from the spellings that are not modelled. *)
Theorem C51_total f stdin coin argv :
  (exists c o p r, command_line argv c o p /\ manual T Y spot f stdin coin c o p r /\ main T Y spot f stdin coin argv = r) \/
  main T Y spot f stdin coin argv = Fail FExit \/
  (main T Y spot f stdin coin argv = Fail FUndefined /\ outside argv).
Proof.
  destruct (main_cases T Y spot f stdin coin argv) as [(c & o & p & r & C & M)|H]; auto.
  left. exists c, o, p, r. split; auto. split; auto. eapply manual_main; eauto.
Qed.
(** The options --out-dir and --sanitize-result, which the commands would honour, are refused after
    any part of any command. *)
Theorem C51_no_out_dir f stdin coin c o p r g items n rest : manual T Y spot f stdin coin c o p r -> general g ->
  incl (options items) o -> Forall plain_word (positionals items) -> In n ["--out-dir"; "--sanitize-result"]%string ->
  main T Y spot f stdin coin (g ++ map lit c ++ words items ++ lit n :: rest) = Fail FExit.
Proof. apply unregistered. Qed.
(** Without a command there is an error. *)
Theorem C51_no_command f stdin coin g : general g ->
  main T Y spot f stdin coin g = Fail FExit /\ main T Y spot f stdin coin (g ++ [lit "run"]) = Fail FExit.
Proof.
  intros G. unfold main. split.
  - rewrite <- (app_nil_r g), parse_general by auto. reflexivity.
  - rewrite parse_general by auto. reflexivity.
Qed.

(** * The session of README.md, lines 25-29 *)
Lemma command_perm argv c o o' p : command_line argv c o p -> Permutation o o' -> command_line argv c o' p.
Proof. intros (g & items & G & E & HP & Q) H. exists g, items. split; auto. split; auto. split; auto. etransitivity; eauto. Qed.

(** genkey, genbkey, enc, [run], dec, with the options of each in any order; the outcome is what
    "run plain" prints. *)
Definition session (f : fs) (sk bk spec input cipher output ap : text) (run : list string) (ro : list (string * option text)) (printed : text) : Prop :=
  forall stdin coin a0 a1 a2 a3 a4 a5,
    command_line a0 ["run"; "plain"]%string [("--spec", Some spec); ("--in", Some input); ("--ap", Some ap)]%string [] ->
    command_line a1 ["genkey"%string] [("--out"%string, Some sk)] [] ->
    command_line a2 ["genbkey"%string] [("--key", Some sk); ("--out", Some bk)]%string [] ->
    command_line a3 ["enc"%string] [("--key", Some sk); ("--in", Some input); ("--out", Some cipher); ("--ap", Some ap)]%string [] ->
    command_line a4 run ro [] ->
    command_line a5 ["dec"%string] [("--key", Some sk); ("--in", Some output)]%string [] ->
    exists f1 f2 f3 c f4,
      main T Y spot f stdin coin a0 = Ok (Prints printed) /\
      main T Y spot f stdin coin a1 = Ok (Writes f1) /\
      main T Y spot f1 stdin coin a2 = Ok (Writes f2) /\
      main T Y spot f2 stdin coin a3 = Ok (Writes f3) /\
      main T Y spot f3 stdin coin a4 = Ok (Runs c) /\ run_ends T Y (Ok c) f3 (Ok f4) /\
      main T Y spot f4 stdin coin a5 = Ok (Prints printed).

Lemma enc_frame f sk input cipher ap coin f' : do_enc T Y f sk input cipher ap coin = Ok f' ->
  f' cipher <> None /\ forall p, p <> cipher -> f' p = f p.
Proof.
  unfold do_enc. intros H. apply bind_ok in H as (? & _ & H). apply bind_ok in H as (? & _ & H).
  apply bind_ok in H as ([? b] & _ & [= <-]). split; [rewrite write_same; discriminate|].
  intros p N. rewrite !write_other by auto. reflexivity.
Qed.
Lemma dec_readable f sk o t : do_dec T Y f sk o = Ok t -> readable f sk /\ readable f o.
Proof.
  unfold do_dec, read_skey, open_file, readable. intros H. destruct (f sk); [|discriminate]. split; [discriminate|].
  apply bind_ok in H as (? & _ & H). destruct (f o); [discriminate|discriminate H].
Qed.
Lemma plain_readable f s i n t : run_plain f s i n = Ok t -> readable f s /\ readable f i.
Proof.
  unfold run_plain, from_file, open_file, readable. intros H. destruct (f s); [|discriminate]. split; [discriminate|].
  apply bind_ok in H as (? & _ & H). destruct (f i); [discriminate|discriminate H].
Qed.
Lemma plain_same f f' s i n : f' s = f s -> f' i = f i -> run_plain f' s i n = run_plain f s i n.
Proof. unfold run_plain, from_file, open_file. intros -> ->. reflexivity. Qed.

Lemma session_of s1 bit (YO : crypto_ok T Y s1 bit) f sk bk spec input cipher output ap n run ro printed (R : fs -> res command) :
  NoDup [sk; bk; spec; input; cipher] -> positive ap n ->
  run_plain f spec input n = Ok printed ->
  (forall f2 coin, keys_at Y f2 sk bk -> (forall p, p <> sk -> p <> bk -> f2 p = f p) -> exists f3 f4,
     do_enc T Y f2 sk input cipher n coin = Ok f3 /\ run_ends T Y (R f3) f3 (Ok f4) /\ do_dec T Y f4 sk output = Ok printed) ->
  (forall f3, exists c, R f3 = Ok c) ->
  (forall f3 stdin coin, readable f3 bk -> readable f3 spec -> readable f3 cipher -> manual T Y spot f3 stdin coin run ro [] (runs (R f3))) ->
  session f sk bk spec input cipher output ap run ro printed.
Proof.
  intros ND HA HP HC HR HM stdin coin a0 a1 a2 a3 a4 a5 C0 C1 C2 C3 C4 C5.
  destruct (plain_readable _ _ _ _ _ HP) as [RS RI].
  assert (sk <> bk /\ cipher <> sk /\ cipher <> bk /\ cipher <> spec /\ cipher <> input /\ spec <> sk /\ spec <> bk /\ input <> sk /\ input <> bk) as N.
  { clear - ND. repeat match goal with H : NoDup (_ :: _) |- _ => inversion H; subst; clear H end.
    cbn in *. repeat split; intros ->; tauto. }
  destruct N as (N1 & N2 & N3 & N4 & N5 & N6 & N7 & N8 & N9).
  destruct (C49_keys T s1 bit Y YO f sk bk N1) as (f1 & f2 & G1 & G2 & K & FR).
  destruct (HC f2 coin K FR) as (f3 & f4 & E1 & E2 & E3).
  destruct (HR f3) as (c & EC). rewrite EC in E2.
  destruct (enc_frame _ _ _ _ _ _ _ E1) as [F1 F2].
  destruct K as ((sb & K1 & K1') & (bb & K2 & K2')).
  destruct (dec_readable _ _ _ _ E3) as [D1 D2].
  assert (G1' : readable f1 sk).
  { unfold do_genkey in G1. injection G1 as <-. unfold readable. rewrite write_same. discriminate. }
  exists f1, f2, f3, c, f4. split; [|split; [|split; [|split; [|split; [|split]]]]]; auto.
  - erewrite C51_manual; [|eapply command_perm; [exact C0|]|apply (man_plain T Y spot f stdin coin spec input ap n); eauto].
    + rewrite HP. reflexivity.
    + apply Permutation_sym. apply (Permutation_middle [_; _] []).
  - erewrite C51_manual; [|exact C1|constructor]. rewrite G1. reflexivity.
  - erewrite C51_manual; [|exact C2|constructor; auto]. rewrite G2. reflexivity.
  - erewrite C51_manual; [|eapply command_perm; [exact C3|]|apply (man_enc T Y spot f2 stdin coin sk input cipher ap n); auto].
    + rewrite E1. reflexivity.
    + apply Permutation_sym. apply (Permutation_middle [_; _; _] []).
    + unfold readable. rewrite K1. discriminate.
    + unfold readable. rewrite FR; auto.
  - erewrite C51_manual; [|exact C4|apply HM].
    + rewrite EC. reflexivity.
    + unfold readable. rewrite F2, K2; [discriminate|auto].
    + unfold readable. rewrite F2, FR; auto.
    + exact F1.
  - erewrite C51_manual; [|exact C5|constructor; auto]. rewrite E3. reflexivity.
Qed.
End Commands.

Section Session.
Context (T : tfhe) (s0 s1 : list Z) (bit : trgsw T -> bool -> Prop) (E : noise) (Y : crypto T) (spot : spot_lib).
Hypothesis OK : tfhe_ok T s0 s1 bit E.
Hypothesis NN : noise_nonneg E.
Hypothesis YO : crypto_ok T Y s1 bit.
Notation words := (c_words T Y).

Theorem C51_session_offline f sk bk spec input cipher output ap n t interval bytes printed :
  NoDup [sk; bk; spec; input; cipher] -> output <> sk ->
  positive ap n -> positive t interval -> back_margin E interval ->
  f input = Some bytes ->
  (Z.of_nat (nbits n bytes) < 2 ^ 31)%Z -> (Z.of_nat (nbits n bytes * (words * 8)) < 2 ^ 64)%Z ->
  run_plain f spec input n = Ok printed ->
  session T Y spot f sk bk spec input cipher output ap ["run"; "offline"]%string
    (common bk output spec cipher None ++ [("--bootstrapping-freq"%string, Some t)]) printed.
Proof.
  intros ND NO HA HT HM HI HB1 HB2 HP.
  assert (NI : input <> sk /\ input <> bk /\ spec <> sk /\ spec <> bk /\ ~ In cipher [sk; bk; spec; input]).
  { clear - ND. repeat match goal with H : NoDup (_ :: _) |- _ => inversion H; subst; clear H end.
    cbn in *. repeat split; try (intros ->; tauto). intuition. }
  destruct NI as (N1 & N2 & N3 & N4 & N5).
  apply (session_of T Y spot s1 bit YO f sk bk spec input cipher output ap n _ _ printed
    (fun f3 => do_run_offline T Y f3 spec cipher output interval bk false)); auto.
  - intros f2 coin K FR.
    destruct (C35_offline T s0 s1 bit E Y OK NN YO f2 sk bk spec input cipher output n interval coin bytes printed)
      as (f3 & f4 & E1 & E2 & E3 & _); auto; try (rewrite FR by auto; exact HI); try apply HA; try apply HT; eauto.
    rewrite (plain_same f) by auto. exact HP.
  - intros f3. eexists. reflexivity.
  - intros f3 stdin coin R1 R2 R3. apply man_offline; auto. repeat split; auto.
Qed.
Theorem C51_session_reverse name f sk bk spec input cipher output ap n t interval t' freq bytes printed :
  In name ["reverse"; "reversed"]%string ->
  NoDup [sk; bk; spec; input; cipher] -> output <> sk ->
  positive ap n -> positive t interval -> positive t' freq -> back_margin E interval ->
  f input = Some bytes -> (Z.of_nat (nbits n bytes * (words * 8)) < 2 ^ 64)%Z ->
  run_plain f spec input n = Ok printed ->
  session T Y spot f sk bk spec input cipher output ap ["run"%string; name]
    (common bk output spec cipher None ++ [("--out-freq"%string, Some t'); ("--bootstrapping-freq"%string, Some t)]) printed.
Proof.
  intros HN ND NO HA HT HT' HM HI HB2 HP.
  assert (NI : input <> sk /\ input <> bk /\ spec <> sk /\ spec <> bk /\ ~ In cipher [sk; bk; spec; input]).
  { clear - ND. repeat match goal with H : NoDup (_ :: _) |- _ => inversion H; subst; clear H end.
    cbn in *. repeat split; try (intros ->; tauto). intuition. }
  destruct NI as (N1 & N2 & N3 & N4 & N5).
  apply (session_of T Y spot s1 bit YO f sk bk spec input cipher output ap n _ _ printed
    (fun f3 => do_run_reverse T Y f3 spec cipher (Some output) None freq interval false bk false)); auto.
  - intros f2 coin K FR.
    destruct (C35_reverse T s0 s1 bit E Y OK NN YO f2 sk bk spec input cipher output n interval freq coin bytes printed)
      as (f3 & f4 & E1 & E2 & E3 & _); auto; try (rewrite FR by auto; exact HI); try apply HA; try apply HT; eauto.
    rewrite (plain_same f) by auto. exact HP.
  - intros f3. eexists. reflexivity.
  - intros f3 stdin coin R1 R2 R3. apply (man_reverse T Y spot f3 stdin coin name bk output spec cipher None t' freq t interval false); auto.
    repeat split; auto.
Qed.
Theorem C51_session_block name f sk bk spec input cipher output ap n t queue_size t' freq g bytes printed :
  In name ["block"; "bbs"; "block-backstream"]%string ->
  NoDup [sk; bk; spec; input; cipher] -> output <> sk ->
  positive ap n -> positive t queue_size -> positive t' freq ->
  f input = Some bytes -> bytes <> [] -> from_file f spec = Ok g -> block_margin g queue_size E ->
  Nat.log2 (size g) + 1 < t_n1 T -> Nat.log2 (size g) + 1 < 31 ->
  (Z.of_nat (nbits n bytes * (words * 8)) < 2 ^ 64)%Z ->
  run_plain f spec input n = Ok printed ->
  session T Y spot f sk bk spec input cipher output ap ["run"%string; name]
    (common bk output spec cipher None ++ [("--out-freq"%string, Some t'); ("--queue-size"%string, Some t)]) printed.
Proof.
  intros HN ND NO HA HT HT' HI HB EG HM HL1 HL2 HB2 HP.
  assert (NI : input <> sk /\ input <> bk /\ spec <> sk /\ spec <> bk /\ ~ In cipher [sk; bk; spec; input]).
  { clear - ND. repeat match goal with H : NoDup (_ :: _) |- _ => inversion H; subst; clear H end.
    cbn in *. repeat split; try (intros ->; tauto). intuition. }
  destruct NI as (N1 & N2 & N3 & N4 & N5).
  apply (session_of T Y spot s1 bit YO f sk bk spec input cipher output ap n _ _ printed
    (fun f3 => do_run_block T Y f3 spec cipher output queue_size bk false)); auto.
  - intros f2 coin K FR.
    destruct (C35_block T s0 s1 bit E Y OK NN YO f2 sk bk spec input cipher output n queue_size coin bytes g printed)
      as (f3 & f4 & E1 & E2 & E3 & _); auto; try (rewrite FR by auto; exact HI); try apply HA; try apply HT; eauto.
    + rewrite (from_file_eq _ f); auto.
    + rewrite (plain_same f) by auto. exact HP.
  - intros f3. eexists. reflexivity.
  - intros f3 stdin coin R1 R2 R3. apply (man_block T Y spot f3 stdin coin name bk output spec cipher None t' freq t queue_size); auto.
    repeat split; auto.
Qed.
Theorem C51_session_flut name f sk bk spec input cipher output ap n t interval tq queue_size td max_depth t' freq g bytes printed :
  In name ["flut"; "qtrlwe2"]%string ->
  NoDup [sk; bk; spec; input; cipher] -> output <> sk ->
  positive ap n -> positive t interval -> positive tq queue_size -> positive td max_depth -> positive t' freq ->
  f input = Some bytes -> from_file f spec = Ok g -> queue_size < 31 -> max_depth < 31 -> table_fits (t_n1 T) max_depth queue_size g ->
  flut_margin (size g * 2 ^ (queue_size / 2)) queue_size interval E ->
  (forall m k, In m (flushes queue_size 0 0 (asked None 0 (repeat tt (nbits n bytes)))) -> width g m k -> k < 2 ^ max_depth) ->
  (Z.of_nat (nbits n bytes * (words * 8)) < 2 ^ 64)%Z ->
  run_plain f spec input n = Ok printed ->
  session T Y spot f sk bk spec input cipher output ap ["run"%string; name]
    (common bk output spec cipher None ++ [("--out-freq"%string, Some t'); ("--queue-size"%string, Some tq);
       ("--max-second-lut-depth"%string, Some td); ("--bootstrapping-freq"%string, Some t)]) printed.
Proof.
  intros HN ND NO HA HT HQ HD HT' HI EG LQ LD LN HM HW HB2 HP.
  assert (NI : input <> sk /\ input <> bk /\ spec <> sk /\ spec <> bk /\ ~ In cipher [sk; bk; spec; input]).
  { clear - ND. repeat match goal with H : NoDup (_ :: _) |- _ => inversion H; subst; clear H end.
    cbn in *. repeat split; try (intros ->; tauto). intuition. }
  destruct NI as (N1 & N2 & N3 & N4 & N5).
  apply (session_of T Y spot s1 bit YO f sk bk spec input cipher output ap n _ _ printed
    (fun f3 => do_run_flut T Y f3 spec cipher (Some output) None freq queue_size interval bk (Some max_depth) None false)); auto.
  - intros f2 coin K FR.
    destruct (C35_flut T s0 s1 bit E Y OK NN YO f2 sk bk spec input cipher output n queue_size interval max_depth freq coin bytes g printed)
      as (f3 & f4 & E1 & E2 & E3 & _); auto; try (rewrite FR by auto; exact HI); try apply HA; try apply HT; eauto.
    + split; [apply HQ|auto].
    + rewrite (from_file_eq _ f); auto.
    + rewrite (plain_same f) by auto. exact HP.
  - intros f3. eexists. reflexivity.
  - intros f3 stdin coin R1 R2 R3.
    apply (man_flut T Y spot f3 stdin coin name bk output spec cipher None t' freq tq queue_size td max_depth t interval); auto.
    repeat split; auto.
Qed.
End Session.

(** * The second session of README.md, lines 33-35 *)
Section Picture.
Context (T : tfhe) (Y : crypto T) (spot : spot_lib).

Lemma round_trip_wf g : wf_graph g -> (N.of_nat (size g) <= 2 ^ 31)%N -> exists t g', dump g = Ok t /\ from_istream t = Ok g' /\
  wf_graph g' /\ size g' = size g /\ forall w, accepts g' w = accepts g w.
Proof.
  intros W HB. destruct (C14_dump_round_trip g W HB) as (t & g' & E1 & E2 & S & _ & _ & _ & _ & A).
  exists t, g'. split; auto. split; auto. split; auto.
  assert (SG : 0 < size g') by (rewrite S; destruct W as (_ & _ & P & _); unfold size; lia).
  apply (TextFacts.from_istream_build _ _ g' (TextFacts.lines_of_getlines _)) in E2 as (rows & HR & HB').
  destruct rows as [|r rows]; [|apply (TextClaims.build_language (r :: rows)); [discriminate|exact HB']].
  exfalso. vm_compute in HB'. injection HB' as <-. cbn in SG. lia.
Qed.

(** ltl2spec, spec2spec --minimized and spec2dot, each reading what the one before has printed: the
    picture is that of a smallest automaton for the language of the formula. *)
Theorem C51_session_picture f stdin coin fml t n a1 a2 a3 :
  number t n -> parses spot fml = true -> monitor_ok (spot fml n) n ->
  (forall g, from_ltl_formula (spot fml n) n false = Ok g -> (N.of_nat (size g) <= 2 ^ 31)%N) ->
  command_line a1 ["ltl2spec"%string] [] [fml; t] ->
  command_line a2 ["spec2spec"%string] [("--minimized"%string, None)] [] ->
  command_line a3 ["spec2dot"%string] [] [] ->
  exists t1 t2 t3 l m,
    main T Y spot f stdin coin a1 = Ok (Prints t1) /\
    main T Y spot f t1 coin a2 = Ok (Prints t2) /\
    main T Y spot f t2 coin a3 = Ok (Prints t3) /\
    dot_says t3 l /\ (forall l', dot_says t3 l' -> l' = l) /\ pictures l m /\
    wf_graph m /\ dfa_decides m (ltl_language (spot fml n) n false) /\
    forall h, wf_graph h -> (forall w, accepts h w = accepts m w) -> size m <= size h.
Proof.
  intros HN HF HM HB C1 C2 C3.
  destruct (C42_ltl (spot fml n) n false HM) as (g & E & W & DG). specialize (HB g E).
  destruct (round_trip_wf g W HB) as (t1 & g1 & E1 & F1 & W1 & S1 & A1).
  destruct (minimized_correct g1 W1) as (m & EM & WM & AM & RM & DM).
  assert (LM : size m <= size g1) by (eapply minimal; eauto).
  destruct (round_trip_wf m WM) as (t2 & m2 & E2 & F2 & W2 & S2 & A2); [lia|].
  destruct (C52_spec2dot t2 m2 F2 W2) as (t3 & l & E3 & D1 & D2 & D3).
  exists t1, t2, t3, l, m2. repeat match goal with |- _ /\ _ => split end; auto.
  - erewrite C51_manual; [|exact C1|apply (man_ltl2spec T Y spot f stdin coin fml t n false HN)].
    rewrite HF. unfold do_ltl2spec. rewrite E. cbn [bind]. rewrite E1. reflexivity.
  - erewrite C51_manual; [|exact C2|apply (man_spec2spec T Y spot f t1 coin true false false [] (Ok t1)); reflexivity].
    cbn [bind]. unfold do_spec2spec. rewrite F1. cbn [bind]. rewrite EM. cbn [bind]. rewrite E2. reflexivity.
  - erewrite C51_manual; [|exact C3|apply (man_spec2dot T Y spot f t2 coin [] (Ok t2)); reflexivity].
    cbn [bind]. rewrite E3. reflexivity.
  - intros w. unfold dfa_accepts, dfa_rejects. rewrite A2, AM, A1. apply DG.
  - intros h Wh A. rewrite S2. apply minimal; auto. intros w. rewrite A, A2. reflexivity.
Qed.
End Picture.

(** * The hypotheses are met *)
Example C51_command_line : command_line
  (map lit ["--verbose"; "run"; "offline"; "--bkey"; "bk"; "--spec"; "../test/01.spec"; "--in"; "enc_in"; "--out"; "enc_out";
            "--bootstrapping-freq"; "100000"]%string)
  ["run"; "offline"]%string
  (common (lit "bk") (lit "enc_out") (lit "../test/01.spec") (lit "enc_in") None ++ [("--bootstrapping-freq"%string, Some (lit "100000"))]) [].
Proof.
  exists [lit "--verbose"], [Opt "--bkey" (lit "bk"); Opt "--spec" (lit "../test/01.spec"); Opt "--in" (lit "enc_in");
    Opt "--out" (lit "enc_out"); Opt "--bootstrapping-freq" (lit "100000")].
  split; [split; repeat constructor; intros []|]. split; [reflexivity|]. split; [|split; [reflexivity|constructor]].
  apply perm_skip. cbn. apply Permutation_sym. apply (Permutation_middle [_; _] [_] (_ : string * option text)).
Qed.
Definition ex_spot : spot_lib := mkSpot (fun _ _ => ex_monitor) (fun t => negb (length t =? 0)).
Definition ex_args (c : list string) (items : list item) : list text := map lit c ++ words items.
Example C51_session_nonvacuous : exists f1 f2 f3 c f4,
  main ex_T ex_Y ex_spot ex_f [] 0 (map lit ["genkey"; "--out"; "sk"]%string) = Ok (Writes f1) /\
  main ex_T ex_Y ex_spot f1 [] 0 (map lit ["genbkey"; "--key"; "sk"; "--out"; "bk"]%string) = Ok (Writes f2) /\
  main ex_T ex_Y ex_spot f2 [] 0 (map lit ["enc"; "--key"; "sk"; "--in"; "i"; "--out"; "enc_in"; "--ap"; "2"]%string) = Ok (Writes f3) /\
  main ex_T ex_Y ex_spot f3 [] 0 (map lit ["run"; "offline"; "--bkey"; "bk"; "--spec"; "s"; "--in"; "enc_in"; "--out"; "enc_out";
    "--bootstrapping-freq"; "2"]%string) = Ok (Runs c) /\ run_ends ex_T ex_Y (Ok c) f3 (Ok f4) /\
  main ex_T ex_Y ex_spot f4 [] 0 (map lit ["dec"; "--key"; "sk"; "--in"; "enc_out"]%string) = Ok (Prints (lit "1")).
Proof.
  destruct ex_contract as (H1 & H2). destruct ex_margins as (M1 & _).
  assert (CL : forall c items o, Permutation (options items) o -> positionals items = [] -> command_line (ex_args c items) c o []).
  { intros c items o P Q. exists [], items. repeat split; auto; constructor. }
  assert (N2 : positive (lit "2") 2) by (split; [split; [reflexivity|lia]|lia]).
  destruct (C51_session_offline ex_T _ _ _ _ ex_Y ex_spot H1 H2 ex_crypto ex_f (lit "sk") (lit "bk") (lit "s") (lit "i") (lit "enc_in") (lit "enc_out")
    (lit "2") 2 (lit "2") 2 [1; 2; 1]%N (lit "1")) with (stdin := @nil ascii) (coin := 0)
    (a0 := ex_args ["run"; "plain"]%string [Opt "--spec" (lit "s"); Opt "--in" (lit "i"); Opt "--ap" (lit "2")])
    (a1 := ex_args ["genkey"%string] [Opt "--out" (lit "sk")])
    (a2 := ex_args ["genbkey"%string] [Opt "--key" (lit "sk"); Opt "--out" (lit "bk")])
    (a3 := ex_args ["enc"%string] [Opt "--key" (lit "sk"); Opt "--in" (lit "i"); Opt "--out" (lit "enc_in"); Opt "--ap" (lit "2")])
    (a4 := ex_args ["run"; "offline"]%string [Opt "--bkey" (lit "bk"); Opt "--spec" (lit "s"); Opt "--in" (lit "enc_in"); Opt "--out" (lit "enc_out"); Opt "--bootstrapping-freq" (lit "2")])
    (a5 := ex_args ["dec"%string] [Opt "--key" (lit "sk"); Opt "--in" (lit "enc_out")])
    as (f1 & f2 & f3 & c & f4 & _ & K); auto.
  - repeat constructor; cbn; intuition discriminate.
  - discriminate.
  - apply CL; auto. apply perm_skip. cbn. apply Permutation_sym. apply (Permutation_middle [_; _] [_] (_ : string * option text)).
  - exists f1, f2, f3, c, f4. exact K.
Qed.
Example C51_picture_nonvacuous :
  let a1 := [lit "ltl2spec"; lit "G(p0 | !p1)"; lit "3"] in
  let a2 := [lit "spec2spec"; lit "--minimized"] in
  let a3 := [lit "spec2dot"] in
  number (lit "3") 3 /\ parses ex_spot (lit "G(p0 | !p1)") = true /\ monitor_ok (ex_spot (lit "G(p0 | !p1)") 3) 3 /\
  (forall g, from_ltl_formula (ex_spot (lit "G(p0 | !p1)") 3) 3 false = Ok g -> (N.of_nat (size g) <= 2 ^ 31)%N) /\
  command_line a1 ["ltl2spec"%string] [] [lit "G(p0 | !p1)"; lit "3"] /\
  command_line a2 ["spec2spec"%string] [("--minimized"%string, None)] [] /\
  command_line a3 ["spec2dot"%string] [] [] /\
  exists t1 t2 t3,
    main ex_T ex_Y ex_spot ex_f [] 0 a1 = Ok (Prints t1) /\
    main ex_T ex_Y ex_spot ex_f t1 0 a2 = Ok (Prints t2) /\
    main ex_T ex_Y ex_spot ex_f t2 0 a3 = Ok (Prints t3) /\
    50 < length t2 /\ length t2 < length t3.
Proof.
  split; [split; [reflexivity|lia]|]. split; [reflexivity|]. split; [exact ex_monitor_ok|]. split; [apply C42_bound|].
  split; [|split; [|split]].
  - exists [], [Pos (lit "G(p0 | !p1)"); Pos (lit "3")]. split; [split; constructor|]. split; [reflexivity|]. split; [constructor|].
    split; [reflexivity|].
    apply Forall_cons; [|apply Forall_cons; [|apply Forall_nil]].
    all: split; [right; discriminate|]; intros c H; cbn in H; repeat (destruct H as [<-|H]; [discriminate|]); destruct H.
  - exists [], [Flag "--minimized"]. repeat split; auto; constructor.
  - exists [], []. repeat split; auto; constructor.
  - eexists. eexists. eexists. split; [vm_compute; reflexivity|]. split; [vm_compute; reflexivity|].
    split; [vm_compute; reflexivity|]. split; apply Nat.ltb_lt; vm_compute; reflexivity.
Qed.

Print Assumptions C51_manual.
Print Assumptions C51_total.
Print Assumptions C51_no_out_dir.
Print Assumptions C51_session_offline.
Print Assumptions C51_session_flut.
Print Assumptions C51_session_picture.
