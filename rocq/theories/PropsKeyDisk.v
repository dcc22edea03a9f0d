(** C85: a full disk, from the command line of genkey, genbkey and enc to their standard error and to the next command. *)
From Coq Require Import String.
From Coq Require Import List Arith Bool NArith ZArith Ascii Lia.
Import ListNotations.
From Verif Require Import Base BaseFacts GraphModel TextModel DotModel BitsModel TorusModel StreamModel RunnerModel ClientModel CmdModel CmdSpec CmdFacts ServerSpec CrashModel
  PropsRunner PropsCmd
  DiskModel DiskFacts PropsDisk LtlModel MainModel MainSpec MainFacts MainClaims MsgModel SayModel SaySpec SayFacts SayClaims PropsSay LogModel LogSpec PropsLog RefuseSpec BlameSpec
  StderrModel StderrSpec PropsStderr KeyDiskModel KeyDiskSpec.
Local Open Scope list_scope.

Section KeyDisk.
Context (trace why : text) (cap room : nat) (pol : nat -> nat) (opens : bool) (pieces : list N -> list (list N)).
Context (T : tfhe) (Y : crypto T) (spot : spot_lib) (E : setting) (f : fs) (stdin : text) (coin : nat).
Hypothesis HP : forall bytes, concat (pieces bytes) = bytes.
Notation main_disk := (main_disk trace why cap room pol opens pieces T Y E f coin).
Notation stored := (stored trace why cap room).

Ltac reads := repeat match goal with
  | H : positive ?t ?n |- _ => apply positive_read in H as (? & H & <-)
  | H : readable _ _ |- _ => unfold readable in H
  end.
Ltac known := repeat match goal with
  | H : read_num ?t = _ |- context [read_num ?t] => rewrite H
  | H : f ?p <> None |- context [f ?p] => let E := fresh "E" in destruct (f p) eqn:E; [|congruence]
  | H : f ?p = _ |- context [f ?p] => rewrite H
  | |- _ => progress cbn
  end.
Ltac nodup := cbn; repeat constructor; cbn; intuition discriminate.
Ltac fore s := match goal with C : command_line _ _ ?o _ |- _ =>
  rewrite (command_parse f _ _ _ _ s C); [| reflexivity | apply entry_okb_ok; reflexivity
    | let E := fresh in intros ? E; cbn in E; injection E as <-; nodup] end.

(** A message that is an error is always seen. *)
Lemma seen_errors argv A l : parse f argv = Ok A -> Forall (fun n => fst n = LError) l ->
  on_stderr E argv l (shown (is_quiet argv) (dump_basic_info E argv ++ l)).
Proof.
  intros P F. destruct (accepted T Y spot f stdin coin argv A P) as (g & G & GF & _).
  assert (AL : asks argv (level_of argv)) by (apply asks_level; rewrite GF; exact G).
  assert (SA : forall q l1 l2, shown q (l1 ++ l2) = shown q l1 ++ shown q l2) by (intros; apply filter_app).
  assert (SL : forall q, shown q l = l).
  { intros q. induction F as [|[v t] l' H F' IH]; auto. cbn [fst] in H. subst v. exact (f_equal (cons (LError, t)) IH). }
  rewrite SA, SL. unfold level_of in AL. destruct (is_quiet argv).
  - right. split; [inversion AL; assumption|].
    assert (SC : forall l0, calm l0 -> shown true l0 = []).
    { induction l0 as [|[lv t] l0 IH]; intros H; auto. destruct lv; cbn; [apply IH; intros m Hm; apply (H m); right; auto|].
      exfalso. apply (H t). left. reflexivity. }
    rewrite (SC _ (calm_header E argv)). reflexivity.
  - left. split; [destruct (existsb (fun a => is_name a "--verbose") (general_flags argv)); inversion AL; assumption|].
    reflexivity.
Qed.
Lemma died_errors m : Forall (fun n => fst n = LError) (died trace m).
Proof. repeat constructor. Qed.

Lemma written o bytes : exists l r f', write_said trace why cap room pol opens pieces f o bytes = (l, (r, f')) /\
  Forall (fun n => fst n = LError) l /\ stored o bytes (f o) opens l r (f' o) /\ (forall p, p <> o -> f' p = f p) /\
  (opens = true -> length bytes <= room -> forall p, f' p = write f o bytes p).
Proof.
  unfold write_said. destruct (write_to_archive cap room pol opens f o (pieces bytes)) as [r f'] eqn:W.
  pose proof (C72_archive _ _ _ _ _ _ _ _ _ W) as H. destruct opens.
  - destruct H as (H1 & H2 & H3 & H4 & H5). rewrite HP in *.
    assert (EQ : length bytes <= room -> forall p, f' p = write f o bytes p).
    { intros L p. destruct (list_eq_dec ascii_dec p o) as [->|NE]; [|rewrite write_other by auto; auto].
      rewrite write_same, H2, firstn_all2 by auto. reflexivity. }
    destruct (le_lt_dec (length bytes) room) as [L|L].
    + rewrite (H5 L). exists [], (Ok tt), f'. split; [reflexivity|]. split; [constructor|]. split; [|split; auto].
      rewrite H2, firstn_all2 by auto. constructor. auto.
    + destruct H3 as [->| ->].
      * exists [], (Ok tt), f'. split; [reflexivity|]. split; [constructor|]. split; [|split; auto].
        rewrite H2. constructor. specialize (H4 eq_refl). lia.
      * exists ((LError, why) :: died trace (lit "Unable to write into archive: " ++ o)), (Fail FExit), f'.
        split; [reflexivity|]. split; [repeat constructor|]. split; [|split; auto]. rewrite H2. constructor. auto.
  - destruct H as (-> & H). exists [], (Fail FAssert), f'. split; [reflexivity|]. split; [constructor|]. split; [|split; [auto|discriminate]].
    rewrite H. constructor.
Qed.

(** genkey: the key is stored; or the error names the file; or what is missing fits into the buffer and nothing is said; or the file cannot be
    opened.  With room enough it is the command of C51. *)
Theorem C85_genkey argv o : command_line argv ["genkey"%string] [("--out"%string, Some o)] [] ->
  exists s l r f', main_disk argv = Some (s, (r, f')) /\ on_stderr E argv l s /\
    stored o (c_skey T Y) (f o) opens l r (f' o) /\ (forall p, p <> o -> f' p = f p) /\
    (opens = true -> length (c_skey T Y) <= room -> exists f2, main T Y spot f stdin coin argv = Ok (Writes f2) /\ forall p, f' p = f2 p).
Proof.
  intros C. assert (P : exists A, parse f argv = Ok A /\ a_type A = GENKEY /\ a_text A Foutput = Some o).
  { eexists. split; [fore genkey; reflexivity|split; reflexivity]. }
  destruct P as (A & P & TY & TO). destruct (written o (c_skey T Y)) as (l & r & f' & W & F & S & O & R).
  exists (shown (is_quiet argv) (dump_basic_info E argv ++ l)), l, r, f'.
  split; [unfold KeyDiskModel.main_disk, dispatch_disk, genkey_disk_said; rewrite P, TY, TO, W; reflexivity|].
  split; [apply (seen_errors argv A); auto|]. split; [exact S|]. split; [exact O|].
  intros O1 L. exists (write f o (c_skey T Y)). split; [|apply R; auto].
  unfold main, dispatch. rewrite P. cbn [bind]. rewrite TY, TO. reflexivity.
Qed.

(** genbkey: the same for a file with a secret key; any other file is refused and nothing is touched. *)
Theorem C85_genbkey argv k o : command_line argv ["genbkey"%string] [("--key"%string, Some k); ("--out"%string, Some o)] [] -> readable f k ->
  exists s l r f', main_disk argv = Some (s, (r, f')) /\ on_stderr E argv l s /\ (forall p, p <> o -> f' p = f p) /\
    (holds_key T Y f k -> stored o (c_bkey T Y) (f o) opens l r (f' o) /\
       (opens = true -> length (c_bkey T Y) <= room -> exists f2, main T Y spot f stdin coin argv = Ok (Writes f2) /\ forall p, f' p = f2 p)) /\
    (~ holds_key T Y f k -> l = died trace (lit "Invalid archive: " ++ k) /\ r = Fail FExit /\ f' o = f o /\
       main T Y spot f stdin coin argv = Fail FExit).
Proof.
  intros C RK. assert (P : exists A, parse f argv = Ok A /\ a_type A = GENBKEY /\ a_text A Fskey = Some k /\ a_text A Foutput = Some o).
  { reads. eexists. split; [fore genbkey; known; reflexivity|repeat split; reflexivity]. }
  destruct P as (A & P & TY & TK & TO).
  assert (M : forall x, do_genbkey T Y f k o = x -> main T Y spot f stdin coin argv = writes x).
  { intros x <-. unfold main, dispatch. rewrite P. cbn [bind]. rewrite TY, TK, TO. reflexivity. }
  destruct (key_dec T Y f k RK) as [K|K].
  - destruct (written o (c_bkey T Y)) as (l & r & f' & W & F & S & O & R).
    exists (shown (is_quiet argv) (dump_basic_info E argv ++ l)), l, r, f'.
    split; [unfold KeyDiskModel.main_disk, dispatch_disk, genbkey_disk_said; rewrite P, TY, TK, TO, (key_good T Y f k K), W; reflexivity|].
    split; [apply (seen_errors argv A); auto|]. split; [exact O|]. split; [|contradiction]. intros _. split; [exact S|].
    intros O1 L. exists (write f o (c_bkey T Y)). split; [|apply R; auto].
    erewrite M; [|unfold do_genbkey; rewrite (key_good T Y f k K); reflexivity]. reflexivity.
  - exists (shown (is_quiet argv) (dump_basic_info E argv ++ died trace (lit "Invalid archive: " ++ k))), (died trace (lit "Invalid archive: " ++ k)), (Fail FExit), f.
    split; [unfold KeyDiskModel.main_disk, dispatch_disk, genbkey_disk_said; rewrite P, TY, TK, TO, (key_bad T Y f k RK K); reflexivity|].
    split; [apply (seen_errors argv A); auto using died_errors|]. split; [auto|]. split; [contradiction|]. intros _. repeat split.
    erewrite M; [|unfold do_genbkey; rewrite (key_bad T Y f k RK K); reflexivity]. reflexivity.
Qed.

(** enc: with a secret key nothing is ever logged, and the program does not exit with an error of its own: a write that fails is an assertion.
    In the file is a beginning of the ciphertexts; after a success at most a buffer full is missing. *)
Theorem C85_enc argv k i o t n bytes :
  command_line argv ["enc"%string] [("--ap"%string, Some t); ("--key"%string, Some k); ("--in"%string, Some i); ("--out"%string, Some o)] [] ->
  readable f k -> f i = Some bytes -> i <> o -> positive t n ->
  let out := enc_output T Y coin (bits_passed 0 n bytes) in
  exists s l r f', main_disk argv = Some (s, (r, f')) /\ on_stderr E argv l s /\ (forall p, p <> o -> f' p = f p) /\
    (holds_key T Y f k -> l = [] /\ (r = Ok tt \/ r = Fail FAssert) /\
       (if opens then exists m, f' o = Some (firstn m out) else r = Fail FAssert /\ f' o = f o) /\
       (r = Ok tt -> f' o = Some (firstn room out) /\ length out - room <= cap) /\
       (opens = true -> length out <= room ->
          match main T Y spot f stdin coin argv with
          | Ok (Writes f2) => r = Ok tt /\ forall p, f' p = f2 p
          | Fail e => r = Fail e
          | _ => False
          end)) /\
    (~ holds_key T Y f k -> l = died trace (lit "Invalid archive: " ++ k) /\ r = Fail FExit /\ f' o = f o /\
       main T Y spot f stdin coin argv = Fail FExit).
Proof.
  intros C RK FI NI HN out.
  assert (P : exists A, parse f argv = Ok A /\ a_type A = ENC /\ a_text A Fskey = Some k /\ a_text A Finput = Some i /\ a_text A Foutput = Some o /\ a_num A Fnum_ap = Some n).
  { reads. eexists. split; [fore enc; known; reflexivity|repeat split; reflexivity]. }
  destruct P as (A & P & TY & TK & TI & TO & TN).
  assert (M : forall x, do_enc T Y f k i o n coin = x -> main T Y spot f stdin coin argv = writes x).
  { intros x <-. unfold main, dispatch. rewrite P. cbn [bind]. rewrite TY, TK, TI, TO, TN. reflexivity. }
  destruct (enc_disk cap room pol opens T Y f k i o n coin) as [r f'] eqn:ED.
  assert (MD : forall l, fst (archive_said trace k (read_skey T Y f k)) = l ->
    main_disk argv = Some (shown (is_quiet argv) (dump_basic_info E argv ++ l), (r, f'))).
  { intros l <-. unfold KeyDiskModel.main_disk, dispatch_disk, enc_disk_said. rewrite P, TY, TK, TI, TO, TN, ED. reflexivity. }
  destruct (key_dec T Y f k RK) as [K|K].
  - exists (shown (is_quiet argv) (dump_basic_info E argv ++ [])), [], r, f'.
    split; [apply MD; rewrite (key_good T Y f k K); reflexivity|]. split; [apply (seen_errors argv A); auto|].
    assert (OI : open_file (write f o []) i = Ok bytes) by (unfold open_file; rewrite write_other, FI by auto; reflexivity).
    assert (EA : each_input_bit bytes n (fun s _ => Ok s) tt = Ok tt \/ each_input_bit bytes n (fun (s : unit) _ => Ok s) tt = Fail FAssert).
    { unfold each_input_bit. generalize 0 as rest. clear. induction bytes as [|v bytes IH]; intros rest; cbn [each_input_bit_from].
      - unfold assert_. destruct (rest =? 0); auto.
      - destruct (byte_bits 8 v (if rest =? 0 then n else rest)) as [bs rest'].
        assert (FM : foldM (fun (s : unit) (_ : bool) => Ok s) bs tt = Ok tt) by (induction bs; cbn; auto). rewrite FM. cbn [bind]. apply IH. }
    assert (X : (forall p, p <> o -> f' p = f p) /\ (r = Ok tt \/ r = Fail FAssert) /\
       (if opens then exists m, f' o = Some (firstn m out) else r = Fail FAssert /\ f' o = f o) /\
       (r = Ok tt -> f' o = Some (firstn room out) /\ length out - room <= cap)).
    { unfold enc_disk in ED. rewrite (key_good T Y f k K) in ED. destruct opens; cbn [negb] in ED.
      2:{ injection ED as <- <-. repeat split; auto; discriminate. }
      rewrite OI in ED. destruct (put_all cap room pol FAssert (mkOfile [] []) (doubles T Y coin (bits_passed 0 n bytes))) as [o1 r1] eqn:EP.
      pose proof (whole cap room pol FAssert _ o1 r1 EP) as WH. cbv zeta in WH. rewrite doubles_output in WH. fold out in WH.
      destruct WH as [(-> & W1 & W2 & (m & W3) & _)|(-> & W1 & _ & _)].
      - destruct EA as [EA|EA]; rewrite EA in ED; injection ED as <- <-;
          (split; [intros p NP; apply write_other; auto|]); (split; [auto|]); rewrite write_same.
        + split; [exists room; congruence|]. intros _. split; [congruence|exact W2].
        + split; [exists m; congruence|discriminate].
      - injection ED as <- <-. split; [intros p NP; apply write_other; auto|]. split; [auto|]. rewrite write_same.
        split; [exists room; congruence|discriminate]. }
    destruct X as (X1 & X2 & X3 & X4). split; [exact X1|]. split; [|contradiction]. intros _. do 4 (split; [auto|]).
    intros -> L. pose proof (C72_enc_room T Y cap room pol f k i o n coin bytes FI NI L) as CR. rewrite ED in CR.
    erewrite M by reflexivity. destruct (do_enc T Y f k i o n coin) as [f2|e]; exact CR.
  - exists (shown (is_quiet argv) (dump_basic_info E argv ++ died trace (lit "Invalid archive: " ++ k))), (died trace (lit "Invalid archive: " ++ k)), r, f'.
    split; [apply MD; rewrite (key_bad T Y f k RK K); reflexivity|]. split; [apply (seen_errors argv A); auto using died_errors|].
    unfold enc_disk in ED. rewrite (key_bad T Y f k RK K) in ED. injection ED as <- <-.
    split; [auto|]. split; [contradiction|]. intros _. repeat split.
    erewrite M; [|unfold do_enc; rewrite (key_bad T Y f k RK K); reflexivity]. reflexivity.
Qed.

(** A key that did not fit, whether or not this was reported: the next command that reads it names it. *)
Theorem C85_next_skey o l r old f' : stored o (c_skey T Y) old true l r (f' o) -> room < length (c_skey T Y) ->
  (forall m, m < length (c_skey T Y) -> c_read_skey T Y (firstn m (c_skey T Y)) = false) ->
  forall argv c opts, command_line argv c opts [] ->
    (exists b, c = ["genbkey"%string] /\ opts = [("--key"%string, Some o); ("--out"%string, Some b)]) \/
    (exists i out t n, c = ["enc"%string] /\ opts = [("--ap"%string, Some t); ("--key"%string, Some o); ("--in"%string, Some i); ("--out"%string, Some out)] /\
       readable f' i /\ positive t n) \/
    (exists i, c = ["dec"%string] /\ opts = [("--key"%string, Some o); ("--in"%string, Some i)] /\ readable f' i) ->
  forall stdin' coin', main_said trace T Y spot E f' stdin' coin' argv = (dump_basic_info E argv ++ died trace (lit "Invalid archive: " ++ o), Fail FExit).
Proof.
  clear HP pieces pol opens. intros S L HR argv c opts C W stdin' coin'.
  assert (FO : f' o = Some (firstn room (c_skey T Y))) by (inversion S; auto; lia).
  assert (RO : readable f' o) by (unfold readable; congruence).
  assert (NK : ~ holds_key T Y f' o) by (intros (b & E1 & E2); rewrite FO in E1; injection E1 as <-; rewrite HR in E2 by auto; discriminate).
  assert (NT : notes trace T Y f' stdin' c opts [] (died trace (lit "Invalid archive: " ++ o))).
  { destruct W as [(b & -> & ->)|[(i & out & t & n & -> & -> & RI & PN)|(i & -> & -> & RI)]]; econstructor; eauto. }
  pose proof (C79_notes trace T Y spot E f' stdin' coin' argv c opts [] _ C NT) as N.
  assert (NE : fst (main_said trace T Y spot E f' stdin' coin' argv) <> []) by (rewrite N; discriminate).
  destruct (C79_exit trace T Y spot E f' stdin' coin' argv NE) as [X _].
  rewrite <- (C79_same trace T Y spot E f' stdin' coin' argv) in X.
  destruct (main_said trace T Y spot E f' stdin' coin' argv) as [l1 r1]. cbn [fst snd] in *. subst l1. f_equal. apply X.
  eexists. apply in_or_app. right. left. reflexivity.
Qed.
Theorem C85_next_bkey o l r old f' : stored o (c_bkey T Y) old true l r (f' o) -> room < length (c_bkey T Y) ->
  (forall m, m < length (c_bkey T Y) -> c_read_bkey T Y (firstn m (c_bkey T Y)) = None) ->
  0 < c_words T Y -> (Z.of_nat (c_words T Y * 8) < 2 ^ 63)%Z ->
  forall argv out spec cipher sb g n bytes, run_line f' argv o out spec cipher ->
    f' spec = Some sb -> from_file f' spec = Ok g -> f' cipher = Some bytes -> ciphertexts (c_words T Y) n bytes ->
    (Z.of_nat (n * (c_words T Y * 8)) < 2 ^ 64)%Z ->
    forall stdin' coin', exists skips, (skips = [] \/ skipped (LogSpec.lines_of sb) skips) /\
      gives_up trace T Y spot E f' stdin' coin' argv (header E argv ++ map skip_line skips ++ error trace (lit "Invalid archive: " ++ o)).
Proof.
  clear HP pieces pol opens. intros S L HR HW HB argv out spec cipher sb g n bytes RL FS EG FC BC H64 stdin' coin'.
  assert (FO : f' o = Some (firstn room (c_bkey T Y))) by (inversion S; auto; lia).
  eapply (C82_bad_key trace T Y spot E f' stdin' coin'); eauto.
Qed.
End KeyDisk.
(** * The hypotheses are met: keys of three bytes and a file that can hold two. *)
Definition ex_Y3 : crypto ex_T := mkCrypto ex_T 1
  (fun b : bool => [if b then 1 else 0]%N) (fun l => match l with [1%N] => true | _ => false end)
  (fun _ b => b) ex_s1 [7; 7; 9]%N [8; 8; 9]%N
  (fun l => match l with [7%N; 7%N; 9%N] => true | _ => false end) (fun l => match l with [8%N; 8%N; 9%N] => Some (true, true) | _ => None end).
Definition ex_genkey : list text := map lit ["--quiet"; "genkey"; "--out"; "o"]%string.
Definition ex_each (l : list N) : list (list N) := map (fun b => [b]) l.
Definition ex_full (cap : nat) (opens : bool) (argv : list text) :=
  main_disk (lit "trace") (lit "Failed to write") cap 2 (fun _ => 0) opens ex_each ex_T ex_Y3 ex_E ex_f 0 argv.
Example C85_nonvacuous :
  command_line ex_genkey ["genkey"%string] [("--out"%string, Some (lit "o"))] [] /\ (forall l, concat (ex_each l) = l) /\
  match ex_full 0 true ex_genkey with
  | Some (s, (r, f')) => s = [(LError, lit "Failed to write"); (LError, lit "Unable to write into archive: o"); (LError, lit "Preparing backtrace..."); (LError, lit "trace")] /\
                         r = Fail FExit /\ f' (lit "o") = Some [7; 7]%N
  | None => False
  end /\
  match ex_full 5 true ex_genkey with Some (s, (r, f')) => s = [] /\ r = Ok tt /\ f' (lit "o") = Some [7; 7]%N | None => False end /\
  match ex_full 5 false ex_genkey with Some (s, (r, f')) => s = [] /\ r = Fail FAssert /\ f' (lit "o") = None | None => False end.
Proof.
  split; [|split].
  - ex_line [lit "--quiet"] [Opt "--out" (lit "o")].
  - intros l. unfold ex_each. induction l as [|b l IH]; [reflexivity|]. cbn. f_equal. exact IH.
  - vm_compute. auto 10.
Qed.
Definition ex_genbkey : list text := map lit ["genbkey"; "--key"; "k"; "--out"; "o"]%string.
Definition ex_key3 : fs := write ex_f (lit "k") [7; 7; 9]%N.
Example C85_genbkey_nonvacuous :
  command_line ex_genbkey ["genbkey"%string] [("--key"%string, Some (lit "k")); ("--out"%string, Some (lit "o"))] [] /\
  readable ex_key3 (lit "k") /\ holds_key ex_T ex_Y3 ex_key3 (lit "k") /\ readable ex_f (lit "k") /\ ~ holds_key ex_T ex_Y3 ex_f (lit "k").
Proof.
  split; [ex_line (@nil text) [Opt "--key" (lit "k"); Opt "--out" (lit "o")]|].
  split; [vm_compute; discriminate|]. split; [eexists; split; vm_compute; reflexivity|]. split; [vm_compute; discriminate|].
  intros (b & E1 & E2). vm_compute in E1. injection E1 as <-. discriminate.
Qed.
Definition ex_enc : list text := map lit ["--quiet"; "enc"; "--ap"; "2"; "--key"; "k"; "--in"; "i"; "--out"; "o"]%string.
Example C85_enc_nonvacuous :
  command_line ex_enc ["enc"%string] [("--ap"%string, Some (lit "2")); ("--key"%string, Some (lit "k")); ("--in"%string, Some (lit "i")); ("--out"%string, Some (lit "o"))] [] /\
  holds_key ex_T ex_Y3 ex_key3 (lit "k") /\ positive (lit "2") 2 /\
  match main_disk (lit "trace") (lit "Failed to write") 0 20 (fun _ => 0) true ex_each ex_T ex_Y3 ex_E ex_key3 0 ex_enc with
  | Some (s, (r, f')) => s = [] /\ r = Fail FAssert /\ option_map (@length N) (f' (lit "o")) = Some 20
  | None => False
  end.
Proof.
  split; [ex_line [lit "--quiet"] [Opt "--ap" (lit "2"); Opt "--key" (lit "k"); Opt "--in" (lit "i"); Opt "--out" (lit "o")]|].
  split; [eexists; split; vm_compute; reflexivity|]. split; [apply ex_two|]. vm_compute. auto.
Qed.
(** The key of the second run of C85_nonvacuous, of which nobody knows that it is incomplete: dec names it. *)
Example C85_next_nonvacuous spot stdin coin :
  let f' := write ex_f (lit "o") [7; 7]%N in
  let argv := map lit ["dec"; "--key"; "o"; "--in"; "e"]%string in
  main_said (lit "trace") ex_T ex_Y3 spot ex_E f' stdin coin argv = (dump_basic_info ex_E argv ++ died (lit "trace") (lit "Invalid archive: o"), Fail FExit).
Proof.
  cbv zeta.
  refine (C85_next_skey (lit "trace") [] 5 2 ex_T ex_Y3 spot ex_E (lit "o") [] (Ok tt) None (write ex_f (lit "o") [7; 7]%N) _ _ _
            (map lit ["dec"; "--key"; "o"; "--in"; "e"]%string) ["dec"%string] _ _ _ stdin coin).
  - apply (stored_unnoticed _ _ 5 2 (lit "o") (c_skey ex_T ex_Y3)). cbn. lia.
  - cbn. lia.
  - intros [|[|[|m]]] H; try reflexivity. cbn in H. lia.
  - ex_line (@nil text) [Opt "--key" (lit "o"); Opt "--in" (lit "e")].
  - right. right. exists (lit "e"). split; [reflexivity|]. split; [reflexivity|]. vm_compute. discriminate.
Qed.
(** An evaluation key that did not fit: the offline run names it. *)
Definition ex_cut : fs := write ex_logf (lit "b") [8; 8]%N.
Example C85_next_bkey_nonvacuous spot stdin coin : exists skips,
  gives_up (lit "trace") ex_T ex_Y3 spot ex_E ex_cut stdin coin (ex_offline [lit "--quiet"])
    (header ex_E (ex_offline [lit "--quiet"]) ++ map skip_line skips ++ error (lit "trace") (lit "Invalid archive: b")).
Proof.
  destruct ex_two as (P2 & P3).
  assert (B : ex_cut (lit "c") = Some (map N.of_nat (seq 200 24)) /\ from_file ex_cut (lit "s") = Ok ex_g) by (split; vm_compute; reflexivity).
  destruct B as (B3 & B4). assert (B5 : exists sb, ex_cut (lit "s") = Some sb) by (eexists; reflexivity). destruct B5 as (sb & B5).
  destruct (C85_next_bkey (lit "trace") [] 5 2 ex_T ex_Y3 spot ex_E (lit "b") [] (Ok tt) None ex_cut) with
    (argv := ex_offline [lit "--quiet"]) (out := lit "o") (spec := lit "s") (cipher := lit "c") (sb := sb) (g := ex_g) (n := 3)
    (bytes := map N.of_nat (seq 200 24)) (stdin' := stdin) (coin' := coin) as (skips & _ & G); auto; try (cbn; lia).
  - apply (stored_unnoticed _ _ 5 2 (lit "b") (c_bkey ex_T ex_Y3)). cbn. lia.
  - intros [|[|[|m]]] H; try reflexivity. cbn in H. lia.
  - eapply (line_offline _ _ _ _ _ _ None); [exact P2|exact I|].
    ex_line [lit "--quiet"] (ex_common ++ [Opt "--bootstrapping-freq" (lit "2")]).
  - split; [|reflexivity]. apply Forall_forall. intros x HX. apply in_map_iff in HX as (y & <- & HY). apply in_seq in HY. cbn in HY. lia.
  - exists skips. exact G.
Qed.
Print Assumptions C85_genkey.
Print Assumptions C85_genbkey.
Print Assumptions C85_enc.
Print Assumptions C85_next_skey.
Print Assumptions C85_next_bkey.
