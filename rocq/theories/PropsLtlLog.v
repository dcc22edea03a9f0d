(** C84: what ltl2spec logs with --verbose, and how it names the transition at which it fails. *)
From Coq Require Import String.
From Coq Require Import List Arith Bool NArith ZArith Ascii Lia.
Import ListNotations.
From Verif Require Import Base BaseFacts GraphModel Spec TextModel TextClaims DotModel TorusModel CmdModel LtlModel LtlSpec PropsLtl MainModel MainSpec MainFacts MainClaims
  PropsMain MsgModel SayModel SaySpec SayFacts SayClaims LogModel LogSpec LogFacts StderrModel StderrSpec PropsStderr LtlLogModel LtlLogSpec LtlLogFacts.
Local Open Scope list_scope.

(** The messages change nothing. *)
Theorem C84_same M n all : snd (do_ltl2spec_traced M n all) = do_ltl2spec M n all.
Proof. apply ltl2spec_same. Qed.

(** Whatever the monitor: the log runs through it state by state and transition by transition, or it stops at a transition and the
    command fails.  Every transition whose end is logged had a condition that can be met, with known propositions. *)
Theorem C84_progress M n all log r : do_ltl2spec_traced M n all = (log, r) ->
  complete M n log \/ exists s e f, stops_at M n s e log /\ r = Fail f.
Proof.
  unfold do_ltl2spec_traced. destruct (tuple_cases M n all) as [(t & l & -> & C)|(f & l & s & b & e & la & D1 & D2 & -> & ST & _)]; cbn [next].
  - destruct t as [[i fs] D]. cbn [silent]. intros [= <- _]. left. rewrite app_nil_r. exact C.
  - intros [= <- <-]. right. eauto.
Qed.

(** With a monitor over the propositions of the command line the log is complete and a specification is printed. *)
Theorem C84_complete M n all log r : monitor_ok M n -> do_ltl2spec_traced M n all = (log, r) -> complete M n log /\ exists out, r = Ok out.
Proof.
  intros HM HE. assert (K : exists out, r = Ok out).
  { pose proof (C84_same M n all) as S. rewrite HE in S. cbn [snd] in S. subst r. destruct (C42_ltl M n all HM) as (g & EG & W & _).
    unfold do_ltl2spec. rewrite EG. cbn [bind]. destruct (dump_ok g W) as (t & Et). eauto. }
  split; [|exact K]. destruct (C84_progress M n all log r HE) as [C|(s & e & f & _ & EF)]; [exact C|]. destruct K as (out & ->). discriminate.
Qed.

(** A formula with propositions beyond those of the command line: the last transition that the log names is the first one whose
    condition depends on such a proposition. *)
Theorem C84_blame M m n all log r : monitor_ok M m -> n <= m -> (forall q e, q < m_ns M -> In e (m_out M q) -> reduced (snd e)) ->
  do_ltl2spec_traced M n all = (log, r) ->
  ((forall q e, q < m_ns M -> In e (m_out M q) -> fit M n (snd e)) -> complete M n log /\ exists out, r = Ok out) /\
  (forall s before e later, s < m_ns M -> m_out M s = before ++ e :: later ->
     (forall q x, q < s -> In x (m_out M q) -> fit M n (snd x)) -> Forall (fun x => fit M n (snd x)) before -> ~ fit M n (snd e) ->
     stops_at M n s e log /\ exists f, r = Fail f).
Proof.
  intros HM L RED HE. split.
  - intros FT. apply (C84_complete M n all log r); auto.
    assert (ORD : forall q q' c, q < m_ns M -> In (q', c) (m_out M q) -> ordered M n 0 c).
    { intros q q' c Hq HI. destruct (FT q (q', c) Hq HI) as [_ TT]. cbn [snd] in TT.
      eapply (ordered_fit M M m n c); auto; [apply (mo_vars _ _ HM)|eapply (mo_ordered _ _ HM); eauto|apply (RED q (q', c)); auto]. }
    constructor; [apply (mo_init _ _ HM)|apply (mo_dst _ _ HM)|intros i j v Hi Hj; apply (mo_vars _ _ HM); lia|exact ORD|].
    intros q q' c Hq HI. destruct (mo_sat _ _ HM q q' c Hq HI) as (val & LV & SV). exists (firstn n val).
    split; [rewrite firstn_length; lia|]. eapply (sat_fit M M m n c val); eauto. apply (mo_vars _ _ HM).
  - intros s before e later Hs EO FQ FB NF. revert HE. unfold do_ltl2spec_traced.
    destruct (tuple_cases M n all) as [(t & l & -> & C)|(f & l & s' & b & e' & la & D1 & D2 & -> & ST & Hs' & EO' & FB' & FQ' & E1 & E2 & E3)]; cbn [next].
    + intros _. exfalso. apply NF. destruct C as (parts & F & _).
      assert (I : In s (seq 0 (m_ns M))) by (apply in_seq; lia).
      assert (SD : exists p, state_done M n s p).
      { clear - F I. induction F as [|a p l ps H F IH]; [destruct I|]. destruct I as [<-|I]; eauto. }
      destruct SD as (p & ps & F2 & _). rewrite EO in F2. apply Forall2_app_inv_l in F2 as (p1 & p2 & _ & F2 & _).
      inversion F2 as [|? ? ? ? H _]; subst. apply H.
    + intros [= <- <-]. split; [|eauto].
      pose proof (stop_unfit M m n HM L RED s' b e' la D1 D2 f Hs' EO' FB' FQ' E1 E2 E3) as NF'.
      assert (K : s' = s).
      { destruct (lt_eq_lt_dec s' s) as [[K|K]|K]; [|exact K|].
        - exfalso. apply NF'. apply (FQ s' e' K). rewrite EO'. apply in_app_iff. right. left. reflexivity.
        - exfalso. apply NF. apply (FQ' s e K). rewrite EO. apply in_app_iff. right. left. reflexivity. }
      subst s'. assert (KE : e' = e); [|subst e'; exact ST]. rewrite EO in EO'. clear - EO' FB FB' NF NF'.
      revert b EO' FB'. induction before as [|x before IH]; intros [|y b] EQ FB'; cbn [app] in EQ; injection EQ as EQ1 EQ2.
      * auto.
      * subst y. exfalso. apply NF. inversion FB'; auto.
      * subst x. exfalso. apply NF'. inversion FB; auto.
      * inversion FB; inversion FB'; subst. eapply IH; eauto.
Qed.

(** From the command line on: the log is shown with --verbose only (and not with --quiet), after the header; what is printed, and whether
    it is, is the same at every level. *)
Theorem C84_main T Y spot E f stdin coin argv fml t n all :
  command_line argv ["ltl2spec"%string] (flagged "--make-all-live-states-final" all) [fml; t] -> number t n ->
  exists v, asks argv v /\
    match parses spot fml with
    | true => forall log r, do_ltl2spec_traced (spot fml n) n all = (log, r) ->
        main_ltl spot E f argv = (visible v (header E argv ++ map (fun m => (Debug, m)) log), Some (prints r)) /\
        main T Y spot f stdin coin argv = prints r
    | false => main_ltl spot E f argv = (visible v (header E argv), Some (Fail FAssert)) /\ main T Y spot f stdin coin argv = Fail FAssert
    end.
Proof.
  intros C HN. apply number_read in HN.
  assert (P : exists A, parse f argv = Ok A /\ a_type A = LTL2SPEC /\ a_text A Fformula = Some fml /\ a_num A Fnum_vars = Some n /\
                a_flag A Fmake_all_live_states_final = all).
  { destruct all; (eexists; split;
      [rewrite (command_parse f _ _ _ _ ltl2spec C);
        [cbn; rewrite HN; cbn; reflexivity|reflexivity|apply entry_okb_ok; reflexivity|
         let E0 := fresh in intros ? E0; cbn in E0; injection E0 as <-; cbn; repeat constructor; cbn; intuition discriminate]
      |repeat split; cbn; rewrite Nnat.Nat2N.id; reflexivity]). }
  destruct P as (A & P & TY & TF & TN & TA).
  destruct (accepted T Y spot f stdin coin argv A P) as (g & G & GF & _).
  exists (level_of argv). split; [apply asks_level; rewrite GF; exact G|].
  unfold main_ltl, main, dispatch. rewrite P. cbn [bind]. rewrite TY, TF, TN, TA. cbn [value bind silent next].
  unfold ltl_to_monitor, assert_. destruct (parses spot fml); cbn [bind next].
  - intros log r HE. pose proof (C84_same (spot fml n) n all) as S. rewrite HE in *. cbn [snd] in S.
    rewrite <- S. destruct r as [out|e]; cbn [next silent prints bind fst snd app]; rewrite header_messages, !passed_visible, visible_app, ?app_nil_r; auto.
  - rewrite header_messages, !passed_visible. cbn [map]. rewrite <- visible_app, app_nil_r. split; reflexivity.
Qed.

(** What is shown at each level. *)
Theorem C84_shown E argv log : let all := header E argv ++ map (fun m => (Debug, m)) log in
  visible VERBOSE all = all /\ visible NORMAL all = header E argv /\ visible QUIET all = [].
Proof.
  cbv zeta. rewrite !visible_app.
  assert (HH : forall v (b : bool), enabled v Info = b -> visible v (header E argv) = if b then header E argv else []).
  { intros v b EB. rewrite <- passed_visible. unfold header. generalize (dump_basic_info E argv) as l. destruct b.
    - induction l as [|x l IH]; cbn; auto. rewrite EB. f_equal. exact IH.
    - induction l as [|x l IH]; cbn; auto. rewrite EB. exact IH. }
  assert (HD : forall v (b : bool), enabled v Debug = b -> visible v (map (fun m : text => (Debug, m)) log) = if b then map (fun m => (Debug, m)) log else []).
  { intros v b EB. rewrite <- passed_visible. destruct b.
    - induction log as [|x l IH]; cbn; auto. rewrite EB. f_equal. exact IH.
    - induction log as [|x l IH]; cbn; auto. rewrite EB. exact IH. }
  rewrite (HH VERBOSE true), (HH NORMAL true), (HH QUIET false), (HD VERBOSE true), (HD NORMAL false), (HD QUIET false) by reflexivity.
  rewrite app_nil_r. auto.
Qed.

(** Two propositions are asked for, and the second transition of state 1 depends on p2: the log ends there. *)
Definition ex_late : monitor :=
  {| m_ns := 2; m_init := 0;
     m_out := fun q => match q with
                       | 0 => [(1, BN 10 BF BT); (0, BN 10 BT BF)]
                       | 1 => [(0, BN 11 BF BT); (1, BN 11 (BN 12 BF BT) BF)]
                       | _ => []
                       end;
     m_var := fun i => Some (10 + i) |}.
Example C84_blame_nonvacuous :
  monitor_ok ex_late 3 /\ (forall q e, q < 2 -> In e (m_out ex_late q) -> reduced (snd e)) /\
  (forall x, In x (m_out ex_late 0) -> fit ex_late 2 (snd x)) /\ fit ex_late 2 (BN 11 BF BT) /\ ~ fit ex_late 2 (BN 11 (BN 12 BF BT) BF) /\
  do_ltl2spec_traced ex_late 2 false =
    (map lit ["0/2"; "0 1"; "3"; "0 1 END TABLE BEGIN"; "0 1 END TABLE END"; "0 0"; "2"; "1"; "5"; "0 0 END TABLE BEGIN"; "0 0 END TABLE END";
              "1/2"; "1 0"; "7"; "1 0 END TABLE BEGIN"; "1 0 END TABLE END"; "1 1"]%string, Fail FOutOfRange).
Proof.
  assert (T1 : forall v l h, fit ex_late 2 (BN v l h) -> forall u, tests (BN v l h) u -> u < 12).
  { intros v l h [_ F] u U. destruct (F u U) as (i & Hi & [= <-]). lia. }
  assert (FT : forall v, 10 <= v < 12 -> forall b : bool, fit ex_late 2 (BN v (if b then BT else BF) (if b then BF else BT))).
  { intros v Hv b. split.
    - destruct b; [apply hold_low|apply hold_high]; apply hold_true.
    - intros u U. inversion U as [? ? ? _|? ? ? ? U'|? ? ? ? U']; subst; [|destruct b; inversion U'|destruct b; inversion U'].
      exists (u - 10). split; [lia|]. cbn. f_equal. lia. }
  split; [|split; [|split; [|split; [|split]]]].
  - constructor.
    + cbn. lia.
    + intros [|[|q]] q' c _; cbn; intuition (try discriminate); repeat match goal with H : (_, _) = (_, _) |- _ => injection H as <- <- end; lia.
    + cbn. intros i j v _ _ [= <-] [= H]. lia.
    + intros [|[|q]] q' c _; cbn; intuition (try discriminate); repeat match goal with H : (_, _) = (_, _) |- _ => injection H as <- <- end;
        repeat first [apply ordered_true | apply ordered_false
                     | match goal with |- ordered _ _ _ (BN ?v _ _) => apply (ordered_node _ _ _ (v - 10)); [cbn; lia|reflexivity| |] end].
    + intros [|[|q]] q' c _; cbn [m_out ex_late In]; intuition (try discriminate);
        repeat match goal with H : (_, _) = (_, _) |- _ => injection H as <- <- end.
      * exists [true; false; false]. split; auto. apply (sat_high _ _ _ _ _ 0); auto. constructor.
      * exists [false; false; false]. split; auto. apply (sat_low _ _ _ _ _ 0); auto. constructor.
      * exists [false; true; false]. split; auto. apply (sat_high _ _ _ _ _ 1); auto. constructor.
      * exists [false; false; true]. split; auto. apply (sat_low _ _ _ _ _ 1); auto. apply (sat_high _ _ _ _ _ 2); auto. constructor.
  - intros [|[|q]] e Hq; [| |lia]; cbn; intros HI; repeat (destruct HI as [<-|HI]; [cbn; repeat split; discriminate|]); destruct HI.
  - cbn. intros x [<-|[<-|[]]]; cbn [snd]; [apply (FT 10 ltac:(lia) false)|apply (FT 10 ltac:(lia) true)].
  - apply (FT 11 ltac:(lia) false).
  - intros F. assert (K : 12 < 12); [|lia]. apply (T1 _ _ _ F). apply tests_low, tests_here. apply hold_high, hold_true.
  - vm_compute. reflexivity.
Qed.
(** A complete log, with shared nodes and skipped propositions; from the command line on. *)
Example C84_main_nonvacuous : exists log out,
  let argv := map lit ["--verbose"; "ltl2spec"; "G(p0 | !p1)"; "3"]%string in
  command_line argv ["ltl2spec"%string] (flagged "--make-all-live-states-final" false) [lit "G(p0 | !p1)"; lit "3"] /\ number (lit "3") 3 /\
  parses ex_spot (lit "G(p0 | !p1)") = true /\
  do_ltl2spec_traced (ex_spot (lit "G(p0 | !p1)") 3) 3 false = (log, Ok out) /\ complete ex_monitor 3 log /\
  log = map lit ["0/2"; "0 1"; "2"; "1"; "4"; "0 1 END TABLE BEGIN"; "0 1 END TABLE END"; "0 0"; "3"; "2"; "1"; "9"; "0 0 END TABLE BEGIN"; "0 0 END TABLE END";
                 "1/2"; "1 1"; "3"; "2"; "13"; "1 1 END TABLE BEGIN"; "1 1 END TABLE END"]%string.
Proof.
  eexists _, _. cbv zeta. split; [|split; [split; [reflexivity|lia]|split; [reflexivity|]]].
  - exists [lit "--verbose"], [Pos (lit "G(p0 | !p1)"); Pos (lit "3")].
    split; [split; [constructor; [auto|constructor]|constructor; [intros []|constructor]]|]. split; [reflexivity|]. split; [constructor|].
    split; [reflexivity|].
    apply Forall_cons; [|apply Forall_cons; [|apply Forall_nil]].
    all: split; [right; discriminate|]; intros c H; cbn in H; repeat (destruct H as [<-|H]; [discriminate|]); destruct H.
  - split; [vm_compute; reflexivity|]. split; [|vm_compute; reflexivity].
    eapply (C84_complete ex_monitor 3 false); [exact ex_monitor_ok|vm_compute; reflexivity].
Qed.

Print Assumptions C84_same.
Print Assumptions C84_progress.
Print Assumptions C84_complete.
Print Assumptions C84_blame.
Print Assumptions C84_main.
Print Assumptions C84_shown.
