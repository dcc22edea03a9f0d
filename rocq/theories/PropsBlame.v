(** C81: a run on ciphertexts exits with an error only after logging it, and a run that succeeds has logged none. *)
From Coq Require Import String.
From Coq Require Import List Arith Bool NArith ZArith Ascii Lia.
Import ListNotations.
From Verif Require Import Base BaseFacts GraphModel Spec TextModel DotModel BitsModel TorusModel RunnerModel ParModel StreamModel ClientModel CmdModel
  PropsRunner PropsCmd PropsServer MsgModel SayFacts LogModel LogSpec LogFacts PropsLog RefuseSpec RefuseFacts PropsRefuse BlameSpec BlameFacts.
Local Open Scope list_scope.

Section Blame.
Context (trace : text) (T : tfhe) (Y : crypto T) (v : verbosity).

Notation said_it := (fun w => blamed trace (fst w)).
Lemma accountable_ok f talk : body_of v said_it talk ([], f) -> accountable Y trace v f talk.
Proof.
  intros H. split; [intros ->; apply H; reflexivity|]. split; [intros; apply open_ne|].
  intros r w (kd & input & body & bytes & junk & s & t & -> & F & HJ & EO & M). cbn [body_of] in H.
  destruct (honest_run v said_it kd (c_words T Y) s body ([], f) t r w H (Forall_nil _) M) as (A & B & C).
  split; [exact A|]. split; [exact B|]. intros -> sv m HI. unfold seen_at in C. rewrite Forall_forall in C.
  specialize (C _ HI). destruct sv; [discriminate C..|reflexivity].
Qed.

Theorem C81_exit f :
  (forall spec input output interval bkey sanitize,
     accountable Y trace v f (do_run_offline_log trace T Y log_store (log_says v) f ([], f) spec input output interval bkey sanitize)) /\
  (forall spec input output dir freq interval spec_reversed bkey sanitize,
     accountable Y trace v f (do_run_reverse_log trace T Y log_store (log_says v) f ([], f) spec input output dir freq interval spec_reversed bkey sanitize)) /\
  (forall spec input output dir freq queue_size interval bkey depth debug sanitize,
     accountable Y trace v f (do_run_flut_log trace T Y log_store (log_says v) f ([], f) spec input output dir freq queue_size interval bkey depth debug sanitize)) /\
  (forall spec input output queue_size bkey sanitize,
     accountable Y trace v f (do_run_block_log trace T Y log_store (log_says v) f ([], f) spec input output queue_size bkey sanitize)).
Proof.
  assert (A : any_blame trace said_it) by (intros l f' H; exact H).
  pose proof (store_reports v said_it (fun _ _ => True)) as S.
  split; [|split; [|split]]; intros *; apply accountable_ok;
    [eapply honest_offline with (P := fun _ _ => True)|eapply honest_reverse with (P := fun _ _ => True)|eapply honest_flut with (P := fun _ _ => True)|eapply honest_block with (P := fun _ _ => True)]; eauto using no_error_nil.
Qed.
End Blame.

(** An execution: with a file that is no bootstrapping key, offline reports it and exits. *)
Example C81_nonvacuous trace : 
  let talk := do_run_offline_log trace ex_T ex_Y log_store (log_says QUIET) ex_badkey ([], ex_badkey) ["s"%char] ["c"%char] ["o"%char] 2 ["b"%char] false in
  log_over ex_Y talk ex_badkey (Fail FExit) (error trace (lit "Invalid archive: b"), ex_badkey).
Proof.
  assert (O : exists s, open_stream Reversed 1 (map N.of_nat (seq 200 24)) [0%N] [] = Ok s) by (eexists; vm_compute; reflexivity).
  destruct O as (s & O).
  assert (E : read_bkey ex_T ex_Y ex_badkey ["b"%char] = Fail FExit) by (vm_compute; reflexivity).
  eexists Reversed, ["c"%char], _, _, [0%N], s, s. split; [reflexivity|]. split; [vm_compute; reflexivity|]. split; [reflexivity|]. split; [exact O|].
  rewrite E.
  eapply ft_step; [eapply ft_step; [eapply ft_step; [eapply ft_step; [apply ft_refl|]|]|]|]; try (eapply fm_files).
  apply fm_other; [|intros; discriminate]. eapply m_any_fail. reflexivity.
Qed.

Print Assumptions C81_exit.
