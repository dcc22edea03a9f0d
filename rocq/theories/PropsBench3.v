(** C55: everything that a method of the benchmark program prints besides its table: the configuration
    it was called with, then lines under known keys only. *)
From Coq Require Import String.
From Coq Require Import List Arith Bool NArith ZArith Ascii Lia.
Import ListNotations.
From Verif Require Import Base BaseFacts GraphModel TextModel DotModel TorusModel RunnerModel ParModel
  StreamModel BitsModel ClientModel CmdModel TimeModel MainModel BenchModel BenchSpec.
Local Open Scope list_scope.

Definition grows (keys : list string) (base out : list line) : Prop :=
  exists rest, out = base ++ rest /\ Forall (fun l => In (fst l) (map lit keys)) rest.
Lemma grows_refl keys base : grows keys base base.
Proof. exists []. rewrite app_nil_r. split; [reflexivity|constructor]. Qed.
Lemma grows_print keys base key v out : In key keys -> grows keys base out -> grows keys base (print key v out).
Proof.
  intros H (rest & -> & F). exists (rest ++ [(lit key, v)]). unfold print. rewrite <- app_assoc. split; [reflexivity|].
  apply Forall_app. split; auto. constructor; [|constructor]. cbn [fst]. apply in_map. exact H.
Qed.
Lemma foldM_keep {A S} (f : S -> A -> res S) (P : S -> Prop) : (forall s a s', P s -> f s a = Ok s' -> P s') ->
  forall l s s', P s -> foldM f l s = Ok s' -> P s'.
Proof.
  intros H. induction l as [|a l IH]; intros s s' Hs E; cbn [foldM] in E; [injection E as <-; auto|].
  apply bind_ok in E as (s1 & E1 & E). eauto.
Qed.
Lemma each_bit_keep {S} (f : S -> bool -> res S) (P : S -> Prop) : (forall s a s', P s -> f s a = Ok s' -> P s') ->
  forall bytes ap s s', P s -> each_input_bit bytes ap f s = Ok s' -> P s'.
Proof.
  intros H bytes ap. unfold each_input_bit. generalize 0 as n.
  induction bytes as [|v bytes IH]; intros n s s' Hs E; cbn [each_input_bit_from] in E.
  - unfold assert_ in E. destruct (n =? 0); [injection E as <-; auto|discriminate].
  - destruct (byte_bits 8 v _) as [bs r]. apply bind_ok in E as (s1 & E1 & E).
    eapply IH; [|exact E]. eapply foldM_keep; eauto.
Qed.

(** The lines that follow the configuration. *)
Definition plain_keys : list string := ["config-spec_num_states"; "config-input_size"; "state"; "result"]%string.
Definition cipher_keys : list string :=
  ["skey"; "bkey"; "init"; "config-spec_num_states"; "config-input_size"; "enc"; "run"; "dec"; "result"]%string.
Definition bbs_keys : list string := cipher_keys ++ ["num_live_states"%string].
Definition qtrlwe2_keys : list string := bbs_keys ++ ["first_lut_depth"; "second_lut_depth"]%string.

Ltac grow := repeat first [apply grows_refl|apply grows_print; [cbn; tauto|]].

Lemma loop_grows (T : tfhe) (Y : crypto T) clock keys base {R} (run : R -> trgsw T -> list line -> res (bool * R * list line)) result
    input ap r out r' out' : incl ["enc"; "run"; "dec"; "result"]%string keys ->
  (forall r c o x, grows keys base o -> run r c o = Ok x -> grows keys base (snd x)) ->
  grows keys base out -> enc_run_dec_loop T Y clock run result input ap r out = Ok (r', out') -> grows keys base out'.
Proof.
  intros HK HR HO E. unfold enc_run_dec_loop in E.
  change (grows keys base (snd (r', out'))). eapply (each_bit_keep _ (fun p => grows keys base (snd p))); [| |exact E]; [|exact HO].
  clear - HK HR. intros [s o] b [s' o'] H E. cbn [snd] in *.
  apply bind_ok in E as ([[ex s1] o1] & E1 & E).
  assert (G : grows keys base o1).
  { refine (HR _ _ _ _ _ E1). apply grows_print; [apply HK; simpl; auto|exact H]. }
  destruct ex.
  - apply bind_ok in E as (c & _ & [= <- <-]). apply grows_print; [apply HK; simpl; auto|].
    apply grows_print; [apply HK; simpl; auto|]. apply grows_print; [apply HK; simpl; auto|]. exact G.
  - injection E as <- <-. apply grows_print; [apply HK; simpl; auto|]. exact G.
Qed.

(** * C55: the configuration that is printed is the one given. *)
Theorem C55_config_plain f spec input freq ap out out' t : do_plain f spec input freq ap out = Ok (out', t) ->
  exists rest, out' = out ++ [(lit "config-method", lit "plain"); (lit "config-spec", spec); (lit "config-input", input);
                              (lit "config-num_ap", show_nat ap)] ++ rest /\
    Forall (fun l => In (fst l) (map lit plain_keys)) rest.
Proof.
  unfold do_plain. intros E. apply bind_ok in E as (g & _ & E). apply bind_ok in E as (b1 & _ & E). apply bind_ok in E as (n & _ & E).
  apply bind_ok in E as (b2 & _ & E). apply bind_ok in E as ([[q k] o] & E1 & [= <- <-]).
  assert (G : grows plain_keys (out ++ [(lit "config-method", lit "plain"); (lit "config-spec", spec); (lit "config-input", input);
                              (lit "config-num_ap", show_nat ap)]) o).
  { change (grows plain_keys (out ++ [(lit "config-method", lit "plain"); (lit "config-spec", spec); (lit "config-input", input);
                              (lit "config-num_ap", show_nat ap)]) (snd (q, k, o))).
    eapply (each_bit_keep _ (fun p => grows plain_keys _ (snd p))); [| |exact E1]; [|cbn [snd]].
    - clear. intros [[q k] o] b [[q' k'] o'] H E. cbn [snd] in *. apply bind_ok in E as (q1 & _ & E).
      destruct (freq =? 0); [discriminate|]. destruct (S k mod freq =? 0).
      + apply bind_ok in E as (b' & _ & [= <- <- <-]). destruct b'; grow; exact H.
      + injection E as <- <- <-. grow. exact H.
    - grow. unfold print. rewrite <- !app_assoc. apply grows_refl. }
  destruct G as (rest & -> & F). exists rest. rewrite <- app_assoc. auto.
Qed.

Section Cipher.
Context (T : tfhe) (Y : crypto T) (clock : nat -> text) (times : nat -> Z).

Theorem C55_config_offline f spec input interval ap san out out' t : do_offline T Y clock f spec input interval ap san out = Ok (out', t) ->
  exists rest, out' = out ++ [(lit "config-method", lit "offline"); (lit "config-spec", spec); (lit "config-input", input);
                              (lit "config-bootstrapping_freq", show_nat interval); (lit "config-num_ap", show_nat ap);
                              (lit "config-sanitize_result", show_bool san)] ++ rest /\
    Forall (fun l => In (fst l) (map lit cipher_keys)) rest.
Proof.
  unfold do_offline. intros E. apply bind_ok in E as (b1 & _ & E). apply bind_ok in E as (w & _ & E). apply bind_ok in E as (r & _ & E).
  apply bind_ok in E as ([r' o] & E1 & [= <- <-]).
  match goal with |- exists rest, _ = _ ++ ?c ++ _ /\ _ => set (conf := c) end.
  assert (G : grows cipher_keys (out ++ conf) o).
  { change (grows cipher_keys (out ++ conf) (snd (r', o))).
    eapply (foldM_keep _ (fun p => grows cipher_keys (out ++ conf) (snd p))); [| |exact E1]; [|cbn [snd]].
    - clear. intros [r o] b [r' o'] H E. cbn [snd] in *. apply bind_ok in E as (r1 & _ & [= <- <-]). unfold print_elapsed. grow. exact H.
    - unfold print_elapsed. grow. unfold print, conf. rewrite <- !app_assoc. apply grows_refl. }
  assert (G' : grows cipher_keys (out ++ conf) (print "result" (show_bool (decrypt_TLWELvl1_to_bit (t_n1 T) (ob_result r') (c_key T Y)))
                 (print_elapsed clock "dec" o))) by (unfold print_elapsed; grow; exact G).
  destruct G' as (rest & -> & F). exists rest. rewrite <- app_assoc. auto.
Qed.

Theorem C55_config_reversed f spec input freq interval ap sr san out out' t :
  do_reversed T Y clock times f spec input freq interval ap sr san out = Ok (out', t) ->
  exists rest, out' = out ++ [(lit "config-method", lit "reversed"); (lit "config-spec", spec); (lit "config-input", input);
                              (lit "config-output_freq", show_nat freq);
                              (lit "config-bootstrapping_freq", show_nat interval); (lit "config-num_ap", show_nat ap);
                              (lit "config-sanitize_result", show_bool san)] ++ rest /\
    Forall (fun l => In (fst l) (map lit cipher_keys)) rest.
Proof.
  unfold do_reversed. intros E. apply bind_ok in E as (g & _ & E). apply bind_ok in E as (r & _ & E). apply bind_ok in E as (b1 & _ & E).
  apply bind_ok in E as (n & _ & E). apply bind_ok in E as (b2 & _ & E). apply bind_ok in E as ([r' o] & E1 & [= <- <-]).
  match goal with |- exists rest, _ = _ ++ ?c ++ _ /\ _ => set (conf := c) end.
  assert (G : grows cipher_keys (out ++ conf) o).
  { eapply (loop_grows T Y clock cipher_keys); [|  | |exact E1].
    - intros k Hk. cbn in *. tauto.
    - clear. intros r c o [[b s] o'] H E. unfold bench2_run in E. apply bind_ok in E as ([b' s'] & _ & [= <- <- <-]). exact H.
    - unfold print_elapsed. grow. unfold print, conf. rewrite <- !app_assoc. apply grows_refl. }
  destruct G as (rest & -> & F). exists rest. rewrite <- app_assoc. auto.
Qed.

Theorem C55_config_qtrlwe2 f spec input freq depth q boot ap san out out' t :
  do_qtrlwe2 T Y clock f spec input freq depth q boot ap san out = Ok (out', t) ->
  exists rest, out' = out ++ [(lit "config-method", lit "qtrlwe2"); (lit "config-spec", spec); (lit "config-input", input);
                              (lit "config-output_freq", show_nat freq); (lit "config-max_second_lut_depth", show_nat depth);
                              (lit "config-queue_size", show_nat q); (lit "config-bootstrapping_freq", show_nat boot);
                              (lit "config-num_ap", show_nat ap); (lit "config-sanitize_result", show_bool san)] ++ rest /\
    Forall (fun l => In (fst l) (map lit qtrlwe2_keys)) rest.
Proof.
  unfold do_qtrlwe2. intros E. apply bind_ok in E as (g & _ & E). apply bind_ok in E as (r & _ & E). apply bind_ok in E as (b1 & _ & E).
  apply bind_ok in E as (n & _ & E). apply bind_ok in E as (b2 & _ & E). apply bind_ok in E as ([r' o] & E1 & [= <- <-]).
  match goal with |- exists rest, _ = _ ++ ?c ++ _ /\ _ => set (conf := c) end.
  assert (G : grows qtrlwe2_keys (out ++ conf) o).
  { eapply (loop_grows T Y clock qtrlwe2_keys); [|  | |exact E1].
    - intros k Hk. cbn in *. tauto.
    - clear. intros r c o [[b s] o'] H E. unfold bench3_run in E. apply bind_ok in E as ([b' s'] & _ & [= <- <- <-]). cbn [snd]. grow. exact H.
    - unfold print_elapsed. grow. unfold print, conf. rewrite <- !app_assoc. apply grows_refl. }
  destruct G as (rest & -> & F). exists rest. rewrite <- app_assoc. auto.
Qed.

(** The key of --sanitize-result is misspelt. *)
Theorem C55_config_bbs f spec input freq q ap san out out' t :
  do_bbs T Y clock times f spec input freq q ap san out = Ok (out', t) ->
  exists rest, out' = out ++ [(lit "config-method", lit "bbs"); (lit "config-spec", spec); (lit "config-input", input);
                              (lit "config-output_freq", show_nat freq); (lit "config-queue_size", show_nat q);
                              (lit "config-num_ap", show_nat ap); (lit "config-sanitize_reuslt", show_bool san)] ++ rest /\
    Forall (fun l => In (fst l) (map lit bbs_keys)) rest.
Proof.
  unfold do_bbs. intros E. apply bind_ok in E as (g & _ & E). apply bind_ok in E as (r & _ & E). apply bind_ok in E as (b1 & _ & E).
  apply bind_ok in E as (n & _ & E). apply bind_ok in E as (b2 & _ & E). apply bind_ok in E as ([r' o] & E1 & [= <- <-]).
  match goal with |- exists rest, _ = _ ++ ?c ++ _ /\ _ => set (conf := c) end.
  assert (G : grows bbs_keys (out ++ conf) o).
  { eapply (loop_grows T Y clock bbs_keys); [|  | |exact E1].
    - intros k Hk. cbn in *. tauto.
    - clear. intros r c o [[b s] o'] H E. unfold bench4_run in E. apply bind_ok in E as ([b' s'] & _ & [= <- <- <-]). cbn [snd]. grow. exact H.
    - unfold print_elapsed. grow. unfold print, conf. rewrite <- !app_assoc. apply grows_refl. }
  destruct G as (rest & -> & F). exists rest. rewrite <- app_assoc. auto.
Qed.
End Cipher.
(** The hypotheses are met: see C55_plain_nonvacuous and the other examples in PropsBench2.v. *)

Print Assumptions C55_config_plain.
Print Assumptions C55_config_offline.
Print Assumptions C55_config_reversed.
Print Assumptions C55_config_qtrlwe2.
Print Assumptions C55_config_bbs.
