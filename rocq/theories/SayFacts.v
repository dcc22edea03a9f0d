(** Lemmas for C79. *)
From Coq Require Import String.
From Coq Require Import List Arith Bool NArith ZArith Lia Ascii Permutation.
Import ListNotations.
From Verif Require Import Base BaseFacts GraphModel TextModel CliModel DotModel BitsModel TorusModel StreamModel CmdModel LtlModel MainModel MainSpec MainFacts
  MainClaims MsgModel MsgFacts SayModel SaySpec.
Local Open Scope list_scope.

(** ** Computations that do not end with exit *)
Definition noexit {A} (r : res A) : Prop := r <> Fail FExit.
Lemma ne_ok {A} (a : A) : noexit (Ok a). Proof. discriminate. Qed.
Lemma ne_fail {A} e : e <> FExit -> noexit (@Fail A e). Proof. intros H [= E]. auto. Qed.
Lemma ne_bind {A B} (m : res A) (k : A -> res B) : noexit m -> (forall a, noexit (k a)) -> noexit (bind m k).
Proof. destruct m; cbn; auto. intros H _ [= ->]. apply H. reflexivity. Qed.
Lemma ne_foldM {A S} (f : S -> A -> res S) l : (forall s a, noexit (f s a)) -> forall s, noexit (foldM f l s).
Proof. intros H. induction l; intros s; cbn; [apply ne_ok|apply ne_bind; auto]. Qed.
Lemma ne_mapM {A B} (f : A -> res B) l : (forall a, noexit (f a)) -> noexit (mapM f l).
Proof. intros H. induction l; cbn; [apply ne_ok|]. apply ne_bind; auto. intros. apply ne_bind; auto. intros. apply ne_ok. Qed.
Lemma ne_at {A} (v : list A) i : noexit (at_ v i).
Proof. unfold at_. destruct (nth_error v i); discriminate. Qed.
Lemma ne_set {A} (v : list A) i a : noexit (set_at v i a).
Proof. unfold set_at. destruct (i <? length v); discriminate. Qed.
Lemma ne_assert {A} b (k : res A) : noexit k -> noexit (assert_ b k).
Proof. destruct b; cbn; [auto|discriminate]. Qed.
Lemma ne_iter {S R} (step : S -> S + res R) : (forall s r, step s = inr r -> noexit r) ->
  forall k s r, iter2 k step s = inr r -> noexit r.
Proof.
  intros H. induction k as [|k IH]; cbn; intros s r; [apply H|].
  destruct (iter2 k step s) eqn:E; [apply IH|]. intros [= <-]. eapply IH; eauto.
Qed.
Lemma ne_loop {S R} k (step : S -> S + res R) s : (forall s r, step s = inr r -> noexit r) -> noexit (Base.loop k step s).
Proof. intros H. unfold Base.loop. destruct (iter2 k step s) eqn:E; [discriminate|]. eapply ne_iter; eauto. Qed.
Lemma ne_cont {S R} (m : res S) (r : res R) : noexit m -> cont m = inr r -> noexit r.
Proof. destruct m; cbn; [discriminate|]. intros H [= <-] [= ->]. apply H. reflexivity. Qed.

Ltac ne := repeat match goal with
  | |- forall _, _ => intro
  | |- noexit (Ok _) => apply ne_ok
  | |- noexit (Fail _) => apply ne_fail; discriminate
  | |- noexit (bind _ _) => apply ne_bind
  | |- noexit (foldM _ _ _) => apply ne_foldM
  | |- noexit (mapM _ _) => apply ne_mapM
  | |- noexit (at_ _ _) => apply ne_at
  | |- noexit (set_at _ _ _) => apply ne_set
  | |- noexit (assert_ _ _) => apply ne_assert
  | |- noexit (let _ := _ in _) => cbv zeta
  | |- noexit (match ?x with _ => _ end) => destruct x
  | |- noexit ((match ?x with _ => _ end) _) => destruct x
  | |- noexit (next_state _ _ _) => unfold next_state
  | |- noexit (prev_states _ _ _) => unfold prev_states
  | |- noexit (is_final_state _ _) => unfold is_final_state
  | |- noexit (GraphModel.push_at _ _ _) => unfold GraphModel.push_at
  | |- noexit (old2new _ _) => unfold old2new
  | |- noexit (at_key _ _ _) => unfold at_key
  | |- noexit (add_succ _ _ _ _) => unfold add_succ
  | |- noexit (add_pred _ _ _ _) => unfold add_pred
  end.
Lemma ne_graph_new i fs d : noexit (graph_new i fs d). Proof. unfold graph_new. ne. Qed.
Lemma ne_from_nfa q F d : noexit (from_nfa q F d).
Proof.
  unfold from_nfa. apply ne_bind.
  - apply ne_loop. intros s r. unfold from_nfa_step. destruct (ss_que s); [intros [= <-]; apply ne_ok|].
    destruct (existsb _ _); [discriminate|]. apply ne_cont. unfold subset_succ. ne.
  - ne. unfold force_delta. ne. apply ne_graph_new.
Qed.
Lemma ne_negated g : noexit (negated g). Proof. unfold negated. ne. apply ne_graph_new. Qed.
Lemma ne_reversed g : noexit (reversed g). Proof. unfold reversed. ne. apply ne_from_nfa. Qed.
Lemma ne_uf fuel : forall g x, noexit (uf_find_fuel fuel g x).
Proof. induction fuel; intros g x; cbn; ne. auto. Qed.
Lemma ne_find g x : noexit (uf_find g x). Proof. apply ne_uf. Qed.
Lemma ne_minimized g : noexit (minimized g).
Proof.
  unfold minimized, removed_unreachable, reachable_states. apply ne_bind; [apply ne_bind|].
  - apply ne_loop. intros [a b] r. unfold reach_step. destruct b; [intros [= <-]; apply ne_ok|].
    destruct (smem _ _); [discriminate|]. apply ne_cont. ne.
  - ne. apply ne_graph_new.
  - intros g1. unfold grouped_nondistinguishable, fill_table. apply ne_bind; [apply ne_bind|].
    + unfold table_init. ne.
    + intros s. apply ne_loop. intros [a b] r. unfold table_step. destruct b as [|[ql qr] b]; [intros [= <-]; apply ne_ok|].
      apply ne_cont. unfold mark_pair. ne.
    + intros t. unfold unite_equiv, uf_unite, group_states, quot_step, class_of. ne; try apply ne_find. apply ne_graph_new.
Qed.
Lemma ne_dump g : noexit (dump g). Proof. unfold dump, dump_row. ne. Qed.
Lemma ne_dump_att g : noexit (dump_att g). Proof. unfold dump_att, dump_att_row. ne. Qed.
Lemma ne_dump_dot g : noexit (dump_dot g). Proof. unfold dump_dot, dot_row. ne. Qed.
Lemma ne_each {S} bytes n (func : S -> bool -> res S) : (forall s b, noexit (func s b)) -> forall s, noexit (each_input_bit bytes n func s).
Proof.
  intros H. unfold each_input_bit. generalize 0. induction bytes as [|v bytes IH]; intros r s; cbn; ne. auto. apply IH.
Qed.
Lemma ne_bdd fuel : forall que visited R M, noexit (bdd_loop fuel que visited R M).
Proof.
  induction fuel as [|fuel IH]; intros [|node que] visited R M; cbn [bdd_loop]; try apply ne_ok; try (apply ne_fail; discriminate).
  destruct (in_dec _ _ _); auto. destruct node; auto. ne. apply IH.
Qed.
Lemma ne_edge v2i R fuel : forall que visited delta m alt, noexit (edge_loop v2i R fuel que visited delta m alt).
Proof.
  induction fuel as [|fuel IH]; intros [|[[rq i] q] que] visited delta m alt; cbn [edge_loop]; try apply ne_ok; try (apply ne_fail; discriminate).
  destruct (in_dec _ _ _); auto. unfold add_parent. ne; auto.
Qed.
Lemma ne_ltl M n all : noexit (do_ltl2spec M n all).
Proof.
  unfold do_ltl2spec, from_ltl_formula, ltl_to_nfa_tuple, add_edge, reversed_bdd. ne; try apply ne_bdd; try apply ne_edge; try apply ne_from_nfa.
  apply ne_dump.
Qed.

(** ** The results are those of main *)
Section Facts.
Context (trace : text) (T : tfhe) (Y : crypto T) (spot : spot_lib).
Lemma snd_then {A B} (m : said A) (k : A -> B) : snd (then_ m k) = bind (snd m) (fun a => Ok (k a)).
Proof. unfold then_. rewrite snd_after. reflexivity. Qed.
Lemma snd_archive {A} p (r : res A) : snd (archive_said trace p r) = r.
Proof. destruct r as [|[]]; reflexivity. Qed.
Lemma bind_assoc {A B C} (m : res A) (k : A -> res B) (h : B -> res C) : bind (bind m k) h = bind m (fun a => bind (k a) h).
Proof. destruct m; reflexivity. Qed.
Lemma spec_same f stdin n : snd (spec_said trace f stdin n) = do s <- source FAssert f stdin n; from_istream s.
Proof.
  unfold spec_said, source. destruct (is_name _ "-"); [apply from_istream_same|]. unfold from_file_said.
  destruct (f _); [apply from_istream_same|reflexivity].
Qed.
Lemma att_same f stdin n : snd (att_said trace f stdin n) = do s <- source FExit f stdin n; from_att_istream s.
Proof.
  unfold att_said, source. destruct (is_name _ "-"); [apply from_att_istream_same|]. unfold from_att_file_said.
  destruct (f _); [apply from_att_istream_same|reflexivity].
Qed.
Lemma dec_same f k i : snd (do_dec_said trace T Y f k i) = do_dec T Y f k i.
Proof.
  unfold do_dec_said, do_dec. rewrite snd_after, snd_archive. destruct (read_skey T Y f k); cbn [bind]; auto.
  rewrite snd_after, snd_archive. destruct (open_file f i) as [b|]; [|reflexivity]. cbn [bind]. destruct (read_tlwe _ _); reflexivity.
Qed.
Lemma plain_same f s i n : snd (run_plain_said trace f s i n) = run_plain f s i n.
Proof.
  unfold run_plain_said, run_plain. rewrite snd_after. unfold from_file_said, from_file, open_file at 2.
  destruct (f s); [|reflexivity]. rewrite from_istream_same. cbn [bind]. destruct (from_istream _) as [gr|]; cbn [bind]; auto.
  rewrite snd_after. cbn [mute snd]. destruct (open_file f i) as [inp|]; [|reflexivity]. cbn [bind].
  destruct (each_input_bit _ _ _ _) as [q|]; [|reflexivity]. cbn [bind]. destruct (is_final_state gr q); reflexivity.
Qed.
Ltac vals := repeat match goal with |- context [value ?o] => destruct (value o); cbn [bind mute after snd]; auto end.
Lemma dispatch_same f stdin coin A : snd (dispatch_said trace T Y spot f stdin coin A) = dispatch T Y spot f stdin coin A.
Proof.
  unfold dispatch_said. destruct (a_type A) eqn:E; try reflexivity; unfold dispatch; rewrite E; try reflexivity.
  - rewrite snd_after. cbn [mute snd]. vals. rewrite snd_then. unfold do_genbkey_said, do_genbkey. rewrite snd_after, snd_archive.
    destruct (read_skey T Y f a); reflexivity.
  - rewrite snd_after. cbn [mute snd]. vals. rewrite snd_then. unfold do_enc_said, do_enc. rewrite snd_after, snd_archive.
    destruct (read_skey T Y f a); reflexivity.
  - rewrite snd_after. cbn [mute snd]. vals. rewrite snd_then, dec_same. reflexivity.
  - destruct (negb (one_output A)); reflexivity.
  - destruct (negb (one_output A)); reflexivity.
  - destruct (negb (one_output A)); reflexivity.
  - rewrite snd_after. cbn [mute snd]. vals. rewrite snd_then, plain_same. reflexivity.
  - rewrite snd_then. unfold do_spec2spec_said, do_spec2spec. rewrite snd_after, spec_same, !bind_assoc. destruct (source _ f stdin _); cbn [bind]; rewrite ?bind_assoc; reflexivity.
  - rewrite snd_then, snd_after, spec_same. unfold do_spec2dot. rewrite !bind_assoc. destruct (source _ f stdin _); cbn [bind]; rewrite ?bind_assoc; reflexivity.
  - rewrite snd_then, snd_after, att_same. unfold do_att2spec. rewrite !bind_assoc. destruct (source _ f stdin _); cbn [bind]; rewrite ?bind_assoc; reflexivity.
  - rewrite snd_then, snd_after, spec_same. unfold do_spec2att. rewrite !bind_assoc. destruct (source _ f stdin _); cbn [bind]; rewrite ?bind_assoc; reflexivity.
Qed.
Lemma main_same E f stdin coin argv : snd (main_said trace T Y spot E f stdin coin argv) = main T Y spot f stdin coin argv.
Proof.
  unfold main_said, main. rewrite snd_after. cbn [mute snd]. destruct (parse f argv); cbn [bind]; auto. apply dispatch_same.
Qed.

(** ** Exit and errors *)
Definition honest {A} (m : said A) : Prop :=
  match snd m with
  | Fail FExit => exists l t, fst m = l ++ died trace t /\ calm l
  | _ => calm (fst m)
  end.
Lemma calm_nil : calm []. Proof. intros m []. Qed.
Lemma calm_app l l' : calm l -> calm l' -> calm (l ++ l').
Proof. intros H H' m HI. apply in_app_or in HI as [HI|HI]; [eapply H|eapply H']; eauto. Qed.
Lemma honest_mute {A} (r : res A) : noexit r -> honest (mute r).
Proof. intros H. unfold honest. destruct r as [|[]]; cbn; try apply calm_nil. exfalso. apply H. reflexivity. Qed.
Lemma honest_die {A} t : honest (@error_die trace A t).
Proof. exists [], t. split; [reflexivity|apply calm_nil]. Qed.
Lemma honest_app {A} l (m : said A) : calm l -> honest m -> honest (l ++ fst m, snd m).
Proof.
  intros C H. unfold honest in *. cbn [fst snd]. destruct (snd m) as [a|[]]; try (apply calm_app; auto).
  destruct H as (l' & t & -> & H). exists (l ++ l'), t. rewrite app_assoc. split; auto. apply calm_app; auto.
Qed.
Lemma honest_after {A B} (m : said A) (k : A -> said B) : honest m -> (forall a, honest (k a)) -> honest (after m k).
Proof.
  destruct m as [l [a|e]]; intros H K; cbn [after]; [|exact H].
  pose proof (honest_app l (k a) H (K a)). destruct (k a). exact H0.
Qed.
Lemma honest_loop {A S} (f : S -> A -> said S) l : (forall s a, honest (f s a)) -> forall s, honest (loop f l s).
Proof. intros H. induction l as [|a l IH]; intros s; cbn [loop]; [apply honest_mute, ne_ok|]. apply honest_after; auto. Qed.
Lemma honest_then {A B} (m : said A) (k : A -> B) : honest m -> honest (then_ m k).
Proof. intros H. apply honest_after; auto. intros a. apply honest_mute, ne_ok. Qed.
Lemma honest_load s : honest (load_states_said trace s).
Proof.
  unfold load_states_said. destruct (list_eq_dec _ _ _); [apply honest_mute, ne_ok|]. apply honest_loop. intros ret fld.
  unfold load_state. destruct (stoi fld); [apply honest_mute, ne_ok|apply honest_die|apply honest_mute, ne_fail; discriminate].
Qed.
Lemma honest_istream t : honest (from_istream_said trace t).
Proof.
  unfold from_istream_said. apply honest_after.
  - apply honest_loop. intros s line. unfold parse_line_said. destruct (match_row line) as [m|].
    + apply honest_after; [apply honest_load|intros q0s]. apply honest_after; [apply honest_load|intros q1s].
      destruct (stoi _); try (apply honest_mute, ne_fail; discriminate). destruct (N.eqb _ _); [apply honest_mute, ne_ok|apply honest_die].
    + intros m [H|[]]. discriminate.
  - intros s. apply honest_mute. unfold after_lines. cbv zeta. ne; try apply ne_graph_new; apply ne_from_nfa.
Qed.
Lemma honest_att_istream t : honest (from_att_istream_said trace t).
Proof.
  unfold from_att_istream_said. apply honest_after.
  - apply honest_loop. intros [fs d] line. unfold att_line_said. destruct (match_att_edge line) as [[[a b] ch]|].
    + apply honest_mute. unfold stoi_plain. ne.
    + destruct (match_att_final line); [|apply honest_die]. apply honest_mute. unfold stoi_plain. ne.
  - intros [fs d]. apply honest_mute, ne_from_nfa.
Qed.
Lemma honest_spec f stdin n : honest (spec_said trace f stdin n).
Proof.
  unfold spec_said. destruct (is_name _ _); [apply honest_istream|]. unfold from_file_said.
  destruct (f _); [apply honest_istream|apply honest_mute, ne_fail; discriminate].
Qed.
Lemma honest_att f stdin n : honest (att_said trace f stdin n).
Proof.
  unfold att_said. destruct (is_name _ _); [apply honest_att_istream|]. unfold from_att_file_said.
  destruct (f _); [apply honest_att_istream|apply honest_die].
Qed.
Lemma honest_archive {A} p (r : res A) : honest (archive_said trace p r).
Proof. unfold archive_said. destruct r as [|[]]; try (apply honest_mute, ne_ok); try (apply honest_mute, ne_fail; discriminate). apply honest_die. Qed.
Lemma honest_print b : honest (print_result_said b).
Proof. intros m [H|[]]. discriminate. Qed.
Lemma honest_values {A} (r : res A) : r <> Fail FExit -> honest (mute r).
Proof. apply honest_mute. Qed.
Lemma ne_value {A} (o : option A) : noexit (value o).
Proof. destruct o; cbn; discriminate. Qed.
Lemma ne_open f p : noexit (open_file f p).
Proof. unfold open_file. destruct (f p); discriminate. Qed.
Ltac ne' := ne; try apply ne_value; try apply ne_open.
Lemma honest_dispatch f stdin coin A : honest (dispatch_said trace T Y spot f stdin coin A).
Proof.
  unfold dispatch_said. destruct (a_type A) eqn:E; try apply honest_die.
  - apply honest_mute. unfold dispatch. rewrite E. unfold do_genkey. ne'.
  - apply honest_after; [apply honest_mute; ne'|intros [k o]]. apply honest_then. apply honest_after; [apply honest_archive|].
    intros _. apply honest_mute, ne_ok.
  - apply honest_after; [apply honest_mute; ne'|intros [[[k i] o] n]]. apply honest_then. apply honest_after; [apply honest_archive|].
    intros _. apply honest_mute. ne'. apply ne_each. ne.
  - apply honest_after; [apply honest_mute; ne'|intros [k i]]. apply honest_then. apply honest_after; [apply honest_archive|].
    intros _. apply honest_after; [apply honest_archive|]. intros c. apply honest_print.
  - apply honest_mute. unfold dispatch. rewrite E. unfold do_run_offline. ne'.
  - destruct (negb (one_output A)) eqn:O; [apply honest_die|]. apply honest_mute. unfold dispatch. rewrite E, O. unfold do_run_reverse. ne'.
  - destruct (negb (one_output A)) eqn:O; [apply honest_die|]. apply honest_mute. unfold dispatch. rewrite E, O. unfold do_run_block. ne'.
  - destruct (negb (one_output A)) eqn:O; [apply honest_die|]. apply honest_mute. unfold dispatch. rewrite E, O. unfold do_run_flut. ne'.
  - apply honest_after; [apply honest_mute; ne'|intros [[s i] n]]. apply honest_then. unfold run_plain_said. apply honest_after.
    { unfold from_file_said. destruct (f s); [apply honest_istream|apply honest_mute, ne_fail; discriminate]. }
    intros gr. apply honest_after; [|intros b; apply honest_print]. apply honest_mute. ne'. apply ne_each. ne.
  - apply honest_mute. unfold dispatch. rewrite E. unfold ltl_to_monitor. ne'. apply ne_ltl.
  - apply honest_then. apply honest_after; [apply honest_spec|]. intros gr. apply honest_mute.
    ne; try apply ne_negated; try apply ne_reversed; try apply ne_minimized; apply ne_dump.
  - apply honest_then. apply honest_after; [apply honest_spec|]. intros gr. apply honest_mute, ne_dump_dot.
  - apply honest_then. apply honest_after; [apply honest_att|]. intros gr. apply honest_mute, ne_dump.
  - apply honest_then. apply honest_after; [apply honest_spec|]. intros gr. apply honest_mute, ne_dump_att.
Qed.
Lemma calm_header E argv : calm (dump_basic_info E argv).
Proof. intros m H. cbn in H. repeat (destruct H as [H|H]; [discriminate|]). destruct H. Qed.
End Facts.
