(** Proofs about test_benchmark.sh. *)
From Coq Require Import String.
From Coq Require Import List Arith Bool NArith ZArith Ascii Permutation Lia.
Import ListNotations.
From Verif Require Import Base BaseFacts GraphModel Spec GraphFacts TextModel TextSpec TextFacts TextClaims DotModel BitsModel TorusModel TfheSpec TfheFacts
  RunnerModel RunnerSpec InputSpec TimeModel PropsTime CmdModel CmdSpec CmdFacts MainSpec BenchModel BenchSpec BenchFacts BenchManual BenchCli PropsBench PropsBench2
  ScriptModel ScriptFacts BenchScriptModel BenchScriptSpec.
Local Open Scope list_scope.

(** * Lines *)
Definition no_nl (t : text) : Prop := ~ In c_nl t.
Lemma getlines_unlines l : Forall no_nl l -> getlines c_nl [] (unlines l) = l.
Proof.
  unfold unlines. induction 1 as [|x l H F IH]; [reflexivity|]. cbn [map concat]. rewrite <- app_assoc. cbn [app].
  rewrite getlines_cut by exact H. cbn [app]. f_equal. exact IH.
Qed.
Lemma unlines_app a b : unlines (a ++ b) = unlines a ++ unlines b.
Proof. unfold unlines. rewrite map_app, concat_app. reflexivity. Qed.
Lemma ascii_bytes t : map ascii_of_N (map N_of_ascii t) = t.
Proof. induction t; cbn; [reflexivity|]. rewrite ascii_N_embedding. congruence. Qed.
Lemma cat_same f p t : cat (redirect f p t) p = t.
Proof. unfold cat, redirect. rewrite write_same. apply ascii_bytes. Qed.
Lemma cat_other f p q t : q <> p -> cat (redirect f p t) q = cat f q.
Proof. intros H. unfold cat, redirect. rewrite write_other; auto. Qed.

(** The lines that the program prints. *)
Definition body (l : line) : text := fst l ++ ","%char :: snd l.
Definition key_ok (k : text) : bool :=
  forallb (fun c => negb (Ascii.eqb c c_nl)) k && (path_eqb k (lit "result") || negb (begins (lit "result") k)).
Definition clean (l : line) : Prop := key_ok (fst l) = true /\ no_nl (snd l).
Lemma lines_text out : concat (map line_text out) = unlines (map body out).
Proof.
  unfold unlines. rewrite map_map. f_equal. apply map_ext. intros [k v]. unfold line_text, body. cbn [fst snd].
  rewrite <- app_assoc. reflexivity.
Qed.
Lemma begins_key p : ~ In ","%char p -> forall k v, begins p (k ++ ","%char :: v) = begins p k.
Proof.
  induction p as [|c p IH]; intros H k v; [destruct k; reflexivity|]. destruct k as [|d k]; cbn.
  - destruct (Ascii.eqb_spec c ","); [|reflexivity]. exfalso. apply H. left. auto.
  - rewrite IH; [reflexivity|]. intros K. apply H. right. auto.
Qed.
Lemma begins_refl p : begins p p = true.
Proof. induction p; cbn; [reflexivity|]. rewrite Ascii.eqb_refl. auto. Qed.
Lemma key_no_nl k : key_ok k = true -> no_nl k.
Proof.
  unfold key_ok. rewrite andb_true_iff, forallb_forall. intros [H _] K. apply H in K. rewrite Ascii.eqb_refl in K. discriminate.
Qed.
Lemma body_no_nl l : clean l -> no_nl (body l).
Proof.
  intros [H1 H2] K. unfold body in K. apply in_app_or in K as [K|[K|K]]; [|discriminate|apply (H2 K)].
  revert K. apply key_no_nl. exact H1.
Qed.
Definition result_lines (vs : list text) : text := unlines (map (fun v => lit "result," ++ v) vs).
Lemma filter_results out : Forall clean out ->
  filter (begins (lit "result")) (map body out) = map (fun v => lit "result," ++ v) (values "result" out).
Proof.
  unfold values. induction 1 as [|[k v] out [H _] F IH]; [reflexivity|]. cbn [map filter fst snd] in *. unfold body at 1. cbn [fst snd].
  rewrite begins_key by (cbn; intuition discriminate).
  unfold key_ok in H. apply andb_true_iff in H as [_ H]. unfold path_eqb in H.
  change (list_ascii_of_string "result") with (lit "result").
  destruct (list_eq_dec ascii_dec k (lit "result")) as [->|NE].
  - rewrite begins_refl. cbn [map snd]. rewrite IH. reflexivity.
  - cbn in H. apply negb_true_iff in H. cbn in H. cbn [map]. 
    match goal with |- context [if ?b then _ else _] => replace b with false by (symmetry; exact H) end. exact IH.
Qed.
Lemma grep_lines out more : Forall clean out -> Forall no_nl more -> filter (begins (lit "result")) more = [] ->
  grep_result (concat (map line_text out) ++ unlines more) = result_lines (values "result" out).
Proof.
  intros C M FM. unfold grep_result. rewrite lines_text, <- unlines_app, getlines_unlines.
  - rewrite filter_app, FM, app_nil_r, filter_results by auto. reflexivity.
  - apply Forall_app. split; auto. apply Forall_map. eapply Forall_impl; [|exact C]. apply body_no_nl.
Qed.
Lemma result_lines_inj vs vs' : Forall no_nl vs -> Forall no_nl vs' -> result_lines vs = result_lines vs' -> vs = vs'.
Proof.
  intros F F' H. apply (f_equal (getlines c_nl [])) in H. unfold result_lines in H.
  assert (P : forall vs, Forall no_nl vs -> Forall no_nl (map (fun v => lit "result," ++ v) vs)).
  { clear. intros vs F. apply Forall_map. eapply Forall_impl; [|exact F]. intros v H K. apply in_app_or in K as [K|K]; [|exact (H K)].
    cbn in K. intuition discriminate. }
  rewrite !getlines_unlines in H by (apply P; auto). clear P F F'. revert vs' H. induction vs as [|v vs IH]; intros [|v' vs'] H; try discriminate; auto.
  cbn [map] in H. injection H as H1 H2. f_equal; auto.
Qed.
Lemma tail_results vs : Forall no_nl vs -> vs <> [] -> tail_1 (result_lines vs) = result_lines [last vs []].
Proof.
  intros F NE. unfold tail_1, result_lines. rewrite getlines_unlines.
  - rewrite <- map_rev. rewrite (app_removelast_last [] NE) at 1. rewrite rev_app_distr. reflexivity.
  - apply Forall_map. eapply Forall_impl; [|exact F]. intros v H K. apply in_app_or in K as [K|K]; [|exact (H K)].
    cbn in K. intuition discriminate.
Qed.

(** * What the program prints is clean *)
Lemma digits_clean t : Forall Digit t -> no_nl t.
Proof. apply digits_no_nl. Qed.
Lemma show_nat_clean n : no_nl (show_nat n).
Proof. apply digits_clean, show_nat_digits. Qed.
Lemma show_Z_clean z : no_nl (show_Z z).
Proof.
  unfold show_Z. destruct (z <? 0)%Z; [|apply digits_clean, uint_text_digits].
  intros [H|H]; [discriminate|]. revert H. apply digits_clean, uint_text_digits.
Qed.
Lemma no_nl_app a b : no_nl a -> no_nl b -> no_nl (a ++ b).
Proof. intros H K I. apply in_app_or in I as [I|I]; auto. Qed.
Lemma word_clean p : shell_word p -> no_nl p.
Proof.
  intros [_ F] H. rewrite Forall_forall in F. apply F in H.
  assert (K : existsb (Ascii.eqb c_nl) (list_ascii_of_string "abcdefghijklmnopqrstuvwxyzABCDEFGHIJKLMNOPQRSTUVWXYZ0123456789_./-") = true).
  { apply existsb_exists. exists c_nl. split; [exact H|]. reflexivity. }
  vm_compute in K. discriminate.
Qed.
Lemma header_clean now : Forall clean (header now).
Proof.
  constructor; [|constructor]. split; [reflexivity|]. cbn [snd].
  unfold current_time_str. repeat apply no_nl_app; try apply show_nat_clean; try apply show_Z_clean; intros H; cbn in H; intuition discriminate.
Qed.

Section Clean.
Context (T : tfhe) (Y : crypto T) (clock : nat -> text) (times : nat -> Z).
Hypothesis CL : forall n, Forall Digit (clock n).
Lemma print_clean k v out : key_ok (lit k) = true -> no_nl v -> Forall clean out -> Forall clean (print k v out).
Proof. intros H1 H2 H3. unfold print. apply Forall_app. split; auto. constructor; [|constructor]. split; auto. Qed.
Lemma elapsed_clean k out : key_ok (lit k) = true -> Forall clean out -> Forall clean (print_elapsed clock k out).
Proof. intros H1 H2. apply print_clean; auto. apply digits_clean, CL. Qed.
Lemma show_bool_clean b : no_nl (show_bool b).
Proof. destruct b; intros H; cbn in H; intuition discriminate. Qed.
Lemma lit_clean s : forallb (fun c => negb (Ascii.eqb c c_nl)) (lit s) = true -> no_nl (lit s).
Proof. rewrite forallb_forall. intros H K. apply H in K. rewrite Ascii.eqb_refl in K. discriminate. Qed.

Lemma bits_inv {S} (P : S -> Prop) (func : S -> bool -> res S) ap : (forall s b s', P s -> func s b = Ok s' -> P s') ->
  forall bytes rest s s', P s -> each_input_bit_from rest ap func bytes s = Ok s' -> P s'.
Proof.
  intros H. induction bytes as [|v bytes IH]; intros rest s s' HP; cbn [each_input_bit_from].
  - destruct (rest =? 0); cbn; [|discriminate]. intros [= <-]. exact HP.
  - destruct (byte_bits 8 v (if rest =? 0 then ap else rest)) as [bs rest']. intros K. apply bind_ok in K as (s1 & K1 & K2).
    eapply IH; [|exact K2]. apply (foldM_inv _ (fun _ s => P s) _ _ _ K1 HP). eauto.
Qed.

Ltac cleanly := repeat first
  [ apply elapsed_clean; [reflexivity|]
  | apply print_clean; [reflexivity| |]
  | apply show_nat_clean | apply show_bool_clean | (apply lit_clean; reflexivity) | assumption
  | (let H := fresh in intros H; cbn in H; solve [intuition discriminate]) ].

Lemma loop_clean {R} run (result : R -> res tlwe) input ap runner out runner' out' :
  (forall r c o b r' o', Forall clean o -> run r c o = Ok (b, r', o') -> Forall clean o') ->
  Forall clean out -> enc_run_dec_loop T Y clock run result input ap runner out = Ok (runner', out') -> Forall clean out'.
Proof.
  intros HR HO H. unfold enc_run_dec_loop, each_input_bit in H.
  apply (bits_inv (fun s => Forall clean (snd s)) _ _) with (s := (runner, out)) in H; auto.
  intros [r o] b [r' o'] HP. cbn [fst snd] in *. intros K. apply bind_ok in K as ([[ex r1] o1] & K1 & K2).
  assert (C1 : Forall clean o1) by (eapply HR; [|exact K1]; cleanly).
  destruct ex; [apply bind_ok in K2 as (c & K2 & [= <- <-])|injection K2 as <- <-]; cleanly.
Qed.
Definition timed (tb : option (list sample)) : Prop := tb = None \/ exists timer, tb = Some (samples_of times timer).
Section Names.
Context (f : fs) (s i : text).
Hypothesis NS : no_nl s.
Hypothesis NI : no_nl i.
Lemma plain_clean k a out out' tb : Forall clean out -> do_plain f s i k a out = Ok (out', tb) -> Forall clean out' /\ tb = None.
Proof.
  intros HO H. unfold do_plain in H. apply bind_ok in H as (g & _ & H). apply bind_ok in H as (input & _ & H).
  apply bind_ok in H as (n & _ & H). apply bind_ok in H as (input' & _ & H). apply bind_ok in H as ([[c n'] o] & K & [= <- <-]).
  split; [|reflexivity]. unfold each_input_bit in K.
  apply (bits_inv (fun s => Forall clean (snd s)) _ _) in K; [exact K| |cbn [snd]; cleanly].
  intros [[q m] o1] b [[q' m'] o2] HP. cbn [snd] in *. intros E. apply bind_ok in E as (q1 & _ & E).
  destruct (k =? 0); [discriminate|]. destruct (S m mod k =? 0).
  - apply bind_ok in E as (fin & _ & [= _ _ <-]). destruct fin; cleanly.
  - injection E as _ _ <-. cleanly.
Qed.
Lemma offline_clean b a sn out out' tb : Forall clean out -> do_offline T Y clock f s i b a sn out = Ok (out', tb) -> Forall clean out' /\ tb = None.
Proof.
  intros HO H. unfold do_offline in H. apply bind_ok in H as (input & _ & H). apply bind_ok in H as (bits & _ & H).
  apply bind_ok in H as (r & _ & H). apply bind_ok in H as ([r' o] & K & [= <- <-]). split; [|reflexivity].
  apply (foldM_inv _ (fun _ s => Forall clean (snd s))) in K; [cbn [snd] in K; cleanly|cbn [snd]; cleanly|].
  intros _ x _ [r1 o1] [r2 o2] _ HP E. cbn [snd] in *. apply bind_ok in E as (r3 & _ & [= _ <-]). cleanly.
Qed.
Lemma reversed_clean k b a sr sn out out' tb : Forall clean out -> do_reversed T Y clock times f s i k b a sr sn out = Ok (out', tb) ->
  Forall clean out' /\ timed tb.
Proof.
  intros HO H. unfold do_reversed in H. apply bind_ok in H as (g & _ & H). apply bind_ok in H as (r & _ & H).
  apply bind_ok in H as (input & _ & H). apply bind_ok in H as (n & _ & H). apply bind_ok in H as (input' & _ & H).
  apply bind_ok in H as ([r' o] & K & [= <- <-]). split; [|right; eauto].
  eapply loop_clean; [| |exact K]; [|cleanly]. intros r1 c o1 e r2 o2 HP E. unfold bench2_run in E.
  apply bind_ok in E as ([e' r3] & _ & [= _ _ <-]). exact HP.
Qed.
Lemma qtrlwe2_clean k d q b a sn out out' tb : Forall clean out -> do_qtrlwe2 T Y clock f s i k d q b a sn out = Ok (out', tb) ->
  Forall clean out' /\ tb = None.
Proof.
  intros HO H. unfold do_qtrlwe2 in H. apply bind_ok in H as (g & _ & H). apply bind_ok in H as (r & _ & H).
  apply bind_ok in H as (input & _ & H). apply bind_ok in H as (n & _ & H). apply bind_ok in H as (input' & _ & H).
  apply bind_ok in H as ([r' o] & K & [= <- <-]). split; [|reflexivity].
  eapply loop_clean; [| |exact K]; [|cleanly]. intros r1 c o1 e r2 o2 HP E. unfold bench3_run in E.
  apply bind_ok in E as ([e' r3] & _ & [= _ _ <-]). cleanly.
Qed.
Lemma bbs_clean k q a sn out out' tb : Forall clean out -> do_bbs T Y clock times f s i k q a sn out = Ok (out', tb) ->
  Forall clean out' /\ timed tb.
Proof.
  intros HO H. unfold do_bbs in H. apply bind_ok in H as (g & _ & H). apply bind_ok in H as (r & _ & H).
  apply bind_ok in H as (input & _ & H). apply bind_ok in H as (n & _ & H). apply bind_ok in H as (input' & _ & H).
  apply bind_ok in H as ([r' o] & K & [= <- <-]). split; [|right; eauto].
  eapply loop_clean; [| |exact K]; [|cleanly]. intros r1 c o1 e r2 o2 HP E. unfold bench4_run in E.
  apply bind_ok in E as ([e' r3] & _ & [= _ _ <-]). cleanly.
Qed.
End Names.
End Clean.

(** * The table *)
Lemma csv_lines order : exists more, concat (map csv_line order) = unlines more /\ Forall no_nl more /\ filter (begins (lit "result")) more = [].
Proof.
  exists (map (fun e => target_name (fst e) ++ [","%char] ++ uint_text (N.to_uint (s_count (snd e))) ++ [","%char] ++ show_Z (s_time (snd e))) order).
  split; [|split].
  - unfold unlines. rewrite map_map. f_equal. apply map_ext. intros e. unfold csv_line. rewrite <- !app_assoc. reflexivity.
  - apply Forall_map, Forall_forall. intros [t e] _. cbn [fst snd]. repeat apply no_nl_app.
    + destruct t; intros H; cbn in H; intuition discriminate.
    + intros H; cbn in H; intuition discriminate.
    + apply digits_clean, uint_text_digits.
    + intros H; cbn in H; intuition discriminate.
    + apply show_Z_clean.
  - induction order as [|[t e] order IH]; [reflexivity|]. cbn [map filter]. destruct t; exact IH.
Qed.
Lemma sum_nonneg (times : nat -> Z) : (forall i, 0 <= times i)%Z -> forall l, (0 <= fold_right Z.add 0 (map times l))%Z.
Proof. intros H. induction l as [|i l IH]; cbn; [lia|]. specialize (H i). lia. Qed.
Lemma summarize_ok B s m : (0 <= s_time s)%Z -> (forall e, In e m -> 0 <= s_time (snd e) <= B)%Z -> (B + s_time s < 2 ^ 63)%Z -> (0 <= B)%Z ->
  exists m', summarize s m = Ok m' /\ forall e, In e m' -> (0 <= s_time (snd e) <= B + s_time s)%Z.
Proof.
  intros HS HM HB B0. induction m as [|[t e] m IH]; cbn [summarize].
  - eexists. split; [reflexivity|]. intros e [<-|[]]. cbn. lia.
  - destruct (target_eqb t (s_target s)).
    + pose proof (HM _ (or_introl eq_refl)) as K. cbn in K. unfold add_time.
      destruct (Z.leb_spec (- 2 ^ 63) (s_time e + s_time s)); [|lia]. destruct (Z.ltb_spec (s_time e + s_time s) (2 ^ 63)); [|lia].
      cbn [andb bind]. eexists. split; [reflexivity|]. intros e' [<-|I]; cbn; [lia|]. specialize (HM e' (or_intror I)). lia.
    + destruct IH as (m' & -> & K); [intros e' I; apply HM; right; auto|]. cbn [bind]. eexists. split; [reflexivity|].
      intros e' [<-|I]; [|auto]. cbn. specialize (HM _ (or_introl eq_refl)). cbn in HM. lia.
Qed.
Lemma table_succeeds times timer : measured times -> forall r, dumpCSV (samples_of times timer) r ->
  exists more, r = Ok (unlines more) /\ Forall no_nl more /\ filter (begins (lit "result")) more = [].
Proof.
  intros [HT HS] r. unfold dumpCSV.
  assert (G : forall timer i m B, (0 <= B)%Z -> (B + fold_right Z.add 0 (map times (seq i (length timer))) < 2 ^ 63)%Z ->
    (forall e, In e m -> 0 <= s_time (snd e) <= B)%Z ->
    exists m', foldM (fun m s => summarize s m) (map (fun '(i, (t, n)) => mkSample (kind_of t) (N.of_nat n) (times i)) (combine (seq i (length timer)) timer)) m = Ok m').
  { clear timer r. induction timer as [|[t n] timer IH]; intros i m B B0 HB HM; cbn [length seq combine map foldM]; [eauto|].
    cbn [length seq map fold_right] in HB. pose proof (HT i). pose proof (sum_nonneg times HT (seq (S i) (length timer))).
    destruct (summarize_ok B (mkSample (kind_of t) (N.of_nat n) (times i)) m) as (m' & -> & K); cbn [s_time]; auto; [lia|].
    cbn [bind]. apply (IH (S i) m' (B + times i)%Z); auto; lia. }
  unfold samples_of. destruct (G timer 0 [] 0%Z) as (m' & ->); [lia|rewrite Z.add_0_l; apply HS|intros e []|].
  intros (order & _ & ->). destruct (csv_lines order) as (more & -> & H1 & H2). eauto.
Qed.

(** * The results *)
Definition expected (verdict : list bool -> res bool) (w : list bool) (k : nat) : list text :=
  map (fun m => match verdict (firstn m w) with Ok b => [if b then "1"%char else "0"%char] | Fail _ => [] end) (multiples k (length w)).
Lemma right_expected verdict w k vs : right_results verdict w k vs -> vs = expected verdict w k.
Proof.
  unfold right_results, expected. induction 1 as [|v m vs l (b & A & B) _ IH]; [reflexivity|]. cbn [map]. rewrite A, IH. unfold shows in B. congruence.
Qed.
Lemma right_clean verdict w k vs : right_results verdict w k vs -> Forall no_nl vs.
Proof.
  unfold right_results. induction 1 as [|v m vs l (b & A & B) _ IH]; constructor; auto. unfold shows in B. subst. destruct b; intros H; cbn in H; intuition discriminate.
Qed.
Lemma multiples_in k n m : 0 < k -> (In m (multiples k n) <-> exists j, m = k * j /\ 0 < j /\ k * j <= n).
Proof.
  intros K. unfold multiples. rewrite filter_In, in_seq, Nat.eqb_eq. split.
  - intros [L M]. apply Nat.mod_divides in M as (j & ->); [|lia]. exists j. repeat split; lia.
  - intros (j & -> & J & L). split; [nia|]. rewrite Nat.mul_comm. apply Nat.mod_mul. lia.
Qed.
Lemma right_nil verdict w k vs : 0 < k -> right_results verdict w k vs -> (vs = [] <-> length w < k).
Proof.
  intros K H. assert (E : vs = [] <-> multiples k (length w) = []).
  { unfold right_results in H. inversion H; subst; split; auto; congruence. }
  rewrite E. split.
  - intros M. destruct (Nat.lt_ge_cases (length w) k) as [|L]; auto. exfalso.
    assert (I : In k (multiples k (length w))) by (apply multiples_in; auto; exists 1; lia). rewrite M in I. destruct I.
  - intros L. destruct (multiples k (length w)) as [|m l] eqn:M; auto. exfalso.
    assert (I : In m (multiples k (length w))) by (rewrite M; left; auto). apply multiples_in in I as (j & _ & J & B); auto. nia.
Qed.
Lemma right_same verdict verdict' w k vs vs' : right_results verdict w k vs -> right_results verdict' w k vs' ->
  (vs = vs' <-> forall m, In m (multiples k (length w)) -> verdict (firstn m w) = verdict' (firstn m w)).
Proof.
  unfold right_results. generalize (multiples k (length w)) as l. intros l H. revert vs'.
  induction H as [|v m vs l (b & A & B) _ IH]; intros vs' H'; inversion H' as [|v' m' vs2 l2 (b' & A' & B') F]; subst.
  - split; auto. intros _ m [].
  - specialize (IH _ F). unfold shows in B, B'. subst. split.
    + intros [= H1 H2] m' [<-|I].
      * rewrite A, A'. destruct b, b'; congruence.
      * apply IH; auto.
    + intros K. f_equal; [|apply IH; intros m' I; apply K; right; auto].
      specialize (K m (or_introl eq_refl)). rewrite A, A' in K. injection K as ->. reflexivity.
Qed.

(** * The runs *)
Lemma workload_eq f f' s i a g w : f' s = f s -> f' i = f i -> workload f s i a g w -> workload f' s i a g w.
Proof.
  intros H1 H2 (EF & SZ & AP & vals & blocks & HP & EI & EW). split; [unfold from_file, open_file in *; rewrite H1; exact EF|].
  split; auto. split; auto. exists vals, blocks. rewrite H2. auto.
Qed.
Lemma not_log p : ~ In p logs -> p <> log_file /\ p <> last_file /\ p <> plain_file.
Proof. intros H. repeat split; intros ->; apply H; cbn; auto. Qed.
Lemma redirect_other f p q t : q <> p -> redirect f p t q = f q.
Proof. intros H. unfold redirect. apply write_other. auto. Qed.
Lemma redirect_same f p t : redirect f p t p = Some (map N_of_ascii t).
Proof. apply write_same. Qed.
Lemma schedule_flushes_le {C} q k (l : list C) : forall n p i m, In m (flushes q n p (schedule k i l)) -> m <= n + p + length l.
Proof.
  induction l as [|c l IH]; intros n p i m; cbn [schedule flushes length]; [intros []|]. intros H.
  destruct (S i mod k =? 0); cbn [app] in H.
  - destruct (S p <? q).
    + cbn [flushes] in H. cbn [Nat.eqb] in H. destruct H as [<-|H]; [lia|]. apply IH in H. lia.
    + destruct H as [<-|H]; [lia|]. cbn [flushes Nat.eqb] in H. apply IH in H. lia.
  - destruct (S p <? q).
    + apply IH in H. lia.
    + destruct H as [<-|H]; [lia|]. apply IH in H. lia.
Qed.
Lemma p30 : positive (lit "30") 30.
Proof. split; [split|]; [reflexivity|reflexivity|lia]. Qed.
Lemma p30000 : positive (lit "30000") (N.to_nat 30000).
Proof. split; [split|]; [vm_compute; reflexivity|rewrite N2Nat.id; reflexivity|lia]. Qed.

Section Runs.
Context (T : tfhe) (s0 s1 : list Z) (bit : trgsw T -> bool -> Prop) (E : noise) (Y : crypto T).
Hypothesis OK : tfhe_ok T s0 s1 bit E.
Hypothesis NN : noise_nonneg E.
Hypothesis YO : crypto_ok T Y s1 bit.

Lemma run_ok f argv vs (Q : res fs -> Prop) :
  (forall clock times now, ordinary clock times -> exists out tb,
     bench_main T Y clock times (redirect f log_file []) now argv = Ok (out, tb) /\ Forall clean out /\ timed times tb /\ values "result" out = vs) ->
  (forall f', grep_result (cat f' log_file) = result_lines vs -> (forall p, p <> log_file -> f' p = f p) -> Q (Ok f')) ->
  benchmark_ends T Y ordinary f argv Q.
Proof.
  intros H K clock times now O. destruct (H clock times now O) as (out & tb & -> & C & TB & V).
  destruct TB as [->|(timer & ->)].
  - apply K.
    + rewrite cat_same, <- V. rewrite <- (app_nil_r (concat _)). apply (grep_lines out []); auto.
    + intros p NP. rewrite !redirect_other; auto.
  - intros r Hr. destruct (table_succeeds times timer (proj2 O) r Hr) as (more & -> & M1 & M2). apply K.
    + rewrite cat_same, <- V. apply grep_lines; auto.
    + intros p NP. rewrite !redirect_other; auto.
Qed.
Lemma compare_ok f argv vs file old (Q : res fs -> Prop) :
  (forall clock times now, ordinary clock times -> exists out tb,
     bench_main T Y clock times (redirect f log_file []) now argv = Ok (out, tb) /\ Forall clean out /\ timed times tb /\ values "result" out = vs) ->
  file <> log_file -> cat f file = result_lines old -> Forall no_nl old -> Forall no_nl vs ->
  (old = vs -> forall f', (forall p, p <> log_file -> f' p = f p) -> Q (Ok f')) -> (old <> vs -> Q (Fail FExit)) ->
  compare_ends T Y ordinary f argv file Q.
Proof.
  intros H NF CF C1 C2 K1 K2. unfold compare_ends. eapply run_ok; [exact H|]. intros f' G FR. cbn [proceed].
  rewrite G. unfold cat at 1. rewrite (FR file NF). change (match f file with Some b => map ascii_of_N b | None => [] end) with (cat f file). rewrite CF.
  unfold path_eqb. destruct (list_eq_dec ascii_dec _ _) as [e|e].
  - apply K1; [|exact FR]. apply result_lines_inj; auto.
  - apply K2. intros ->. apply e. reflexivity.
Qed.

Section Test.
Context (f : fs) (ta : text) (a : nat) (s i : text) (g : Graph) (w : list bool).
Hypothesis PA : positive ta a.
Hypothesis WS : shell_word s.
Hypothesis WI : shell_word i.
Hypothesis LS : ~ In s logs.
Hypothesis LI : ~ In i logs.
Hypothesis WL : workload f s i a g w.
Notation f0 := (redirect f log_file []).
Lemma WL0 : workload f0 s i a g w.
Proof. apply not_log in LS, LI. apply (workload_eq f); auto; apply redirect_other; tauto. Qed.
Lemma RS0 : readable f0 s.
Proof. apply (workload_readable _ _ _ _ _ _ WL0). Qed.
Lemma RI0 : readable f0 i.
Proof. apply (workload_readable _ _ _ _ _ _ WL0). Qed.
Ltac bline items := exists false, items; split; [reflexivity|]; split; [perm|reflexivity].
Lemma plain_run tk k : positive tk k -> exists vs, right_results (accepts g) w k vs /\
  forall clock times now, ordinary clock times -> exists out tb,
    bench_main T Y clock times f0 now (run_benchmark B_plain ta s i tk) = Ok (out, tb) /\ Forall clean out /\ timed times tb /\ values "result" out = vs.
Proof.
  intros PK. pose proof PK as [_ K0]. exists (expected (accepts g) w k).
  assert (G : forall clock times now, ordinary clock times -> exists out tb,
    bench_main T Y clock times f0 now (run_benchmark B_plain ta s i tk) = Ok (out, tb) /\ Forall clean out /\ timed times tb /\
    right_results (accepts g) w k (values "result" out)).
  { intros clock times now O. destruct (C55_plain f0 s i a g w k (header now) WL0 K0) as (more & A & R & _).
    exists (header now ++ more), None. split.
    - rewrite <- A. eapply C57_manual; [|apply (bm_plain T Y clock times f0 now s i ta a tk k RS0 RI0 PA PK)].
      bline [Opt "--spec" s; Opt "--in" i; Opt "--out-freq" tk; Opt "--ap" ta].
    - split; [|split; [left; auto|rewrite header_values; exact R]].
      eapply plain_clean in A; [apply A|exact times|apply word_clean; auto|apply word_clean; auto|apply header_clean]. }
  split.
  - destruct (G (fun _ => []) (fun _ => 0%Z) (mkTm 0 0 0 0 0 0)) as (out & tb & _ & _ & _ & R); [split; [constructor|apply ex_measured]|].
    rewrite <- (right_expected _ _ _ _ R). exact R.
  - intros clock times now O. destruct (G clock times now O) as (out & tb & A & B & C & R). exists out, tb. rewrite (right_expected _ _ _ _ R) in *. auto.
Qed.
Lemma offline_run : w <> [] -> back_margin E (N.to_nat 30000) -> (Z.of_nat (length w) < 2 ^ 31)%Z ->
  exists b, accepts g w = Ok b /\ forall tk clock times now, ordinary clock times -> exists out tb,
    bench_main T Y clock times f0 now (run_benchmark B_offline ta s i tk) = Ok (out, tb) /\ Forall clean out /\ timed times tb /\
    values "result" out = [[if b then "1"%char else "0"%char]].
Proof.
  intros NE BM L. pose proof p30000 as PB. pose proof PB as [_ B0].
  assert (G : forall tk clock times now, ordinary clock times -> exists out tb b,
    bench_main T Y clock times f0 now (run_benchmark B_offline ta s i tk) = Ok (out, tb) /\ Forall clean out /\ timed times tb /\
    accepts g w = Ok b /\ values "result" out = [[if b then "1"%char else "0"%char]]).
  { intros tk clock times now O. destruct (C55_offline T s0 s1 bit E Y OK NN YO clock f0 s i a g w WL0 _ (header now) NE B0 BM L) as (more & b & A & V & R & _).
    exists (header now ++ more), None, b. split.
    - rewrite <- A. eapply C57_manual; [|apply (bm_offline T Y clock times f0 now s i ta a (lit "30000") _ false RS0 RI0 PA PB)].
      bline [Opt "--spec" s; Opt "--in" i; Opt "--bootstrapping-freq" (lit "30000"); Opt "--ap" ta].
    - split; [|split; [left; auto|split; [exact V|rewrite header_values, R; destruct b; reflexivity]]].
      eapply offline_clean in A; [apply A|apply O|apply word_clean; auto|apply word_clean; auto|apply header_clean]. }
  destruct (G [] (fun _ => []) (fun _ => 0%Z) (mkTm 0 0 0 0 0 0)) as (_ & _ & b & _ & _ & _ & V & _); [split; [constructor|apply ex_measured]|].
  exists b. split; [exact V|]. intros tk clock times now O. destruct (G tk clock times now O) as (out & tb & b' & A & B & C & V' & R).
  assert (b' = b) as -> by congruence. eauto 6.
Qed.
Lemma reversed_run' : back_margin E (N.to_nat 30000) -> exists vs, right_results (fun u => accepts g (rev u)) w 30 vs /\
  forall clock times now, ordinary clock times -> exists out tb,
    bench_main T Y clock times f0 now (run_benchmark B_reversed ta s i (lit "30")) = Ok (out, tb) /\ Forall clean out /\ timed times tb /\ values "result" out = vs.
Proof.
  intros BM. pose proof p30000 as PB. pose proof PB as [_ B0]. pose proof p30 as PK. pose proof PK as [_ K0].
  exists (expected (fun u => accepts g (rev u)) w 30).
  assert (G : forall clock times now, ordinary clock times -> exists out tb,
    bench_main T Y clock times f0 now (run_benchmark B_reversed ta s i (lit "30")) = Ok (out, tb) /\ Forall clean out /\ timed times tb /\
    right_results (fun u => accepts g (rev u)) w 30 (values "result" out)).
  { intros clock times now O.
    destruct (C55_reversed T s0 s1 bit E Y OK NN YO clock times f0 s i a g w WL0 _ 30 true (header now) K0 B0 BM) as (more & sm & m & A & R & _).
    exists (header now ++ more), (Some sm). split.
    - rewrite <- A. eapply C57_manual; [|apply (bm_reversed T Y clock times f0 now s i ta a (lit "30") 30 (lit "30000") _ true false RS0 RI0 PA PK PB)].
      bline [Opt "--spec" s; Opt "--in" i; Opt "--bootstrapping-freq" (lit "30000"); Opt "--out-freq" (lit "30"); Opt "--ap" ta; Flag "--spec-reversed"].
    - eapply reversed_clean in A; [|apply O|apply word_clean; auto|apply word_clean; auto|apply header_clean].
      destruct A. split; [assumption|]. split; [assumption|]. rewrite header_values. exact R. }
  split.
  - destruct (G (fun _ => []) (fun _ => 0%Z) (mkTm 0 0 0 0 0 0)) as (out & tb & _ & _ & _ & R); [split; [constructor|apply ex_measured]|].
    rewrite <- (right_expected _ _ _ _ R). exact R.
  - intros clock times now O. destruct (G clock times now O) as (out & tb & A & B & C & R). exists out, tb. rewrite (right_expected _ _ _ _ R) in *. auto.
Qed.
Lemma flut_run : flut_margin (size g * 2 ^ 7) 15 1 E -> 2 ^ 8 <= t_n1 T -> (forall n k, n <= length w -> width g n k -> k < 2 ^ 8) ->
  exists vs, right_results (accepts g) w 30 vs /\
  forall clock times now, ordinary clock times -> exists out tb,
    bench_main T Y clock times f0 now (run_benchmark B_flut ta s i (lit "30")) = Ok (out, tb) /\ Forall clean out /\ timed times tb /\ values "result" out = vs.
Proof.
  intros FM DN FT. pose proof p30 as PK. pose proof PK as [_ K0].
  exists (expected (accepts g) w 30).
  assert (G : forall clock times now, ordinary clock times -> exists out tb,
    bench_main T Y clock times f0 now (run_benchmark B_flut ta s i (lit "30")) = Ok (out, tb) /\ Forall clean out /\ timed times tb /\
    right_results (accepts g) w 30 (values "result" out)).
  { intros clock times now O.
    destruct (C55_qtrlwe2 T s0 s1 bit E Y OK NN YO clock times f0 s i a g w WL0 30 8 15 1 (header now) K0) as [X _]; try lia; auto.
    { now apply FlutFacts.depth_fits. }
    destruct X as (more & A & R & _).
    { intros n k I. apply schedule_flushes_le in I. apply FT. lia. }
    exists (header now ++ more), None. split.
    - rewrite <- A. eapply C57_manual; [|apply (bm_qtrlwe2 T Y clock times f0 now s i ta a (lit "30") 30 (lit "15") 15 (lit "1") 1 (lit "8") 8 false RS0 RI0 PA PK p15 p1 p8)].
      bline [Opt "--spec" s; Opt "--in" i; Opt "--bootstrapping-freq" (lit "1"); Opt "--out-freq" (lit "30"); Opt "--ap" ta; Opt "--queue-size" (lit "15");
        Opt "--max-second-lut-depth" (lit "8")].
    - eapply qtrlwe2_clean in A; [|apply O|apply word_clean; auto|apply word_clean; auto|apply header_clean].
      destruct A. split; [assumption|]. split; [left; assumption|]. rewrite header_values. exact R. }
  split.
  - destruct (G (fun _ => []) (fun _ => 0%Z) (mkTm 0 0 0 0 0 0)) as (out & tb & _ & _ & _ & R); [split; [constructor|apply ex_measured]|].
    rewrite <- (right_expected _ _ _ _ R). exact R.
  - intros clock times now O. destruct (G clock times now O) as (out & tb & A & B & C & R). exists out, tb. rewrite (right_expected _ _ _ _ R) in *. auto.
Qed.
Lemma bbs_run' : block_margin g 30 E -> Nat.log2 (size g) + 1 < t_n1 T -> Nat.log2 (size g) + 1 < 31 ->
  exists vs, right_results (accepts g) w 30 vs /\
  forall clock times now, ordinary clock times -> exists out tb,
    bench_main T Y clock times f0 now (run_benchmark B_bbs ta s i (lit "30")) = Ok (out, tb) /\ Forall clean out /\ timed times tb /\ values "result" out = vs.
Proof.
  intros BM L1 L2. pose proof p30 as PK. pose proof PK as [_ K0].
  exists (expected (accepts g) w 30).
  assert (G : forall clock times now, ordinary clock times -> exists out tb,
    bench_main T Y clock times f0 now (run_benchmark B_bbs ta s i (lit "30")) = Ok (out, tb) /\ Forall clean out /\ timed times tb /\
    right_results (accepts g) w 30 (values "result" out)).
  { intros clock times now O.
    destruct (C55_bbs T s0 s1 bit E Y OK NN YO clock times f0 s i a g w WL0 30 30 (header now) K0 BM L1 L2) as (more & sm & A & R & _).
    exists (header now ++ more), (Some sm). split.
    - rewrite <- A. eapply C57_manual; [|apply (bm_bbs T Y clock times f0 now s i ta a (lit "30") 30 (lit "30") 30 false RS0 RI0 PA PK p30)].
      bline [Opt "--spec" s; Opt "--in" i; Opt "--out-freq" (lit "30"); Opt "--ap" ta; Opt "--queue-size" (lit "30")].
    - eapply bbs_clean in A; [|apply O|apply word_clean; auto|apply word_clean; auto|apply header_clean].
      destruct A. split; [assumption|]. split; [assumption|]. rewrite header_values. exact R. }
  split.
  - destruct (G (fun _ => []) (fun _ => 0%Z) (mkTm 0 0 0 0 0 0)) as (out & tb & _ & _ & _ & R); [split; [constructor|apply ex_measured]|].
    rewrite <- (right_expected _ _ _ _ R). exact R.
  - intros clock times now O. destruct (G clock times now O) as (out & tb & A & B & C & R). exists out, tb. rewrite (right_expected _ _ _ _ R) in *. auto.
Qed.
End Test.
End Runs.
