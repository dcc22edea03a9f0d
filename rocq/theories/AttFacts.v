(** The AT&T format. *)
From Coq Require Import List Arith Bool NArith ZArith Ascii Lia.
Import ListNotations.
From Verif Require Import Base BaseFacts GraphModel Spec GraphFacts FromNfa TextModel TextSpec TextFacts TextClaims.

Lemma match_att_edge_iff line a b ch :
  match_att_edge line = Some (a, b, ch) <->
  line = a ++ "009"%char :: b ++ "009"%char :: [if ch : bool then "1"%char else "0"%char] /\
  a <> [] /\ Forall Digit a /\ b <> [] /\ Forall Digit b.
Proof.
  unfold match_att_edge. split.
  - destruct (plus is_digit line) as [[a' s1]|] eqn:E1; [|discriminate].
    apply plus_spec in E1 as (-> & N1 & D1 & _). apply Forall_digit in D1.
    destruct (optc c_tab s1) as [[] s2] eqn:E2; [|discriminate]. apply optc_spec in E2 as [-> _].
    destruct (plus is_digit s2) as [[b' s3]|] eqn:E3; [|discriminate].
    apply plus_spec in E3 as (-> & N2 & D2 & _). apply Forall_digit in D2.
    destruct (optc c_tab s3) as [[] s4] eqn:E4; [|discriminate]. apply optc_spec in E4 as [-> _].
    destruct s4 as [|c [|]]; try discriminate.
    destruct (Ascii.eqb_spec c c_0) as [->|]; [|destruct (Ascii.eqb_spec c c_1) as [->|]; [|discriminate]];
      intros [= <- <- <-]; auto 10.
  - intros (-> & N1 & D1 & N2 & D2). apply Forall_digit in D1, D2.
    rewrite (proj2 (plus_spec is_digit _ a ("009"%char :: b ++ "009"%char :: [if ch then "1"%char else "0"%char])))
      by (repeat split; auto).
    cbn [optc]. change (Ascii.eqb "009" c_tab) with true. cbn iota.
    rewrite (proj2 (plus_spec is_digit _ b ("009"%char :: [if ch then "1"%char else "0"%char])))
      by (repeat split; auto).
    cbn [optc]. change (Ascii.eqb "009" c_tab) with true. cbn iota. destruct ch; reflexivity.
Qed.

Lemma match_att_final_iff line a : match_att_final line = Some a <-> line = a /\ a <> [] /\ Forall Digit a.
Proof.
  unfold match_att_final. split.
  - destruct (plus is_digit line) as [[a' [|c s]]|] eqn:E; try discriminate. intros [= <-].
    apply plus_spec in E as (-> & N & D & _). rewrite app_nil_r. apply Forall_digit in D. auto.
  - intros (-> & N & D). apply Forall_digit in D.
    rewrite (proj2 (plus_spec is_digit _ a [])); auto. repeat split; auto. rewrite app_nil_r; auto.
Qed.

Lemma stoi_plain_ok s n : s <> [] -> Forall Digit s -> (stoi_plain s = Ok n <-> int_number s n).
Proof.
  intros N D. rewrite stoi_int_number by auto. unfold stoi_plain. split.
  - destruct (stoi s); try discriminate. intros [= <-]; eauto.
  - intros (v & -> & ->). reflexivity.
Qed.

(** What has been read so far. *)
Record att_inv (items : list att_item) (s : list nat * list (nat * list nat * list nat)) : Prop := {
  ai_set : is_set (fst s);
  ai_fin : forall q, In q (fst s) <-> In (AFinal q) items;
  ai_edge : forall q b q', nfa_edge (snd s) q b q' <-> In (AEdge q q' b) items;
  ai_len : forall n, length (snd s) <= n <-> forall f t b, In (AEdge f t b) items -> f < n }.

Lemma att_inv_nil : att_inv [] ([], []).
Proof.
  constructor; cbn; auto; [tauto| |].
  - intros q b q'. split; [|tauto]. intros (? & ? & ? & E & _). destruct q; discriminate.
  - intros n. split; intros; [tauto|lia].
Qed.

Lemma att_grow_nth d from i :
  nth_error (att_grow d from) i =
  if i <? length d then nth_error d i
  else if i <=? from then Some (i, [], []) else None.
Proof.
  unfold att_grow. destruct (Nat.ltb_spec i (length d)).
  - apply nth_error_app1; auto.
  - rewrite nth_error_app2 by auto. rewrite nth_error_map.
    destruct (Nat.leb_spec i from).
    + rewrite nth_error_nth' with (d := 0) by (rewrite seq_length; lia). rewrite seq_nth by lia.
      cbn. repeat f_equal. lia.
    + rewrite (proj2 (nth_error_None _ _)); [reflexivity|rewrite seq_length; lia].
Qed.
Lemma att_grow_length d from : length (att_grow d from) = Nat.max (length d) (S from).
Proof. unfold att_grow. rewrite app_length, map_length, seq_length. lia. Qed.

Lemma att_grow_edge d from q b q' : nfa_edge (att_grow d from) q b q' <-> nfa_edge d q b q'.
Proof.
  unfold nfa_edge. rewrite att_grow_nth. destruct (Nat.ltb_spec q (length d)); [tauto|].
  split; intros (l & d0 & d1 & E & HI); exfalso.
  - destruct (q <=? from); [|discriminate]. injection E as <- <- <-. destruct b; destruct HI.
  - apply nth_error_None in H. congruence.
Qed.

Lemma att_line_edge items s line a b ch s' : att_inv items s ->
  match_att_edge line = Some (a, b, ch) ->
  (att_line s line = Ok s' ->
     exists f t, int_number a f /\ int_number b t /\ att_inv (items ++ [AEdge f t ch]) s') /\
  (forall f t, int_number a f -> int_number b t -> exists s', att_line s line = Ok s').
Proof.
  intros I M. pose proof M as M0. apply match_att_edge_iff in M0 as (_ & N1 & D1 & N2 & D2).
  destruct s as [fs d]. unfold att_line. rewrite M.
  assert (R : forall f t, stoi_plain a = Ok f -> stoi_plain b = Ok t ->
    exists d2, (do from <- stoi_plain a; do to <- stoi_plain b; let delta1 := att_grow d from in
      do '(q, d0, d1) <- at_ delta1 from;
      do delta2 <- set_at delta1 from (if ch : bool then (q, d0, d1 ++ [to]) else (q, d0 ++ [to], d1));
      Ok (fs, delta2)) = Ok (fs, d2) /\ att_inv (items ++ [AEdge f t ch]) (fs, d2)).
  { intros f t Ef Et. rewrite Ef, Et. cbn [bind].
    assert (L : f < length (att_grow d f)) by (rewrite att_grow_length; lia).
    destruct (nth_error (att_grow d f) f) as [[[q d0] d1]|] eqn:En; [|apply nth_error_None in En; lia].
    unfold at_. rewrite En. cbn [bind]. rewrite set_at_lt by auto. cbn [bind].
    eexists. split; [reflexivity|]. destruct I as [I1 I2 I3 I4]. cbn [fst snd] in *.
    constructor; cbn [fst snd]; auto.
    - intros p. rewrite in_app_iff, I2. cbn. intuition discriminate.
    - intros p c p'. rewrite in_app_iff, <- I3, <- (att_grow_edge d f). cbn [In].
      assert (EdgeF : forall x, nfa_edge (att_grow d f) f x p' <-> In p' (if x : bool then d1 else d0)).
      { intros x. unfold nfa_edge. rewrite En. split.
        - intros (? & ? & ? & [= <- <- <-] & H); auto.
        - intros H. eauto 10. }
      unfold nfa_edge at 1. rewrite upd_nth. destruct (Nat.eqb_spec p f) as [->|Hp].
      + apply Nat.ltb_lt in L. rewrite L, ?Nat.eqb_refl. cbn [andb]. rewrite EdgeF.
        assert (forall x y : list nat, (exists l d2 d3, Some (q, x, y) = Some (l, d2, d3) /\ In p' (if c then d3 else d2))
                 <-> In p' (if c then y else x)) as K.
        { intros x y. split; [intros (? & ? & ? & [= <- <- <-] & H); auto|intros H; eauto 10]. }
        destruct ch; rewrite K; destruct c; rewrite ?in_app_iff; cbn [In]; intuition congruence.
      + replace (f =? p) with false by (symmetry; apply Nat.eqb_neq; auto). cbn [andb].
        unfold nfa_edge. intuition congruence.
    - intros n. rewrite upd_length, att_grow_length. specialize (I4 n). split.
      + intros H f0 t0 b0 Hin. apply in_app_or in Hin as [Hin|[[= <- <- <-]|[]]]; [|lia].
        apply (proj1 I4) with (f := f0) (t := t0) (b := b0); [lia|auto].
      + intros H. assert (f < n) by (apply (H f t ch); apply in_or_app; cbn; auto).
        assert (length d <= n); [|lia]. apply I4. intros f0 t0 b0 Hin. apply (H f0 t0 b0). apply in_or_app; auto. }
  split.
  - intros H. pose proof H as H0. apply bind_ok in H0 as (f & Ef & H0). apply bind_ok in H0 as (t & Et & _).
    destruct (R f t Ef Et) as (d2 & E & HI). pose proof (eq_trans (eq_sym H) E) as H1. injection H1 as ->.
    exists f, t. split; [apply stoi_plain_ok; auto|]. split; [apply stoi_plain_ok; auto|auto].
  - intros f t Hf Ht. apply stoi_plain_ok in Hf, Ht; auto. destruct (R f t Hf Ht) as (d2 & E & _). eauto.
Qed.

Lemma att_denotes_edge line a b ch it : match_att_edge line = Some (a, b, ch) ->
  (att_denotes line it <-> exists f t, int_number a f /\ int_number b t /\ it = AEdge f t ch).
Proof.
  intros M. split.
  - intros H. inversion H as [a' b' f t Ha Hb|a' b' f t Ha Hb|a' q Ha]; subst.
    + pose proof (int_number_digits _ _ Ha) as [? ?]. pose proof (int_number_digits _ _ Hb) as [? ?].
      rewrite (proj2 (match_att_edge_iff _ a' b' false)) in M by auto. injection M as <- <- <-. eauto.
    + pose proof (int_number_digits _ _ Ha) as [? ?]. pose proof (int_number_digits _ _ Hb) as [? ?].
      rewrite (proj2 (match_att_edge_iff _ a' b' true)) in M by auto. injection M as <- <- <-. eauto.
    + exfalso. apply match_att_edge_iff in M as (-> & _). apply int_number_digits in Ha as [D _].
      apply Forall_app in D as [_ D]. inversion D as [|? ? D1 _]; subst. apply is_digit_Digit in D1. discriminate.
  - intros (f & t & Hf & Ht & ->). apply match_att_edge_iff in M as (-> & _).
    destruct ch; constructor; auto.
Qed.

Lemma att_denotes_final line a it : match_att_edge line = None -> match_att_final line = Some a ->
  (att_denotes line it <-> exists q, int_number a q /\ it = AFinal q).
Proof.
  intros M F. apply match_att_final_iff in F as (-> & N & D). split.
  - intros H. inversion H as [a' b' f t Ha Hb|a' b' f t Ha Hb|a' q Ha]; subst.
    + pose proof (int_number_digits _ _ Ha) as [? ?]. pose proof (int_number_digits _ _ Hb) as [? ?].
      rewrite (proj2 (match_att_edge_iff _ a' b' false)) in M by auto. discriminate.
    + pose proof (int_number_digits _ _ Ha) as [? ?]. pose proof (int_number_digits _ _ Hb) as [? ?].
      rewrite (proj2 (match_att_edge_iff _ a' b' true)) in M by auto. discriminate.
    + eauto.
  - intros (q & Hq & ->). constructor; auto.
Qed.

Lemma att_denotes_none line it : match_att_edge line = None -> match_att_final line = None ->
  ~ att_denotes line it.
Proof.
  intros M F H. inversion H as [a' b' f t Ha Hb|a' b' f t Ha Hb|a' q Ha]; subst.
  - pose proof (int_number_digits _ _ Ha) as [? ?]. pose proof (int_number_digits _ _ Hb) as [? ?].
    rewrite (proj2 (match_att_edge_iff _ a' b' false)) in M by auto. discriminate.
  - pose proof (int_number_digits _ _ Ha) as [? ?]. pose proof (int_number_digits _ _ Hb) as [? ?].
    rewrite (proj2 (match_att_edge_iff _ a' b' true)) in M by auto. discriminate.
  - pose proof (int_number_digits _ _ Ha) as [? ?].
    rewrite (proj2 (match_att_final_iff _ line)) in F by auto. discriminate.
Qed.

Lemma att_denotes_fun1 l i1 i2 : att_denotes l i1 -> att_denotes l i2 -> i1 = i2.
Proof.
  intros H1 H2. destruct (match_att_edge l) as [[[a b] ch]|] eqn:M.
  - apply (att_denotes_edge _ _ _ _ _ M) in H1 as (f & t & Ha & Hb & ->).
    apply (att_denotes_edge _ _ _ _ _ M) in H2 as (f' & t' & Ha' & Hb' & ->).
    apply int_number_iff in Ha, Hb, Ha', Hb'. intuition congruence.
  - destruct (match_att_final l) as [a|] eqn:F; [|exfalso; eapply att_denotes_none; eauto].
    apply (att_denotes_final _ _ _ M F) in H1 as (q & Hq & ->).
    apply (att_denotes_final _ _ _ M F) in H2 as (q' & Hq' & ->).
    apply int_number_iff in Hq, Hq'. intuition congruence.
Qed.
Lemma att_denotes_fun ls i1 : Forall2 att_denotes ls i1 -> forall i2, Forall2 att_denotes ls i2 -> i1 = i2.
Proof.
  induction 1 as [|l it ls its H F IH]; intros i2 H2; inversion H2; subst; auto.
  f_equal; auto. eapply att_denotes_fun1; eauto.
Qed.

Lemma att_line_spec items s line : att_inv items s ->
  (forall s', att_line s line = Ok s' -> exists it, att_denotes line it /\ att_inv (items ++ [it]) s') /\
  (forall it, att_denotes line it -> exists s', att_line s line = Ok s' /\ att_inv (items ++ [it]) s').
Proof.
  intros I. destruct (match_att_edge line) as [[[a b] ch]|] eqn:M.
  - pose proof (fun s' => att_line_edge items s line a b ch s' I M) as H. split.
    + intros s' E. destruct (proj1 (H s') E) as (f & t & Ha & Hb & HI). exists (AEdge f t ch). split; auto.
      apply (att_denotes_edge line a b ch); eauto.
    + intros it Hit. apply (att_denotes_edge line a b ch) in Hit as (f & t & Ha & Hb & ->); auto.
      destruct (proj2 (H s) f t Ha Hb) as (s' & E). exists s'. split; auto.
      destruct (proj1 (H s') E) as (f' & t' & Ha' & Hb' & HI).
      apply int_number_iff in Ha, Hb, Ha', Hb'.
      destruct Ha as (_ & _ & _ & ->), Ha' as (_ & _ & _ & ->), Hb as (_ & _ & _ & ->), Hb' as (_ & _ & _ & ->).
      exact HI.
  - destruct s as [fs d]. unfold att_line. rewrite M. destruct (match_att_final line) as [a|] eqn:F.
    + assert (K : forall q, int_number a q -> att_inv (items ++ [AFinal q]) (sinsert q fs, d)).
      { intros q Hq. destruct I as [I1 I2 I3 I4]. cbn [fst snd] in *. constructor; cbn [fst snd].
        - apply is_set_sinsert; auto.
        - intros p. rewrite sinsert_In, in_app_iff, I2. cbn. intuition congruence.
        - intros p c p'. rewrite in_app_iff, I3. cbn. intuition discriminate.
        - intros n. rewrite I4. split; intros H f t c Hin.
          + apply in_app_or in Hin as [Hin|[G|[]]]; [eauto|discriminate].
          + apply (H f t c). apply in_or_app; auto. }
      pose proof F as F0. apply match_att_final_iff in F0 as (-> & N & D). split.
      * intros s' E. apply bind_ok in E as (q & Eq & E). injection E as <-. apply stoi_plain_ok in Eq; auto.
        exists (AFinal q). split; [apply (att_denotes_final a a); eauto|auto].
      * intros it Hit. apply (att_denotes_final a a) in Hit as (q & Hq & ->); auto.
        pose proof Hq as Hq'. apply stoi_plain_ok in Hq'; auto. rewrite Hq'. cbn. eauto.
    + split; [discriminate|]. intros it Hit. exfalso. eapply att_denotes_none; eauto.
Qed.

Lemma att_lines ls : forall items s, att_inv items s ->
  (forall s', foldM att_line ls s = Ok s' ->
     exists its, Forall2 att_denotes ls its /\ att_inv (items ++ its) s') /\
  (forall its, Forall2 att_denotes ls its ->
     exists s', foldM att_line ls s = Ok s' /\ att_inv (items ++ its) s').
Proof.
  induction ls as [|l ls IH]; intros items s I; cbn [foldM].
  - split.
    + intros s' [= <-]. exists []. rewrite app_nil_r. split; auto.
    + intros its H. inversion H; subst. rewrite app_nil_r. eauto.
  - destruct (att_line_spec items s l I) as [A B]. split.
    + intros s' E. apply bind_ok in E as (s1 & E1 & E). destruct (A s1 E1) as (it & Hit & I1).
      destruct (proj1 (IH _ _ I1) s' E) as (its & HF & I2). exists (it :: its). split; auto.
      rewrite <- app_assoc in I2. exact I2.
    + intros its H. inversion H as [|? it ? its' Hit HF]; subst. destruct (B it Hit) as (s1 & E1 & I1).
      rewrite E1. cbn [bind]. destruct (proj2 (IH _ _ I1) its' HF) as (s' & E & I2).
      exists s'. split; auto. rewrite <- app_assoc in I2. exact I2.
Qed.

Lemma att_inv_path items s : att_inv items s ->
  forall w q q', nfa_path (snd s) q w q' <-> att_path items q w q'.
Proof.
  intros I. induction w as [|b w IH]; intros q q'.
  - split; inversion 1; constructor.
  - split; inversion 1; subst.
    + econstructor; [apply (ai_edge _ _ I); eauto|apply IH; eauto].
    + econstructor; [apply (ai_edge _ _ I); eauto|apply IH; eauto].
Qed.

(** Every state that some word reaches from 0 is at most the largest source of an edge. *)
Definition att_covered (items : list att_item) : Prop :=
  forall w q, att_path items 0 w q -> exists f t b, In (AEdge f t b) items /\ q <= f.

Lemma att_covered_iff items s : att_inv items s -> (nfa_no_dangling [0] (snd s) <-> att_covered items).
Proof.
  intros I. unfold nfa_no_dangling, att_covered. split.
  - intros H w q P. apply (att_inv_path items s I) in P. specialize (H 0 w q (or_introl eq_refl) P).
    destruct (existsb (fun it => match it with AEdge f _ _ => q <=? f | _ => false end) items) eqn:E.
    + apply existsb_exists in E as ([f t b|] & Hin & L); [|discriminate]. apply Nat.leb_le in L. eauto 10.
    + exfalso. assert (length (snd s) <= q); [|lia]. apply (ai_len _ _ I). intros f t b Hin.
      destruct (Nat.lt_ge_cases f q) as [|L]; auto. exfalso.
      assert (existsb (fun it => match it with AEdge f _ _ => q <=? f | _ => false end) items = true); [|congruence].
      apply existsb_exists. exists (AEdge f t b). split; auto. apply Nat.leb_le; auto.
  - intros H q w q' [<-|[]] P. apply (att_inv_path items s I) in P.
    destruct (H w q' P) as (f & t & b & Hin & L).
    destruct (Nat.lt_ge_cases q' (length (snd s))) as [|L']; auto.
    apply (proj1 (ai_len _ _ I _) L') in Hin. lia.
Qed.

Lemma from_att_spec t ls : lines_of t ls ->
  (forall g, from_att_istream t = Ok g ->
     exists items, Forall2 att_denotes ls items /\ att_covered items /\ wf_graph g /\
       dfa_decides g (att_accepts items)) /\
  (forall items, Forall2 att_denotes ls items -> att_covered items -> exists g, from_att_istream t = Ok g) /\
  (forall items, Forall2 att_denotes ls items -> ~ att_covered items -> from_att_istream t = Fail FOutOfRange).
Proof.
  intros HL. apply lines_of_unique in HL. unfold from_att_istream. rewrite HL.
  destruct (att_lines ls [] ([], []) att_inv_nil) as [A B]. cbn [app] in *.
  assert (S0 : is_set [0]) by (cbn; auto).
  split; [|split].
  - intros g E. apply bind_ok in E as ([fs d] & E1 & E). destruct (A _ E1) as (items & HF & I).
    exists items. split; auto. destruct (from_nfa_ok_iff [0] fs d S0) as [K _].
    split. { apply (att_covered_iff items (fs, d) I). cbn. apply K; eauto. }
    split; [eapply from_nfa_wf; eauto|].
    apply from_nfa_language in E; auto. intros w. specialize (E w).
    assert (nfa_accepts [0] fs d w <-> att_accepts items w); [|tauto].
    unfold nfa_accepts, att_accepts. split.
    + intros (q & q' & [<-|[]] & P & F). exists q'. split; [apply (att_inv_path items (fs, d) I); auto|].
      apply (ai_fin _ _ I). auto.
    + intros (q' & P & F). exists 0, q'. split; [cbn; auto|]. split; [apply (att_inv_path items (fs, d) I); auto|].
      apply (ai_fin _ _ I) in F. auto.
  - intros items HF C. destruct (B items HF) as ([fs d] & E & I). rewrite E. cbn [bind].
    apply (from_nfa_ok_iff [0] fs d S0). apply (att_covered_iff items (fs, d) I); auto.
  - intros items HF C. destruct (B items HF) as ([fs d] & E & I). rewrite E. cbn [bind].
    apply (from_nfa_ok_iff [0] fs d S0). intros N. apply C. apply (att_covered_iff items (fs, d) I); auto.
Qed.

(** ** dump_att *)
Definition att_lines_of (g : Graph) (q : nat) : list text :=
  [show_nat q ++ "009"%char :: show_nat (nxt g q false) ++ "009"%char :: ["0"%char];
   show_nat q ++ "009"%char :: show_nat (nxt g q true) ++ "009"%char :: ["1"%char]] ++
  (if fin g q then [show_nat q] else []).
Definition att_items_of (g : Graph) (q : nat) : list att_item :=
  [AEdge q (nxt g q false) false; AEdge q (nxt g q true) true] ++
  (if fin g q then [AFinal q] else []).

Lemma dump_att_lines g : wf_graph g ->
  dump_att g = Ok (concat (map (fun l => l ++ ["010"%char]) (flat_map (att_lines_of g) (seq 0 (size g))))).
Proof.
  intros W. unfold dump_att, all_states.
  rewrite (mapM_pure _ (fun q => concat (map (fun l => l ++ ["010"%char]) (att_lines_of g q)))).
  - cbn [bind]. f_equal. induction (seq 0 (size g)) as [|q l IH]; cbn [map flat_map concat]; auto.
    rewrite map_app, concat_app, IH. reflexivity.
  - intros q Hq. apply in_seq in Hq. unfold dump_att_row. rewrite !next_state_nxt by lia. cbn [bind].
    rewrite is_final_fin by (auto; lia). cbn [bind]. unfold att_lines_of, c_tab, c_nl, c_0, c_1.
    destruct (fin g q); cbn [app map concat]; repeat rewrite <- app_assoc; cbn [app]; rewrite ?app_nil_r; auto;
      f_equal; repeat (rewrite <- app_assoc; cbn [app]); reflexivity.
Qed.

Lemma att_lines_no_nl g q l : In l (att_lines_of g q) -> ~ In "010"%char l.
Proof.
  unfold att_lines_of. intros H HN.
  assert (D : forall n, ~ In "010"%char (show_nat n)) by (intros; apply digits_no_nl, show_nat_digits).
  destruct H as [<-|[<-|H]].
  - apply in_app_or in HN as [HN|[HN|HN]]; [apply (D _ HN)|discriminate|].
    apply in_app_or in HN as [HN|[HN|[HN|[]]]]; [apply (D _ HN)|discriminate|discriminate].
  - apply in_app_or in HN as [HN|[HN|HN]]; [apply (D _ HN)|discriminate|].
    apply in_app_or in HN as [HN|[HN|[HN|[]]]]; [apply (D _ HN)|discriminate|discriminate].
  - destruct (fin g q); [|destruct H]. destruct H as [<-|[]]. apply (D _ HN).
Qed.

Lemma dump_att_denotes g : wf_graph g -> (N.of_nat (size g) <= int_max + 1)%N ->
  Forall2 att_denotes (flat_map (att_lines_of g) (seq 0 (size g)))
                      (flat_map (att_items_of g) (seq 0 (size g))).
Proof.
  intros W HB.
  assert (G : forall l, (forall q, In q l -> q < size g) ->
     Forall2 att_denotes (flat_map (att_lines_of g) l) (flat_map (att_items_of g) l)).
  { induction l as [|q l IH]; intros Hl; cbn [flat_map]; [constructor|].
    assert (Hq : q < size g) by (apply Hl; cbn; auto).
    pose proof (nxt_lt g q false W Hq). pose proof (nxt_lt g q true W Hq).
    apply Forall2_app; [|apply IH; intros; apply Hl; cbn; auto].
    unfold att_lines_of, att_items_of. constructor; [constructor; apply show_nat_int; lia|].
    constructor; [constructor; apply show_nat_int; lia|].
    destruct (fin g q); constructor; [constructor; apply show_nat_int; lia|constructor]. }
  apply G. intros q Hq. apply in_seq in Hq. lia.
Qed.

Lemma dump_items_edge g q b q' :
  In (AEdge q q' b) (flat_map (att_items_of g) (seq 0 (size g))) <-> q < size g /\ nxt g q b = q'.
Proof.
  rewrite in_flat_map. split.
  - intros (p & Hp & H). apply in_seq in Hp. unfold att_items_of in H.
    destruct H as [H|[H|H]]; [injection H as <- <- <-; split; auto; lia|injection H as <- <- <-; split; auto; lia|].
    destruct (fin g p); [|destruct H]. destruct H as [H|[]]; discriminate.
  - intros [L <-]. exists q. split; [apply in_seq; lia|]. unfold att_items_of. destruct b; cbn; auto.
Qed.
Lemma dump_items_final g q :
  In (AFinal q) (flat_map (att_items_of g) (seq 0 (size g))) <-> q < size g /\ fin g q = true.
Proof.
  rewrite in_flat_map. split.
  - intros (p & Hp & H). apply in_seq in Hp. unfold att_items_of in H.
    destruct H as [H|[H|H]]; [discriminate|discriminate|].
    destruct (fin g p) eqn:E; [|destruct H]. destruct H as [H|[]]. injection H as <-. split; auto; lia.
  - intros [L E]. exists q. split; [apply in_seq; lia|]. unfold att_items_of. rewrite E. cbn; auto.
Qed.

Lemma dump_att_path g : wf_graph g -> forall w q q', q < size g ->
  (att_path (flat_map (att_items_of g) (seq 0 (size g))) q w q' <-> run g q w = q').
Proof.
  intros W. induction w as [|b w IH]; intros q q' Hq.
  - split; [inversion 1; auto|cbn; intros ->; constructor].
  - cbn. pose proof (nxt_lt g q b W Hq). split.
    + inversion 1; subst. apply dump_items_edge in H4 as [_ <-]. apply IH; auto.
    + intros E. econstructor; [apply dump_items_edge; eauto|apply IH; auto].
Qed.

(** Printing in AT&T format and reading back gives the language from state 0. *)
Lemma dump_att_round_trip g t : wf_graph g -> (N.of_nat (size g) <= int_max + 1)%N ->
  dump_att g = Ok t ->
  exists g', from_att_istream t = Ok g' /\ wf_graph g' /\
    forall w, accepts g' w = bind (run_from g 0 w) (is_final_state g).
Proof.
  intros W HB E. rewrite dump_att_lines in E by auto. injection E as <-.
  assert (HL := lines_of_concat (flat_map (att_lines_of g) (seq 0 (size g)))).
  destruct (from_att_spec _ _ (HL ltac:(intros l Hl; apply in_flat_map in Hl as (q & _ & Hl); eapply att_lines_no_nl; eauto)))
    as (A & B & _). clear HL.
  pose proof (dump_att_denotes g W HB) as HF.
  set (items := flat_map (att_items_of g) (seq 0 (size g))) in *.
  assert (H0 : 0 < size g) by (pose proof (init_lt g W); unfold initial_state in *; lia).
  assert (C : att_covered items).
  { intros w q P. apply dump_att_path in P; auto. pose proof (run_lt g w 0 W H0) as L.
    exists q, (nxt g q false), false. split; auto. apply dump_items_edge. subst q; auto. }
  destruct (B items HF C) as (g' & E). destruct (A g' E) as (items' & HF' & _ & W' & D).
  exists g'. split; auto. split; auto.
  assert (U : items' = items).
  { eapply att_denotes_fun; eauto. }
  subst items'. intros w. rewrite run_from_run by auto. cbn [bind].
  pose proof (run_lt g w 0 W H0) as L. rewrite is_final_fin by auto.
  specialize (D w). unfold dfa_accepts, dfa_rejects in D.
  assert (AC : att_accepts items w <-> fin g (run g 0 w) = true).
  { unfold att_accepts. split.
    - intros (q & P & F). apply dump_att_path in P; auto. subst q. apply dump_items_final in F. tauto.
    - intros F. exists (run g 0 w). split; [apply dump_att_path; auto|]. apply dump_items_final; auto. }
  destruct (fin g (run g 0 w)).
  - apply D. apply AC. reflexivity.
  - apply D. intros G. apply AC in G. discriminate.
Qed.
