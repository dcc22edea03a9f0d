(** The algebra of negation, reversal and minimisation, and pipelines of them. *)
From Coq Require Import List Arith Bool Lia.
Import ListNotations.
From Verif Require Import Base BaseFacts GraphModel Spec GraphFacts FromNfa GraphOps Minimize Quotient Canonical Numbering
  PipeSpec PipeFacts.
Local Open Scope list_scope.

Definition total (r : res Graph) (g : Graph) : Graph := match r with Ok h => h | Fail _ => g end.
Definition Neg g := total (negated g) g.
Definition Rev g := total (reversed g) g.
Definition Min g := total (minimized g) g.
Definition ok (g : Graph) : Prop := wf_graph g /\ g_sad g = [].

Lemma Neg_eq g : wf_graph g -> negated g = Ok (Neg g) /\ ok (Neg g).
Proof. intros W. unfold Neg. destruct (negated_full g W) as (h & E & Wh & D & _). rewrite E. split; [reflexivity|]. split; auto. Qed.
Lemma Rev_eq g : wf_graph g -> reversed g = Ok (Rev g) /\ ok (Rev g).
Proof.
  intros W. unfold Rev. destruct (reversed_correct g W) as (h & E & Wh & _). rewrite E. split; [reflexivity|]. split; auto.
  apply (rev_numbered g h W E).
Qed.
Lemma Min_eq g : wf_graph g -> minimized g = Ok (Min g) /\ ok (Min g).
Proof.
  intros W. unfold Min. destruct (minimized_correct g W) as (h & E & Wh & _). rewrite E. split; [reflexivity|]. split; auto.
  apply (minimized_full g h W E).
Qed.
Lemma Neg_wf g : wf_graph g -> wf_graph (Neg g). Proof. intros W. apply (Neg_eq g W). Qed.
Lemma Rev_wf g : wf_graph g -> wf_graph (Rev g). Proof. intros W. apply (Rev_eq g W). Qed.
Lemma Min_wf g : wf_graph g -> wf_graph (Min g). Proof. intros W. apply (Min_eq g W). Qed.
Lemma Neg_ok g : ok g -> ok (Neg g). Proof. intros W. apply (Neg_eq g). apply W. Qed.
Lemma Rev_ok g : ok g -> ok (Rev g). Proof. intros W. apply (Rev_eq g). apply W. Qed.
Lemma Min_ok g : ok g -> ok (Min g). Proof. intros W. apply (Min_eq g). apply W. Qed.

Definition verdict (g : Graph) (w : list bool) : bool := fin g (run g (initial_state g) w).
Lemma verdict_accepts g w : wf_graph g -> accepts g w = Ok (verdict g w).
Proof. intros W. apply accepts_run; auto. Qed.
Lemma Neg_verdict g w : wf_graph g -> verdict (Neg g) w = negb (verdict g w).
Proof.
  intros W. destruct (Neg_eq g W) as (E & (W' & _)). destruct (negated_correct g W) as (x & Ex & _ & _ & A).
  rewrite E in Ex. injection Ex as <-. destruct (A w) as (b & B1 & B2). rewrite verdict_accepts in B1, B2 by auto. congruence.
Qed.
Lemma Rev_verdict g w : wf_graph g -> verdict (Rev g) w = verdict g (rev w).
Proof.
  intros W. destruct (Rev_eq g W) as (E & (W' & _)). destruct (reversed_correct g W) as (x & Ex & _ & A & _).
  rewrite E in Ex. injection Ex as <-. destruct (A (rev w)) as (b & B1 & B2). rewrite rev_involutive in B2.
  rewrite verdict_accepts in B1, B2 by auto. congruence.
Qed.
Lemma Min_verdict g w : wf_graph g -> verdict (Min g) w = verdict g w.
Proof.
  intros W. destruct (Min_eq g W) as (E & (W' & _)). destruct (minimized_correct g W) as (x & Ex & _ & A & _).
  rewrite E in Ex. injection Ex as <-. specialize (A w). rewrite !verdict_accepts in A by auto. congruence.
Qed.

Lemma canon_same a b : canon a -> canon b -> (forall w, verdict a w = verdict b w) -> a = b.
Proof.
  intros A B H. apply canon_unique; auto. intros w. rewrite !verdict_accepts by (apply A || apply B). rewrite H. reflexivity.
Qed.

(** * The equations *)
Lemma Neg_Neg g : ok g -> Neg (Neg g) = g.
Proof.
  intros [W D]. destruct (negated_full g W) as (h & E & Wh & Dh & Sh & Ih & Nh & Fh).
  destruct (negated_full h Wh) as (k & E' & Wk & Dk & Sk & Ik & Nk & Fk).
  unfold Neg at 2. rewrite E. cbn [total]. unfold Neg. rewrite E'. cbn [total].
  apply graph_same; auto; try congruence.
  - intros q Hq. rewrite Sk, Sh in Hq. rewrite Fk, Fh by lia. apply negb_involutive.

Qed.
Lemma Min_Neg g : wf_graph g -> Min (Neg g) = Neg (Min g).
Proof.
  intros W. destruct (Neg_eq g W) as (E & _). destruct (Min_eq g W) as (M & _).
  destruct (minimized_neg g (Neg g) (Min g) W E M) as (k & H1 & H2). unfold Min at 1. rewrite H1. unfold Neg at 2. rewrite H2. reflexivity.
Qed.
Lemma Rev_Neg g : wf_graph g -> Rev (Neg g) = Neg (Rev g).
Proof.
  intros W. destruct (Neg_eq g W) as (E & _). destruct (Rev_eq g W) as (M & _).
  destruct (reversed_neg g (Neg g) (Rev g) W E M) as (k & H1 & H2). unfold Rev at 1. rewrite H1. unfold Neg at 2. rewrite H2. reflexivity.
Qed.
Lemma Min_Min g : wf_graph g -> Min (Min g) = Min g.
Proof.
  intros W. destruct (Min_eq g W) as (E & _). destruct (minimized_full g (Min g) W E) as (W1 & D & _ & R & I).
  unfold Min at 1. rewrite minimized_fixed by auto. reflexivity.
Qed.
Lemma Rev_trim g : wf_graph g -> forall q, q < size (Rev g) -> dfa_reaches (Rev g) q.
Proof.
  intros W. destruct (Rev_eq g W) as (E & _). destruct (reversed_correct g W) as (x & Ex & _ & _ & R). rewrite E in Ex. injection Ex as <-. exact R.
Qed.
Lemma Min_Rev_canon g : wf_graph g -> canon (Min (Rev g)).
Proof.
  intros W. destruct (Rev_eq g W) as (E & (W1 & D1)). destruct (Min_eq (Rev g) W1) as (E2 & _).
  apply (minimized_canon (Rev g)); auto using Rev_trim. apply (rev_numbered g (Rev g) W E).
Qed.
Lemma Rev_canon g : wf_graph g -> (forall q, q < size g -> dfa_reaches g q) -> canon (Rev g).
Proof. intros W R. apply (reversed_canon g (Rev g) W R). apply (Rev_eq g W). Qed.
Lemma Rev_Min_canon g : wf_graph g -> canon (Rev (Min g)).
Proof.
  intros W. apply Rev_canon; [apply Min_wf; auto|]. destruct (Min_eq g W) as (E & _). apply (minimized_full g (Min g) W E).
Qed.
Lemma Rev_Rev_canon g : wf_graph g -> canon (Rev (Rev g)).
Proof. intros W. apply Rev_canon; [apply Rev_wf; auto|]. apply Rev_trim; auto. Qed.

Ltac verdicts := intros w; repeat (first [rewrite Rev_verdict by auto using Rev_wf, Min_wf, Neg_wf
                                         |rewrite Min_verdict by auto using Rev_wf, Min_wf, Neg_wf]);
                 rewrite ?rev_involutive; reflexivity.

Lemma Min_Rev g : wf_graph g -> Min (Rev g) = Rev (Min g).
Proof. intros W. apply canon_same; [apply Min_Rev_canon; auto|apply Rev_Min_canon; auto|verdicts]. Qed.
Lemma Rev_Rev_Rev g : wf_graph g -> Rev (Rev (Rev g)) = Rev (Min g).
Proof. intros W. apply canon_same; [apply Rev_Rev_canon; auto using Rev_wf|apply Rev_Min_canon; auto|verdicts]. Qed.
Lemma Rev_Rev_Min g : wf_graph g -> Rev (Rev (Min g)) = Rev (Rev g).
Proof. intros W. apply canon_same; [apply Rev_Rev_canon; auto using Min_wf|apply Rev_Rev_canon; auto|verdicts]. Qed.
Lemma Min_Rev_Rev g : wf_graph g -> Min (Rev (Rev g)) = Rev (Rev g).
Proof. intros W. rewrite !Min_Rev by auto using Rev_wf. rewrite Rev_Rev_Min; auto. Qed.

(** * Normal forms *)
Definition form (e : shape * bool) (g : Graph) : Graph :=
  let h := match fst e with
           | AsIs => g | Minimal => Min g | Reversed => Rev g
           | MinimalReversed => Rev (Min g) | TwiceReversed => Rev (Rev g)
           end in
  if snd e then Neg h else h.

Lemma form_ok e g : ok g -> ok (form e g).
Proof. intros H. destruct e as [[] []]; cbn; auto using Neg_ok, Rev_ok, Min_ok. Qed.

Lemma Neg_form s n g : ok g -> Neg (form (s, n) g) = form (s, negb n) g.
Proof. intros H. destruct n; cbn [form fst snd negb]; [|reflexivity]. apply Neg_Neg. destruct s; auto using Rev_ok, Min_ok. Qed.

Definition smin (s : shape) : shape :=
  match s with AsIs | Minimal => Minimal | Reversed | MinimalReversed => MinimalReversed | TwiceReversed => TwiceReversed end.
Definition srev (s : shape) : shape :=
  match s with AsIs => Reversed | Minimal => MinimalReversed | Reversed | MinimalReversed => TwiceReversed | TwiceReversed => MinimalReversed end.

Lemma Min_form s n g : ok g -> Min (form (s, n) g) = form (smin s, n) g.
Proof.
  intros [W D]. unfold form; cbn [fst snd].
  assert (E : Min (match s with AsIs => g | Minimal => Min g | Reversed => Rev g | MinimalReversed => Rev (Min g) | TwiceReversed => Rev (Rev g) end)
            = match smin s with AsIs => g | Minimal => Min g | Reversed => Rev g | MinimalReversed => Rev (Min g) | TwiceReversed => Rev (Rev g) end).
  { destruct s; cbn [smin]; auto using Min_Min, Min_Rev, Min_Rev_Rev. rewrite Min_Rev, Min_Min by auto using Min_wf. reflexivity. }
  destruct n; auto. rewrite Min_Neg, E; auto. destruct s; auto using Rev_wf, Min_wf.
Qed.
Lemma Rev_form s n g : ok g -> Rev (form (s, n) g) = form (srev s, n) g.
Proof.
  intros [W D]. unfold form; cbn [fst snd].
  assert (E : Rev (match s with AsIs => g | Minimal => Min g | Reversed => Rev g | MinimalReversed => Rev (Min g) | TwiceReversed => Rev (Rev g) end)
            = match srev s with AsIs => g | Minimal => Min g | Reversed => Rev g | MinimalReversed => Rev (Min g) | TwiceReversed => Rev (Rev g) end).
  { destruct s; cbn [srev]; auto using Rev_Rev_Rev, Rev_Rev_Min. }
  destruct n; auto. rewrite Rev_Neg, E; auto. destruct s; auto using Rev_wf, Min_wf.
Qed.

(** * Calls *)
Definition perform (g : Graph) (c : call) : Graph :=
  let g := if negating c then Neg g else g in
  let g := if reversing c then Rev g else g in
  if minimizing c then Min g else g.

Lemma perform_ok g c : ok g -> ok (perform g c).
Proof. intros H. destruct c as [[] [] []]; cbn; auto 6 using Neg_ok, Rev_ok, Min_ok. Qed.

Lemma srev_shape m k : srev (shape_of m k) = shape_of m (S k).
Proof.
  destruct k as [|[|k]]; [destruct m; reflexivity..|]. cbn [shape_of].
  rewrite (Nat.even_succ (S (S k))), <- (Nat.negb_even (S (S k))). destruct (Nat.even (S (S k))); reflexivity.
Qed.
Lemma smin_shape m k : smin (shape_of m k) = shape_of true k.
Proof. destruct k as [|[|k]]; [destruct m; reflexivity..|]. cbn [shape_of]. destruct (Nat.even (S (S k))); reflexivity. Qed.

Lemma effect_snoc cs c : effect (cs ++ [c]) =
  (let s := fst (effect cs) in let s := if reversing c then srev s else s in if minimizing c then smin s else s,
   if negating c then negb (snd (effect cs)) else snd (effect cs)).
Proof.
  unfold effect, reversals, negations, minimizes. rewrite !filter_app, !app_length, existsb_app. cbn [filter fst snd existsb].
  f_equal.
  - destruct c as [m r n]. cbn [reversing minimizing]. destruct r; cbn [length].
    + rewrite srev_shape. replace (length (filter reversing cs) + 1) with (S (length (filter reversing cs))) by lia.
      destruct m; rewrite ?orb_true_r, ?orb_false_r, ?smin_shape; reflexivity.
    + rewrite Nat.add_0_r. destruct m; rewrite ?orb_true_r, ?orb_false_r, ?smin_shape; reflexivity.
  - destruct (negating c); cbn [length].
    + rewrite Nat.add_1_r, Nat.odd_succ, Nat.negb_odd. reflexivity.
    + rewrite Nat.add_0_r. reflexivity.
Qed.

Lemma perform_form c s n g : ok g -> perform (form (s, n) g) c =
  form (let s := if reversing c then srev s else s in if minimizing c then smin s else s, if negating c then negb n else n) g.
Proof.
  intros H. unfold perform. destruct c as [m r ng]. cbn [minimizing reversing negating].
  destruct ng; [rewrite Neg_form by auto|]; (destruct r; [rewrite Rev_form by auto|]; (destruct m; [rewrite Min_form by auto|]; reflexivity)).
Qed.

Theorem pipeline_form cs g : ok g -> fold_left perform cs g = form (effect cs) g.
Proof.
  intros H. induction cs as [|c cs IH] using rev_ind; [reflexivity|].
  rewrite fold_left_app, IH. cbn [fold_left]. rewrite effect_snoc. destruct (effect cs) as [s n]. apply perform_form. exact H.
Qed.

(** * What a form accepts, and when it is canonical *)
Lemma form_verdict s n g w : ok g ->
  verdict (form (s, n) g) w =
  xorb n (verdict g (match s with Reversed | MinimalReversed => rev w | _ => w end)).
Proof.
  intros [W D]. unfold form; cbn [fst snd].
  assert (E : verdict (match s with AsIs => g | Minimal => Min g | Reversed => Rev g | MinimalReversed => Rev (Min g) | TwiceReversed => Rev (Rev g) end) w
            = verdict g (match s with Reversed | MinimalReversed => rev w | _ => w end)).
  { destruct s; rewrite ?Rev_verdict, ?Min_verdict, ?Rev_verdict, ?rev_involutive by auto using Rev_wf, Min_wf; reflexivity. }
  destruct n; [|rewrite E; destruct (verdict g _); reflexivity]. rewrite Neg_verdict, E; [destruct (verdict g _); reflexivity|].
  destruct s; auto using Rev_wf, Min_wf.
Qed.

Definition canonical_shape (s : shape) : Prop := s = MinimalReversed \/ s = TwiceReversed.
Lemma form_same s n g h : ok g -> ok h -> canonical_shape s -> (forall w, verdict g w = verdict h w) -> form (s, n) g = form (s, n) h.
Proof.
  intros G H C L. unfold form; cbn [fst snd].
  assert (E : form (s, false) g = form (s, false) h).
  { destruct C as [-> | ->]; cbn [form fst snd]; apply canon_same; auto using Rev_Min_canon, Rev_Rev_canon.
    1,2: destruct G, H; auto using Rev_Min_canon.
    2,3: destruct G, H; auto using Rev_Rev_canon.
    all: destruct G as [G _], H as [H _]; intros w; rewrite ?Rev_verdict, ?Min_verdict, ?Rev_verdict by auto using Rev_wf, Min_wf; apply L. }
  unfold form in E; cbn [fst snd] in E. rewrite E. reflexivity.
Qed.
