(** The states reachable with exactly n inputs: lemmas. *)
From Coq Require Import List Arith Bool Lia.
Import ListNotations.
From Verif Require Import Base BaseFacts GraphModel Spec GraphFacts GraphOps RunnerModel RunnerFacts RunnerSpec.

Section Reach.
Context (g : Graph) (Wg : wf_graph g).
Notation init := (initial_state g).

Definition reach_set (n : nat) (l : list nat) : Prop :=
  is_set l /\ forall p, In p l <-> exists w, length w = n /\ run g init w = p.

Lemma reach_lt : forall n l p, reach_set n l -> In p l -> p < size g.
Proof. intros n l p [_ H] Hp. apply H in Hp as (w & _ & <-). apply run_lt; auto using init_lt. Qed.
Lemma reach_unique : forall n l l', reach_set n l -> reach_set n l' -> l = l'.
Proof. intros n l l' [S1 H1] [S2 H2]. apply is_set_ext; auto. intros x. rewrite H1, H2. reflexivity. Qed.
Lemma reach_step : forall u n live next, reach_set u live ->
  is_set next -> (forall p, In p next <-> exists q w, In q live /\ length w = n /\ run g q w = p) -> reach_set (u + n) next.
Proof.
  intros u n live next [_ HL] IS HNx. split; [auto|]. intros p. rewrite HNx. split.
  - intros (r & w & Hr & Lw & R). apply HL in Hr as (w0 & L0 & <-). exists (w0 ++ w). rewrite app_length, run_app. auto with arith.
  - intros (w & Lw & R). exists (run g init (firstn u w)), (skipn u w). rewrite skipn_length.
    rewrite <- run_app, firstn_skipn. split; [|split; [lia|exact R]].
    apply HL. exists (firstn u w). rewrite firstn_length. split; [lia|auto].
Qed.
Lemma reach_len : forall n l, reach_set n l -> length l <= size g.
Proof.
  intros n l H. rewrite <- (seq_length (size g) 0). apply NoDup_incl_length; [apply is_set_NoDup, H|].
  intros p Hp. apply in_seq. pose proof (reach_lt n l p H Hp). lia.
Qed.
Lemma reach_exists : forall n, exists l, reach_set n l.
Proof.
  induction n as [|n [l [IS HL]]].
  - exists [init]. split; [cbn; auto|]. intros p. split.
    + intros [<-|[]]. exists []. auto.
    + intros ([|] & L & <-); [left; reflexivity|discriminate].
  - exists (sinsert_range [] (map (fun p => nxt g p false) l ++ map (fun p => nxt g p true) l)).
    split; [apply is_set_sinsert_range; exact I|]. intros p. rewrite sinsert_range_In, in_app_iff, !in_map_iff. split.
    + intros [[]|[(r & <- & Hr)|(r & <- & Hr)]]; apply HL in Hr as (w & Lw & <-).
      * exists (w ++ [false]). rewrite app_length, run_app. cbn. split; [lia|auto].
      * exists (w ++ [true]). rewrite app_length, run_app. cbn. split; [lia|auto].
    + intros (w & Lw & <-). destruct (exists_last (l := w)) as (w' & b & ->); [intros ->; discriminate|].
      rewrite app_length in Lw. cbn in Lw. rewrite run_app. cbn. right.
      destruct b; [right|left]; exists (run g init w'); (split; [reflexivity|]); apply HL; exists w'; split; auto; lia.
Qed.
Lemma reach_width : forall n l, reach_set n l -> width g n (length l).
Proof.
  intros n l [IS H]. exists l. split; [apply is_set_NoDup, IS|]. split; [auto|].
  intros p. rewrite H. split; intros (w & Lw & R); exists w; split; auto.
  - rewrite run_from_run by auto using init_lt. congruence.
  - rewrite run_from_run in R by auto using init_lt. congruence.
Qed.
Lemma width_unique : forall n k k', width g n k -> width g n k' -> k = k'.
Proof.
  intros n k k' (l & N & <- & H) (l' & N' & <- & H').
  apply Nat.le_antisymm; apply NoDup_incl_length; auto; intros x Hx; [apply H', H, Hx|apply H, H', Hx].
Qed.
End Reach.
