(** C37: what can be seen of a runner does not depend on the inputs, on the keys, nor on the
    implementation T of the TFHEpp functions (only on the ring dimension Lvl1::n). *)
From Coq Require Import List Arith Bool NArith ZArith Lia.
Import ListNotations.
From Verif Require Import Base BaseFacts GraphModel Spec GraphFacts TorusModel TfheSpec TfheFacts RunnerModel RunnerSpec ReachFacts
  PropsRunner ParModel ObliviousSpec ObliviousFacts.

Lemma observe_eq {R R' St St' P} (pub : St -> P) (pub' : St' -> P) (x : res (list R * St)) (y : res (list R' * St')) :
  req (fun a b => length (fst a) = length (fst b) /\ pub (snd a) = pub' (snd b)) x y -> observe pub x = observe pub' y.
Proof.
  destruct x as [[a s]|f], y as [[b s']|f']; cbn; try tauto; [|congruence]. intros [-> ->]. reflexivity.
Qed.

Theorem C37_reverse : forall T T' g interval spec_reversed h h', t_n1 T = t_n1 T' -> shape h = shape h' ->
  observe pub_back (do r <- reverse_new T g interval spec_reversed; play (online2_eval_one T) (reverse_ask T) h r) =
  observe pub_back (do r <- reverse_new T' g interval spec_reversed; play (online2_eval_one T') (reverse_ask T') h' r).
Proof.
  intros T T' g i sr h h' N S. apply observe_eq. eapply req_bind; [apply req_online2_new|].
  intros s s' H. apply req_play; auto.
  - intros. now apply req_backstream_eval.
  - intros s1 s1' H1. unfold reverse_ask. eapply req_bind; [apply req_backstream_result; eassumption|]. intros; auto.
Qed.
Theorem C37_offline : forall T T' g input_size interval h h', t_n1 T = t_n1 T' -> shape h = shape h' ->
  observe pub_back (do r <- offline_new T g input_size interval true false;
                    play (offline_eval_one T) (fun s => do c <- offline_result T s; Ok (c, s)) h r) =
  observe pub_back (do r <- offline_new T' g input_size interval true false;
                    play (offline_eval_one T') (fun s => do c <- offline_result T' s; Ok (c, s)) h' r).
Proof.
  intros T T' g n i h h' N S. apply observe_eq. eapply req_bind; [apply req_backstream_new|].
  intros s s' H. apply req_play; auto.
  - intros. now apply req_backstream_eval.
  - intros s1 s1' H1. eapply req_bind; [apply req_backstream_result; eassumption|]. intros; auto.
Qed.
Theorem C37_flut : forall T T' g max_depth queue_size freq h h', t_n1 T = t_n1 T' -> shape h = shape h' ->
  observe (pub_flut T) (do r <- flut_new T g max_depth queue_size freq false;
                        play (flut_eval_one T) (flut_result T) h r) =
  observe (pub_flut T') (do r <- flut_new T' g max_depth queue_size freq false;
                         play (flut_eval_one T') (flut_result T') h' r).
Proof.
  intros T T' g md qs fr h h' N S. apply observe_eq. eapply req_bind; [apply req_flut_new|].
  intros s s' H. apply req_play; auto.
  - intros. now apply req_flut_one.
  - intros. now apply req_flut_result.
Qed.
Theorem C37_block : forall T T' g queue_size h h', t_n1 T = t_n1 T' -> shape h = shape h' ->
  observe (pub_block T) (do r <- block_new T g queue_size false; play (block_eval_one T) (block_result T) h r) =
  observe (pub_block T') (do r <- block_new T' g queue_size false; play (block_eval_one T') (block_result T') h' r).
Proof.
  intros T T' g qs h h' N S. apply observe_eq. eapply req_bind; [apply req_block_new|].
  intros s s' H. apply req_play; auto.
  - intros. now apply req_block_one.
  - intros. now apply req_block_result.
Qed.

(** ** Memory accesses of the parallel tasks: two memories holding ciphertext vectors of the same
    lengths give the same sequence of reads and writes. *)
Theorem C37_access_pattern : forall T T', t_n1 T = t_n1 T' ->
  forall (m : mem (cell T)) (m' : mem (cell T')) w w' t t' sel sel' (x x' : nat -> tlwe) nx junk junk',
  vec T m B_weight w -> vec T' m' B_weight w' -> length w = length w' ->
  vec T m B_table t -> vec T' m' B_table t' -> length t = length t' -> (0 < length t)%nat ->
  m (B_sel, 0) = C_rlwe T sel -> m' (B_sel, 0) = C_rlwe T' sel' ->
  (forall i, i < nx -> m (B_ws4, i) = C_lwe T (x i)) -> (forall i, i < nx -> m' (B_ws4, i) = C_lwe T' (x' i)) ->
  length junk = length junk' ->
  (forall g c c' n q, trace (cmux_task T g c (length w) n junk q) m = trace (cmux_task T' g c' (length w') n junk' q) m') /\
  (forall q, trace (bootstrap_task T (length w) junk q) m = trace (bootstrap_task T' (length w') junk' q) m') /\
  (forall c c' n j, trace (lookup_task T c (length t) n junk j) m = trace (lookup_task T' c' (length t') n junk' j) m') /\
  (forall g memo st2idx nnext first i1 work, i1 < length t ->
     trace (entry_task T g memo st2idx nnext first (length w) (length t) (fun _ => junk) i1 work) m =
     trace (entry_task T' g memo st2idx nnext first (length w') (length t') (fun _ => junk') i1 work) m') /\
  (forall nnext i, trace (rotate_task T nnext (length t) junk i) m = trace (rotate_task T' nnext (length t') junk' i) m') /\
  (forall bs st2idx n st, trace (refresh_task T bs st2idx n junk st) m = trace (refresh_task T' bs st2idx n junk' st) m') /\
  (forall n i, trace (extract_task T n junk i) m = trace (extract_task T' n junk' i) m') /\
  (forall n i, trace (cb_task T nx n junk i) m = trace (cb_task T' nx n junk' i) m').
Proof.
  intros T T' N m m' w w' t t' sel sel' x x' nx junk junk' Vw Vw' Lw Vt Vt' Lt Pt Vs Vs' Vx Vx' LJ.
  split; [intros; now apply access_cmux|]. split; [intros; now apply access_bootstrap|].
  split; [intros; now apply access_lookup|]. split.
  { intros g memo st2idx nnext first i1 work Hi. rewrite Lt.
    destruct (at_lt t i1 Hi) as (v & _ & E). destruct (at_lt t' i1) as (v' & _ & E'); [lia|].
    eapply access_entry; eauto. }
  split; [intros; now apply access_rotate|]. split; [intros; eapply (access_refresh T T'); eauto|].
  split; [intros; eapply access_extract; eauto|]. intros; eapply access_cb; eauto.
Qed.

(** ** FLUT's refusal (C34) for any implementation and any noise *)
Lemma flushes_shape {C} (h : list (option C)) q : forall n p,
  flushes q n p h = flushes q n p (map (fun e : option C => match e with Some _ => Some false | None => None end) h).
Proof.
  induction h as [|[c|] h IH]; intros n p; cbn [flushes map]; [reflexivity| |].
  - destruct (S p <? q); now rewrite IH.
  - destruct (p =? 0); now rewrite IH.
Qed.
Lemma flut_noise_0 F q j : flut_noise F q (toy_noise 0) j = 0%Z.
Proof. induction j as [|j IH]; [reflexivity|]. cbn [flut_noise]. rewrite IH. cbn. lia. Qed.
Theorem C34_refuses_any : forall T g max_depth queue_size freq h, wf_graph g ->
  (0 < queue_size < 31)%nat -> (0 < freq)%nat -> (max_depth < 31)%nat -> (table_fits (t_n1 T) max_depth queue_size g)%nat ->
  let run := do r <- flut_new T g max_depth queue_size freq false; play (flut_eval_one T) (flut_result T) h r in
  (run = Fail FExit <-> exists n k, In n (flushes queue_size 0 0 h) /\ width g n k /\ (2 ^ max_depth <= k)%nat) /\
  ((exists r, run = Ok r) <-> run <> Fail FExit).
Proof.
  intros T g md qs freq h W HQ HF HD HN run.
  pose (T0 := toy 1 (t_n1 T) [0%Z] (repeat 0%Z (t_n1 T)) 0).
  pose (h0 := map (fun e : option (trgsw T) => match e with Some _ => Some false | None => None end) h).
  assert (OK : tfhe_ok T0 [0%Z] (repeat 0%Z (t_n1 T)) (fun c b => c = b) (toy_noise 0)).
  { apply toy_ok. exact (proj1 HN). }
  assert (NN : noise_nonneg (toy_noise 0)) by (unfold noise_nonneg; cbn; lia).
  assert (MA : flut_margin (size g * 2 ^ (qs / 2)) qs freq (toy_noise 0)).
  { unfold flut_margin. rewrite flut_noise_0. cbn. rewrite !Z.mul_0_r. reflexivity. }
  assert (EN : encrypts (fun c b : bool => c = b) h0 h0).
  { unfold h0. clear. induction h as [|[c|] h IH]; constructor; auto; constructor; auto. }
  destruct (C34_flut_refuses T0 _ _ _ _ OK NN g md qs freq h0 h0 W HQ HF HD HN MA EN) as [R1 R2].
  assert (SH : shape h = shape h0).
  { unfold shape, h0. rewrite map_map. apply map_ext. intros [c|]; reflexivity. }
  pose proof (C37_flut T T0 g md qs freq h h0 eq_refl SH) as O.
  rewrite (flushes_shape h qs 0 0). fold h0. rewrite <- R1. fold run in O. revert O R1 R2.
  generalize (do r <- flut_new T0 g md qs freq false; play (flut_eval_one T0) (flut_result T0) h0 r). clear.
  intros [[o s]|f0] O R1 R2; destruct run as [[o' s']|f]; cbn in O; try discriminate.
  - split; split; try discriminate; eauto.
  - injection O as ->. split; [split; congruence|]. split; [intros [r H]; discriminate|].
    intros H. destruct (proj2 R2) as [r Hr]; [congruence|discriminate].
Qed.

(** ** Concrete cases: two histories that differ in every input and two implementations that
    differ in keys and noise; the observation is not trivial. *)
Definition ex_T2 : tfhe := toy 5 8 [0; 1; 1; 0; 1]%Z [0; 1; 1; 1; 0; 0; 0; 1]%Z 7.
Definition ex_h2 : list (option bool) := [Some false; None; Some true; Some false; None; None; Some false; None].
Example C37_nonvacuous : t_n1 ex_T = t_n1 ex_T2 /\ shape ex_h = shape ex_h2 /\ ex_h <> ex_h2.
Proof. repeat split; discriminate. Qed.
Example C37_witness :
  match observe (pub_flut ex_T) (do r <- flut_new ex_T ex_dfa 2 2 2 false; play (flut_eval_one ex_T) (flut_result ex_T) ex_h r) with
  | Ok (n, (_, w, q, _, _, live, _, (ne, _, fi, se))) => (n, w, q, live, ne, fi, se) = (4, 3, 0, [0; 1; 2], 3, 1, 0)
  | Fail _ => False
  end.
Proof. vm_compute. reflexivity. Qed.

Print Assumptions C34_refuses_any.
Print Assumptions C37_reverse.
Print Assumptions C37_offline.
Print Assumptions C37_flut.
Print Assumptions C37_block.
Print Assumptions C37_access_pattern.
