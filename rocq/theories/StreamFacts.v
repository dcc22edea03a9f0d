(** Proofs about ciphertext files and the two input streams. *)
From Coq Require Import List Arith Bool NArith ZArith Lia.
Import ListNotations.
From Verif Require Import Base BaseFacts StreamModel InputSpec.

(** * Bytes of a word *)
Lemma le_bytes_length k w : length (le_bytes k w) = k.
Proof. revert w; induction k; intros; cbn; auto. Qed.

Lemma of_le_bytes k w : (w < 256 ^ N.of_nat k)%N -> of_le (le_bytes k w) = w.
Proof.
  revert w; induction k as [|k IH]; intros w H; cbn [le_bytes of_le].
  - cbn in H. lia.
  - rewrite IH.
    + rewrite (N.div_mod w 256) at 3 by lia. lia.
    + rewrite Nat2N.inj_succ, N.pow_succ_r' in H. apply N.div_lt_upper_bound; lia.
Qed.

Lemma save_length c : length (save c) = block_size (length c).
Proof.
  unfold save, block_size. induction c as [|d c IH]; [reflexivity|].
  cbn [map concat]. rewrite app_length, IH, le_bytes_length. cbn [length]. lia.
Qed.

(** Reading right after a known prefix. *)
Lemma sgetn_at data p k a b f : data = a ++ b -> length a = p ->
  sgetn (mkIs data p f) k = (firstn k b, mkIs data (p + length (firstn k b)) f).
Proof.
  intros -> <-. unfold sgetn. cbn [is_pos is_data is_fail]. rewrite skipn_app, skipn_all, Nat.sub_diag. reflexivity.
Qed.

Lemma load_double_at data p a d b f : data = a ++ le_bytes 8 d ++ b -> length a = p -> word d ->
  load_double (mkIs data p f) = Ok (d, mkIs data (p + 8) f).
Proof.
  intros E L W. unfold load_double. rewrite (sgetn_at _ _ 8 a (le_bytes 8 d ++ b) f E L).
  assert (F : firstn 8 (le_bytes 8 d ++ b) = le_bytes 8 d).
  { rewrite firstn_app, le_bytes_length, Nat.sub_diag, app_nil_r. apply firstn_all2. rewrite le_bytes_length. lia. }
  rewrite F, le_bytes_length, of_le_bytes by exact W. reflexivity.
Qed.

Lemma load_at c : Forall word c -> forall data p a b f, data = a ++ save c ++ b -> length a = p ->
  load (length c) (mkIs data p f) = Ok (c, mkIs data (p + block_size (length c)) f).
Proof.
  induction 1 as [|d c W F IH]; intros data p a b f E L; cbn [load length].
  - unfold block_size. cbn. rewrite Nat.add_0_r. reflexivity.
  - unfold save in E. cbn [map concat] in E. rewrite <- app_assoc in E.
    rewrite (load_double_at data p a d (save c ++ b) f E L W). cbn [bind].
    rewrite (IH data (p + 8) (a ++ le_bytes 8 d) b f).
    + cbn [bind]. unfold block_size. do 3 f_equal. lia.
    + rewrite E, <- app_assoc. reflexivity.
    + rewrite app_length, le_bytes_length. lia.
Qed.

Lemma load_short words : forall data p f, p <= length data -> length data < p + block_size words ->
  load words (mkIs data p f) = Fail FAssert.
Proof.
  unfold block_size. induction words as [|w IH]; intros data p f H1 H2; [cbn in H2; lia|].
  cbn [load]. unfold load_double, sgetn. cbn [is_pos is_data is_fail].
  rewrite firstn_length, skipn_length. destruct (Nat.min 8 (length data - p) =? 8) eqn:E; [|reflexivity].
  apply Nat.eqb_eq in E. rewrite E. cbn [assert_ bind].
  rewrite IH; [reflexivity|lia|lia].
Qed.

(** * Seeking and telling *)
Lemma seek_zero_end words data p : seek words 0 DEnd (mkIs data p false) = mkIs data (length data) false.
Proof.
  unfold seek. cbn [is_fail is_data]. change ((0 mod two64) * _)%Z with 0%Z. change (to_off 0) with 0%Z.
  rewrite Z.add_0_r. destruct (Z.ltb_spec (Z.of_nat (length data)) 0); [lia|]. rewrite Nat2Z.id. reflexivity.
Qed.
Lemma seek_zero_beg words data p : seek words 0 DBeg (mkIs data p false) = mkIs data 0 false.
Proof. unfold seek. reflexivity. Qed.

Lemma seek_back words data p : 0 < block_size words -> (Z.of_nat (block_size words) < 2 ^ 63)%Z ->
  block_size words <= p ->
  seek words (-1) DCur (mkIs data p false) = mkIs data (p - block_size words) false.
Proof.
  intros H0 HB Hp. unfold seek. cbn [is_fail is_data is_pos].
  set (B := block_size words) in *. clearbody B. change (2 ^ 63)%Z with 9223372036854775808%Z in HB.
  assert (E : to_off ((-1) mod two64 * Z.of_nat B) = (- Z.of_nat B)%Z).
  { unfold to_off. assert (M : (((-1) mod two64 * Z.of_nat B) mod two64)%Z = (two64 - Z.of_nat B)%Z).
    { rewrite Z.mul_mod_idemp_l by discriminate. symmetry.
      apply Z.mod_unique with (q := (-1)%Z); unfold two64; [left|]; lia. }
    cbv zeta. rewrite M. destruct (Z.ltb_spec (two64 - Z.of_nat B) 9223372036854775808); unfold two64 in *; lia. }
  rewrite E. destruct (Z.ltb_spec (Z.of_nat p + - Z.of_nat B) 0); [lia|].
  f_equal. lia.
Qed.

Lemma tell_at words data p : 0 < words -> (Z.of_nat p < two64)%Z ->
  tell words (mkIs data p false) =
  if p mod block_size words =? 0 then Ok (Z.of_nat (p / block_size words)) else Fail FAssert.
Proof.
  intros H0 Hp. unfold tell, tellg. cbn [is_fail is_pos]. rewrite (Z.mod_small (Z.of_nat p) two64) by lia. cbv zeta.
  assert (B0 : 0 < block_size words) by (unfold block_size; lia).
  rewrite <- Nat2Z.inj_mod, <- Nat2Z.inj_div by lia.
  destruct (Nat.eqb_spec (p mod block_size words) 0) as [E|E].
  - rewrite E. reflexivity.
  - destruct (Z.eqb_spec (Z.of_nat (p mod block_size words)) 0); [lia|reflexivity].
Qed.

Lemma is_beg_at data p : is_beg (mkIs data p false) = (p =? 0).
Proof.
  unfold is_beg, tellg. cbn [is_fail is_pos dir_value].
  destruct (Z.eqb_spec (Z.of_nat p) 0), (Nat.eqb_spec p 0); auto; lia.
Qed.

(** * The loader's task, run without interruption *)
Definition wrun (words : nat) (ops : list wop) (sh : istream * list N) : res (istream * list N) :=
  foldM (fun '(is, l) o => wstep words o is l) ops sh.

Lemma wrun_cons words o ops is l :
  wrun words (o :: ops) (is, l) = do sh <- wstep words o is l; wrun words ops sh.
Proof. reflexivity. Qed.
Lemma wrun_app words o1 o2 sh : wrun words (o1 ++ o2) sh = do s <- wrun words o1 sh; wrun words o2 s.
Proof.
  revert sh; induction o1 as [|o o1 IH]; intros [is l]; [reflexivity|].
  cbn [app]. rewrite !wrun_cons. destruct (wstep words o is l) as [[]|]; cbn [bind]; auto.
Qed.

Lemma upd_app {A} (pre : list A) x post a : upd (length pre) a (pre ++ x :: post) = pre ++ a :: post.
Proof. induction pre; cbn; congruence. Qed.

Lemma wrun_loads W c : Forall word c -> forall data p a b pre junk,
  data = a ++ save c ++ b -> length a = p -> length junk = length c ->
  wrun W (map WLoad (seq (length pre) (length c))) (mkIs data p false, pre ++ junk) =
  Ok (mkIs data (p + block_size (length c)) false, pre ++ c).
Proof.
  induction 1 as [|d c Wd F IH]; intros data p a b pre junk E L LJ; cbn [length seq map].
  - destruct junk; [|discriminate]. unfold block_size. rewrite Nat.add_0_r. reflexivity.
  - destruct junk as [|j junk]; [discriminate|]. rewrite wrun_cons. cbn [wstep].
    unfold save in E. cbn [map concat] in E. rewrite <- app_assoc in E.
    rewrite (load_double_at data p a d (save c ++ b) false E L Wd). cbn [bind].
    unfold set_at. rewrite app_length. cbn [length].
    destruct (Nat.ltb_spec (length pre) (length pre + S (length junk))); [|lia].
    rewrite upd_app. cbn [bind].
    specialize (IH data (p + 8) (a ++ le_bytes 8 d) b (pre ++ [d]) junk).
    rewrite (app_length pre [d]) in IH. cbn [length] in IH. rewrite Nat.add_1_r in IH.
    rewrite <- !app_assoc in IH. cbn [app] in IH. rewrite IH; auto.
    + unfold block_size. do 3 f_equal. lia.
    + rewrite app_length, le_bytes_length. lia.
Qed.

Lemma kind_cases (k : kind) : k = Forward \/ k = Reversed. Proof. destruct k; auto. Qed.
Lemma size_ops (k : kind) : call_ops k Size = [CSize]. Proof. destruct k; auto. Qed.
Lemma next_ops (k : kind) : exists o tl, call_ops k Next = CAssertMore :: CGet :: CCopy :: o :: tl.
Proof. destruct k; eexists; eexists; reflexivity. Qed.

(** * The invariant *)
Ltac sc := cbn [s_prog s_size s_run s_is s_ret s_out s_loaded].
Section Inv.
Variables (k : kind) (words : nat) (cts : list (list N)).
Hypothesis HW : 0 < words.
Hypothesis HB : (Z.of_nat (block_size words) < 2 ^ 63)%Z.
Hypothesis HC : Forall (is_ctxt words) cts.

Let n := length cts.
Let B := block_size words.
Let file := concat (map save cts).
Let order := delivery k cts.
Let pos i := match k with Forward => i * B | Reversed => (n - i) * B end.

Lemma order_length : length order = n.
Proof. unfold order, delivery, n. destruct k; rewrite ?rev_length; reflexivity. Qed.

Lemma B_pos : 0 < B. Proof. unfold B, block_size. lia. Qed.

Lemma save_ct c : In c cts -> length (save c) = B.
Proof. intros H. rewrite save_length. destruct (proj1 (Forall_forall _ _) HC c H) as [-> _]. reflexivity. Qed.

Lemma concat_save_length l : incl l cts -> length (concat (map save l)) = length l * B.
Proof.
  induction l as [|c l IH]; intros HI; [reflexivity|]. cbn [map concat length]. rewrite app_length.
  rewrite save_ct by (apply HI; cbn; auto). rewrite IH by (intros x Hx; apply HI; cbn; auto). lia.
Qed.

Lemma file_length : length file = n * B.
Proof. apply concat_save_length. apply incl_refl. Qed.

(** index in the file of the i-th value to be returned *)
Let idx i := match k with Forward => i | Reversed => n - 1 - i end.

Lemma order_nth i c : nth_error order i = Some c -> nth_error cts (idx i) = Some c.
Proof.
  unfold order, delivery, idx. destruct k; auto. intros H.
  assert (Hi : i < n) by (unfold n; rewrite <- (rev_length cts); apply nth_error_Some; congruence).
  pose proof (nth_error_nth _ _ [] H) as E. rewrite rev_nth in E by exact Hi.
  fold n in E. replace (n - S i) with (n - 1 - i) in E by lia.
  rewrite <- E. apply nth_error_nth'. fold n. lia.
Qed.

Lemma task_loads i c loaded : nth_error order i = Some c -> length loaded = words ->
  wrun words (task k words) (mkIs file (pos i) false, loaded) = Ok (mkIs file (pos (S i)) false, c).
Proof.
  intros Hc HL. pose proof (order_nth i c Hc) as Hx.
  assert (Hi : i < n) by (rewrite <- order_length; apply nth_error_Some; congruence).
  apply nth_error_split in Hx as (pre & post & E & LP).
  assert (IN : In c cts) by (rewrite E; apply in_or_app; cbn; auto).
  pose proof (proj1 (Forall_forall _ _) HC c IN) as [LC FC].
  assert (EF : file = concat (map save pre) ++ save c ++ concat (map save post)).
  { unfold file. rewrite E, map_app, concat_app. reflexivity. }
  assert (EL : length (concat (map save pre)) = idx i * B).
  { rewrite concat_save_length, LP; auto. intros x Hx. rewrite E. apply in_or_app; auto. }
  assert (LD : forall p, p = idx i * B ->
     wrun words (load_ops words) (mkIs file p false, loaded) = Ok (mkIs file (p + B) false, c)).
  { intros p ->. unfold load_ops. rewrite <- LC at 2.
    pose proof (wrun_loads words c FC file (idx i * B) _ _ [] loaded EF EL ltac:(congruence)) as R.
    cbn [length app] in R. rewrite R. rewrite LC. reflexivity. }
  pose proof B_pos as BP. unfold task, pos. unfold idx in LD, EL. clear E LP EF.
  destruct k.
  - rewrite LD by reflexivity. do 3 f_equal. lia.
  - cbn [app]. rewrite wrun_cons. cbn [wstep]. rewrite is_beg_at.
    assert (n - i = S (n - 1 - i)) as Eni by lia.
    assert (P1 : (n - i) * B = (n - 1 - i) * B + B) by (rewrite Eni; lia).
    destruct (Nat.eqb_spec ((n - i) * B) 0); [lia|]. cbn [negb assert_ bind].
    rewrite wrun_cons. cbn [wstep bind]. rewrite seek_back; [|exact BP|exact HB|fold B; lia].
    fold B. rewrite wrun_app. rewrite LD by lia. cbn [bind]. rewrite wrun_cons. cbn [wstep bind].
    rewrite seek_back; [|exact BP|exact HB|fold B; lia]. fold B. cbn [wrun foldM].
    do 3 f_equal. lia.
Qed.

(** the loader will deliver value i *)
Definition loading i (s : stream) : Prop :=
  (i = n -> s_run s = None /\ s_is s = mkIs file (pos n) false) /\
  (forall c, nth_error order i = Some c -> exists ops, s_run s = Some ops /\
     wrun words ops (s_is s, s_loaded s) = Ok (mkIs file (pos (S i)) false, c)).

Lemma nth_order_dec i : i <= n -> (i = n /\ nth_error order i = None) \/
  (i < n /\ exists c, nth_error order i = Some c).
Proof.
  intros H. destruct (nth_error order i) eqn:E.
  - right. split; eauto. rewrite <- order_length. apply nth_error_Some. congruence.
  - left. split; auto. apply nth_error_None in E. rewrite order_length in E. lia.
Qed.

Definition progs (calls : list call) : list cop := concat (map (call_ops k) calls).

(** [E], [A]: the events and the abort flag of the whole session *)
Definition expects (E : list event) (A : bool) (out : list event) (i : nat) (calls : list call) : Prop :=
  E = out ++ fst (observed (skipn i order) calls) /\ A = snd (observed (skipn i order) calls).

Inductive Inv (E : list event) (A : bool) (s : stream) : Prop :=
| IReady i calls : i <= n -> s_prog s = progs calls -> s_size s = n - i -> loading i s ->
    expects E A (s_out s) i calls -> Inv E A s
| IGet i calls tl : i < n -> call_ops k Next = CAssertMore :: CGet :: CCopy :: tl ->
    s_prog s = CGet :: CCopy :: tl ++ progs calls -> s_size s = n - i -> loading i s ->
    expects E A (s_out s) i (Next :: calls) -> Inv E A s
| ICopy i calls c tl : nth_error order i = Some c -> call_ops k Next = CAssertMore :: CGet :: CCopy :: tl ->
    s_prog s = CCopy :: tl ++ progs calls -> s_size s = n - i ->
    s_run s = None -> s_is s = mkIs file (pos (S i)) false -> s_loaded s = c -> length c = words ->
    expects E A (s_out s) i (Next :: calls) -> Inv E A s
| ITail i calls c tl : nth_error order i = Some c -> call_ops k Next = CAssertMore :: CGet :: CCopy :: tl ->
    s_prog s = tl ++ progs calls -> s_size s = n - i ->
    s_run s = None -> s_is s = mkIs file (pos (S i)) false -> length (s_loaded s) = words -> s_ret s = c ->
    expects E A (s_out s) i (Next :: calls) -> Inv E A s
| IMore i calls c : nth_error order i = Some c -> k = Forward ->
    s_prog s = CMore :: CReturn :: progs calls -> s_size s = n - S i ->
    s_run s = None -> s_is s = mkIs file (pos (S i)) false -> length (s_loaded s) = words -> s_ret s = c ->
    expects E A (s_out s) i (Next :: calls) -> Inv E A s
| IDecr i calls c : nth_error order i = Some c -> k = Reversed ->
    s_prog s = CDecr :: CReturn :: progs calls -> s_size s = n - i ->
    loading (S i) s -> s_ret s = c -> expects E A (s_out s) i (Next :: calls) -> Inv E A s
| IRet i calls c : nth_error order i = Some c ->
    s_prog s = CReturn :: progs calls -> s_size s = n - S i ->
    loading (S i) s -> s_ret s = c -> expects E A (s_out s) i (Next :: calls) -> Inv E A s.

Lemma nth_skipn {T} (l : list T) i c : nth_error l i = Some c -> skipn i l = c :: skipn (S i) l.
Proof.
  revert i; induction l as [|a l IH]; intros [|i]; cbn; try discriminate.
  - congruence.
  - intros H. rewrite (IH i H). destruct l; auto.
Qed.

Lemma expects_next E A out i c calls : nth_error order i = Some c ->
  expects E A out i (Next :: calls) -> expects E A (out ++ [EValue c]) (S i) calls.
Proof.
  intros H [H1 H2]. unfold expects. rewrite (nth_skipn _ _ _ H) in H1, H2. cbn [observed] in H1, H2.
  destruct (observed (skipn (S i) order) calls) as [e a]. cbn [fst snd] in *. rewrite <- app_assoc. auto.
Qed.
Lemma expects_size E A out i calls : i <= n ->
  expects E A out i (Size :: calls) -> expects E A (out ++ [ESize (n - i)]) i calls.
Proof.
  intros H [H1 H2]. unfold expects. cbn [observed] in H1, H2. rewrite skipn_length, order_length in H1.
  rewrite skipn_length in H2.
  destruct (observed (skipn i order) calls) as [e a]. cbn [fst snd] in *. rewrite <- app_assoc. auto.
Qed.

Lemma loading_wstep i s o os : i <= n -> loading i s -> s_run s = Some (o :: os) ->
  exists is' l', wstep words o (s_is s) (s_loaded s) = Ok (is', l') /\ forall out prog ret size,
  loading i (mkStream is' l' size (Some os) ret out prog).
Proof.
  intros Hi (HN & HS) R. destruct (nth_order_dec i Hi) as [[-> _]|[Hlt (c & Hc)]].
  - destruct (HN eq_refl); congruence.
  - destruct (HS c Hc) as (ops & E1 & E2). rewrite R in E1. injection E1 as <-.
    rewrite wrun_cons in E2. apply bind_ok in E2 as ([is' l'] & Ew & E2).
    exists is', l'. split; auto. intros. unfold loading. cbn [s_is s_loaded s_run]. split; [lia|].
    intros c' Hc'. assert (c' = c) by congruence. subst c'. eauto.
Qed.

Lemma loading_ext i s s' : loading i s -> s_is s' = s_is s -> s_loaded s' = s_loaded s -> s_run s' = s_run s ->
  loading i s'.
Proof. unfold loading. intros H -> -> ->. exact H. Qed.

Lemma start_loading i loaded : i <= n -> length loaded = words ->
  (i < n -> forall size ret out prog, loading i (mkStream (mkIs file (pos i) false) loaded size (Some (task k words)) ret out prog)) /\
  (i = n -> forall size ret out prog, loading i (mkStream (mkIs file (pos i) false) loaded size None ret out prog)).
Proof.
  intros Hi HL. split; intros H size ret out prog; unfold loading; cbn [s_is s_loaded s_run].
  - split; [lia|]. intros c Hc. eexists. split; [reflexivity|]. apply task_loads; auto.
  - split; [subst; auto|]. intros c Hc. assert (i < length order) by (apply nth_error_Some; congruence).
    rewrite order_length in *. lia.
Qed.

Lemma Inv_loader E A s r : Inv E A s -> step k words Loader s = Some r -> exists s', r = Ok s' /\ Inv E A s'.
Proof.
  intros I. cbn [step]. destruct (s_run s) as [[|o os]|] eqn:R; try discriminate. intros [= <-].
  destruct I as [i calls Hi HP HS HL HE|i calls tl Hi HT HP HS HL HE|i calls c tl Hc HT HP HS HR HIs HLo HW' HE|i calls c tl Hc HT HP HS HR|i calls c Hc HK HP HS HR|i calls c Hc HK HP HS HL HRt HE|i calls c Hc HP HS HL HRt HE];
    try congruence.
  all: try (assert (Hlt : i < length order) by (apply nth_error_Some; congruence); rewrite order_length in Hlt).
  - destruct (loading_wstep i s o os Hi HL R) as (is' & l' & -> & L). cbn [bind]. eexists; split; [reflexivity|].
    eapply IReady; sc; eauto.
  - destruct (loading_wstep i s o os (Nat.lt_le_incl _ _ Hi) HL R) as (is' & l' & -> & L). cbn [bind].
    eexists; split; [reflexivity|]. eapply IGet; sc; eauto.
  - destruct (loading_wstep (S i) s o os Hlt HL R) as (is' & l' & -> & L). cbn [bind].
    eexists; split; [reflexivity|]. eapply IDecr; sc; eauto.
  - destruct (loading_wstep (S i) s o os Hlt HL R) as (is' & l' & -> & L). cbn [bind].
    eexists; split; [reflexivity|]. eapply IRet; sc; eauto.
Qed.

Lemma Inv_caller E A s r : Inv E A s -> step k words Caller s = Some r ->
  (exists s', r = Ok s' /\ Inv E A s') \/ (r = Fail FAssert /\ A = true).
Proof.
  intros I. cbn [step]. 
  destruct I as [i calls Hi HP HS HL HE|i calls tl Hi HT HP HS HL HE|i calls c tl Hc HT HP HS HR HIs HLo HW' HE|i calls c tl Hc HT HP HS HR HIs HLo HRt HE|i calls c Hc HK HP HS HR HIs HLo HRt HE|i calls c Hc HK HP HS HL HRt HE|i calls c Hc HP HS HL HRt HE];
    rewrite HP.
  all: try (assert (Hlt : i < length order) by (apply nth_error_Some; congruence); rewrite order_length in Hlt).
  - destruct calls as [|[|] calls]; [discriminate| |]; unfold progs; cbn [map concat].
    + rewrite size_ops. cbn [app cstep].
      intros [= <-]. left. eexists; split; [reflexivity|]. eapply (IReady _ _ _ i calls); sc; eauto.
      rewrite HS. apply expects_size; auto.
    + destruct (next_ops k) as (o & tl & X). rewrite X. cbn [app cstep]. intros [= <-].
      destruct (nth_order_dec i Hi) as [[-> Hn]|[Hlt (c & Hc)]].
      * right. rewrite HS, Nat.sub_diag. split; [reflexivity|]. destruct HE as [_ HE].
        rewrite skipn_all2 in HE by (rewrite order_length; lia). exact HE.
      * left. rewrite HS. destruct (Nat.ltb_spec 0 (n - i)); [|lia]. cbn [assert_].
        eexists; split; [reflexivity|]. eapply (IGet _ _ _ i calls (o :: tl)); sc; eauto.
  - cbn [cstep]. destruct (s_run s) as [[|o os]|] eqn:R.
    + intros [= <-]. left. eexists; split; [reflexivity|].
      destruct (nth_order_dec i (Nat.lt_le_incl _ _ Hi)) as [[-> _]|[_ (c & Hc)]]; [lia|].
      destruct HL as [_ HL]. destruct (HL c Hc) as (ops & E1 & E2). rewrite R in E1. injection E1 as <-.
      cbn [wrun foldM] in E2. injection E2 as E3 E4.
      eapply (ICopy _ _ _ i calls c tl); sc; eauto.
      apply order_nth, nth_error_In in Hc. destruct (proj1 (Forall_forall _ _) HC c Hc) as [? _]. auto.
    + discriminate.
    + exfalso. destruct (nth_order_dec i (Nat.lt_le_incl _ _ Hi)) as [[-> _]|[_ (c & Hc)]]; [lia|].
      destruct HL as [_ HL]. destruct (HL c Hc) as (ops & E1 & E2). congruence.
  - cbn [cstep]. rewrite HR. cbn [quiet]. intros [= <-]. left. eexists; split; [reflexivity|].
    eapply (ITail _ _ _ i calls c tl); sc; eauto. congruence.
  - destruct (kind_cases k) as [K|K]; rewrite K in HT; cbn [call_ops] in HT; injection HT as <-; cbn [app cstep].
    + intros [= <-]. left. eexists; split; [reflexivity|]. eapply (IMore _ _ _ i calls c); sc; eauto. lia.
    + rewrite K. rewrite HR. cbn [quiet start bind]. intros [= <-]. left. rewrite HIs, is_beg_at.
      destruct (start_loading (S i) (s_loaded s) Hlt HLo) as [SL SE].
      pose proof B_pos.
      destruct (Nat.eqb_spec (pos (S i)) 0) as [Z|Z]; cbn [negb].
      * assert (S i = n). { unfold pos in Z. rewrite K in Z. destruct (n - S i) eqn:N; cbn in Z; lia. }
        eexists; split; [reflexivity|]. eapply (IDecr _ _ _ i calls c); sc; eauto.
      * assert (S i < n). { destruct (Nat.eq_dec (S i) n) as [Q|Q]; [|lia]. exfalso. apply Z.
          unfold pos. rewrite K, Q, Nat.sub_diag. reflexivity. }
        eexists; split; [reflexivity|]. eapply (IDecr _ _ _ i calls c); sc; eauto.
        specialize (SL ltac:(auto)). rewrite K in SL. apply SL.
  - cbn [cstep]. rewrite HK. rewrite HR. cbn [start bind]. intros [= <-]. left.
    destruct (start_loading (S i) (s_loaded s) Hlt HLo) as [SL SE]. rewrite HIs, HS.
    destruct (Nat.ltb_spec 0 (n - S i)).
    + eexists; split; [reflexivity|]. eapply (IRet _ _ _ i calls c); sc; eauto.
      specialize (SL ltac:(lia)). rewrite HK in SL. apply SL.
    + eexists; split; [reflexivity|]. eapply (IRet _ _ _ i calls c); sc; eauto. apply SE. lia.
  - cbn [cstep]. intros [= <-]. left. eexists; split; [reflexivity|].
    eapply (IRet _ _ _ i calls c); sc; eauto. lia.
  - cbn [cstep]. intros [= <-]. left. eexists; split; [reflexivity|].
    eapply (IReady _ _ _ (S i) calls); sc; eauto. rewrite HRt. apply expects_next; auto.
Qed.

Lemma Inv_out E A s : Inv E A s ->
  (exists tl, E = s_out s ++ tl) /\ (s_prog s = [] -> E = s_out s /\ A = false).
Proof.
  intros I. 
  destruct I as [i calls Hi HP HS HL HE|i calls tl Hi HT HP HS HL HE|i calls c tl Hc HT HP HS HR HIs HLo HW' HE|i calls c tl Hc HT HP HS HR HIs HLo HRt HE|i calls c Hc HK HP HS HR HIs HLo HRt HE|i calls c Hc HK HP HS HL HRt HE|i calls c Hc HP HS HL HRt HE];
    destruct HE as [HE1 HE2]; split; eauto; rewrite HP; try discriminate.
  - destruct calls as [|[|] calls].
    + intros _. cbn [observed fst snd] in *. rewrite app_nil_r in HE1. auto.
    + unfold progs. cbn [map concat]. rewrite size_ops. discriminate.
    + unfold progs. cbn [map concat]. destruct (next_ops k) as (o & tl & ->). discriminate.
  - destruct (next_ops k) as (o & tl' & X). rewrite X in HT. injection HT as <-. discriminate.
Qed.

(** a failed stream stays failed, so no seek can have failed before a successful end *)
Lemma wstep_fail o is l is' l' : wstep words o is l = Ok (is', l') -> is_fail is = true -> is_fail is' = true.
Proof.
  destruct o; cbn [wstep].
  - destruct (negb (is_beg is)); cbn; [intros [= <- <-]; auto|discriminate].
  - intros [= <- <-] H. unfold seek. rewrite H. auto.
  - unfold load_double. destruct (sgetn is 8) as [g is1] eqn:G. unfold sgetn in G. injection G as <- <-.
    destruct (_ =? 8); cbn [assert_ bind]; [|discriminate]. unfold set_at.
    destruct (i <? length l); cbn [bind]; [|discriminate]. intros [= <- <-]. cbn. auto.
Qed.
Lemma wrun_fail ops is l is' l' : wrun words ops (is, l) = Ok (is', l') -> is_fail is = true -> is_fail is' = true.
Proof.
  revert is l; induction ops as [|o ops IH]; intros is l.
  - intros [= <- <-]. auto.
  - rewrite wrun_cons. intros H F. apply bind_ok in H as ([is1 l1] & H1 & H2).
    apply (IH _ _ H2). eapply wstep_fail; eauto.
Qed.
Lemma loading_fail i s : i <= n -> loading i s -> is_fail (s_is s) = false.
Proof.
  intros Hi [HN HS]. destruct (nth_order_dec i Hi) as [[-> _]|[Hlt (c & Hc)]].
  - destruct (HN eq_refl) as [_ ->]. reflexivity.
  - destruct (HS c Hc) as (ops & _ & E). destruct (is_fail (s_is s)) eqn:F; auto.
    apply wrun_fail in E; auto.
Qed.
Lemma Inv_fail E A s : Inv E A s -> is_fail (s_is s) = false.
Proof.
  intros I.
  destruct I as [i calls Hi HP HS HL HE|i calls tl Hi HT HP HS HL HE|i calls c tl Hc HT HP HS HR HIs HLo HW' HE|i calls c tl Hc HT HP HS HR HIs HLo HRt HE|i calls c Hc HK HP HS HR HIs HLo HRt HE|i calls c Hc HK HP HS HL HRt HE|i calls c Hc HP HS HL HRt HE];
    try (rewrite HIs; reflexivity).
  all: try (assert (Hlt : i < length order) by (apply nth_error_Some; congruence); rewrite order_length in Hlt).
  - eapply loading_fail; eauto.
  - eapply loading_fail; [|eauto]. lia.
  - eapply loading_fail; [|eauto]. lia.
  - eapply loading_fail; [|eauto]. lia.
Qed.

Lemma Inv_progress E A s : Inv E A s -> s_prog s <> [] ->
  (exists r, step k words Caller s = Some r) \/ (exists r, step k words Loader s = Some r).
Proof.
  intros I NP. cbn [step]. destruct (s_prog s) as [|o rest] eqn:P; [congruence|].
  destruct o; cbn [cstep]; eauto.
  destruct (s_run s) as [[|o os]|] eqn:R; eauto.
Qed.

Lemma Inv_exec E A sched : forall s, Inv E A s ->
  match exec k words sched s with
  | Ok s' => Inv E A s'
  | Fail f => f = FAssert /\ A = true
  end.
Proof.
  induction sched as [|t sched IH]; intros s I; [exact I|].
  unfold exec. cbn [foldM]. fold (exec k words sched).
  destruct (step k words t s) as [r|] eqn:St; [|apply IH; exact I].
  destruct t.
  - destruct (Inv_caller E A s r I St) as [(s' & -> & I')|[-> ->]]; [apply IH; exact I'|cbn; auto].
  - destruct (Inv_loader E A s r I St) as (s' & -> & I'). apply IH; exact I'.
Qed.

(** every step decreases this *)
Definition measure (s : stream) : nat :=
  length (s_prog s) * S (length (task k words)) + match s_run s with Some ops => length ops | None => 0 end.

Lemma step_measure t s s' : step k words t s = Some (Ok s') -> measure s' < measure s.
Proof.
  unfold measure. destruct t; cbn [step].
  - destruct (s_prog s) as [|o rest]; [discriminate|]. destruct o; cbn [cstep].
    + intros [= <-]. cbn. lia.
    + destruct (0 <? s_size s); cbn [assert_]; [|discriminate]. intros [= <-]. cbn. lia.
    + destruct (s_run s) as [[|o os]|]; try discriminate. intros [= <-]. cbn. lia.
    + destruct (s_run s) as [[|o os]|]; cbn [quiet]; try discriminate; intros [= <-]; cbn; lia.
    + intros [= <-]. cbn. lia.
    + unfold quiet, start. generalize (task k words). intros tk.
      destruct (kind_cases k) as [-> | ->]; destruct (s_run s) as [[|o os]|]; cbn [bind];
        repeat match goal with |- context [if ?b then _ else _] => destruct b end; try discriminate;
        intros [= <-]; cbn [s_prog s_run length]; lia.
    + intros [= <-]. cbn. lia.
  - destruct (s_run s) as [[|o os]|]; try discriminate. intros [= H].
    apply bind_ok in H as ([is' l'] & _ & H). injection H as <-. cbn. lia.
Qed.

Lemma moves_bound sched : forall s, moves k words sched s <= measure s.
Proof.
  induction sched as [|t sched IH]; intros s; cbn [moves]; [lia|].
  destruct (step k words t s) as [[s'|f]|] eqn:St; auto.
  - pose proof (step_measure t s s' St). specialize (IH s'). lia.
  - unfold measure. destruct t; cbn [step] in St.
    + destruct (s_prog s); [discriminate|cbn [length]; lia].
    + destruct (s_run s) as [[|o os]|]; try discriminate. cbn [length]. lia.
Qed.

Lemma Inv_complete E A : forall m s, measure s <= m -> Inv E A s ->
  exists sched, match exec k words sched s with Ok s' => s_prog s' = [] | Fail f => f = FAssert end.
Proof.
  induction m as [m IH] using lt_wf_ind. intros s Hm I.
  destruct (s_prog s) as [|o rest] eqn:P; [exists []; exact P|].
  assert (NP : s_prog s <> []) by congruence.
  assert (X : exists t r, step k words t s = Some r).
  { destruct (Inv_progress E A s I NP) as [(r & H)|(r & H)]; eauto. }
  destruct X as (t & r & St).
  assert (I' : (exists s', r = Ok s' /\ Inv E A s') \/ r = Fail FAssert).
  { destruct t; [destruct (Inv_caller E A s r I St) as [?|[? _]]; auto|left; eapply Inv_loader; eauto]. }
  destruct I' as [(s' & -> & I')| ->].
  - pose proof (step_measure _ _ _ St) as Hlt.
    destruct (IH (measure s') ltac:(lia) s' ltac:(lia) I') as (sched & Hs).
    exists (t :: sched). unfold exec. cbn [foldM]. rewrite St. cbn [bind]. exact Hs.
  - exists [t]. unfold exec. cbn [foldM]. rewrite St. reflexivity.
Qed.

Hypothesis HF : (Z.of_nat (n * B) < two64)%Z.

Lemma open_ok junk calls : length junk = words ->
  exists s, open_stream k words file junk calls = Ok s /\
    Inv (fst (observed order calls)) (snd (observed order calls)) s.
Proof.
  intros HJ. unfold open_stream. rewrite seek_zero_end, tell_at by (rewrite ?file_length; auto).
  rewrite file_length. fold B. pose proof B_pos.
  rewrite Nat.mod_mul by lia. rewrite Nat.div_mul by lia. cbn [Nat.eqb bind].
  rewrite Nat2Z.id. destruct (start_loading 0 junk (Nat.le_0_l n) HJ) as [SL SE].
  assert (EX : expects (fst (observed order calls)) (snd (observed order calls)) [] 0 calls) by (split; reflexivity).
  destruct (kind_cases k) as [K|K]; rewrite K.
  - rewrite seek_zero_beg. destruct (Z.ltb_spec 0 (Z.of_nat n)); cbn [start bind]; eexists; (split; [reflexivity|]);
      eapply (IReady _ _ _ 0 calls); cbn [s_prog s_size s_out s_run s_is]; eauto; try lia.
    + unfold progs. rewrite K. reflexivity.
    + specialize (SL ltac:(lia)). unfold pos in SL. rewrite K in SL. apply SL.
    + unfold progs. rewrite K. reflexivity.
    + specialize (SE ltac:(lia)). unfold pos in SE. rewrite K in SE. apply SE.
  - rewrite is_beg_at.
    destruct (Nat.eqb_spec (n * B) 0) as [Z|Z]; cbn [negb start bind]; eexists; (split; [reflexivity|]);
      eapply (IReady _ _ _ 0 calls); cbn [s_prog s_size s_out s_run s_is]; eauto; try lia.
    + unfold progs. rewrite K. reflexivity.
    + assert (0 = n) by nia.
      specialize (SE ltac:(lia)). unfold pos in SE. rewrite K in SE. rewrite Nat.sub_0_r in SE. apply SE.
    + unfold progs. rewrite K. reflexivity.
    + assert (0 < n) by nia.
      specialize (SL ltac:(lia)). unfold pos in SL. rewrite K in SL. rewrite Nat.sub_0_r in SL. apply SL.
Qed.
End Inv.
