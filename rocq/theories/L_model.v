(** Lemmas for C08, C09 and the likelihood part of C52. *)
From Coq Require Import Lqa Setoid.
From Verif Require Import M_model S_model.
Set Implicit Arguments.
Unset Strict Implicit.
Open Scope Q_scope.

Lemma Qsum_cons x l : Qsum (x :: l) = x + Qsum l. Proof. reflexivity. Qed.
Lemma Qsum_app l r : Qsum (l ++ r) == Qsum l + Qsum r.
Proof.
  induction l as [|x l IH]; [simpl; ring|]. rewrite <- app_comm_cons, !Qsum_cons, IH. ring.
Qed.
Lemma Qsum_scale a l : Qsum (map (fun q => q * a) l) == Qsum l * a.
Proof. induction l as [|x l IH]; [simpl; ring|]. rewrite map_cons, !Qsum_cons, IH. ring. Qed.
Lemma Qsum_ext A (f g : A -> Q) l : (forall x, In x l -> f x == g x) -> Qsum (map f l) == Qsum (map g l).
Proof.
  induction l as [|x l IH]; intros H; [simpl; reflexivity|].
  rewrite !map_cons, !Qsum_cons, (H x), IH; [reflexivity| |left; auto]. intros y Hy; apply H; right; auto.
Qed.
Lemma Qsum_nonneg l : Forall (fun q => 0 <= q) l -> 0 <= Qsum l.
Proof. induction 1 as [|x l Hx _ IH]; [simpl; lra|]. rewrite Qsum_cons. lra. Qed.
Lemma Qsum_zero l : Forall (fun q => 0 <= q) l -> Qsum l == 0 -> Forall (fun q => q == 0) l.
Proof.
  induction 1 as [|x l Hx Hl IH]; intros H; constructor.
  - rewrite Qsum_cons in H. pose proof (Qsum_nonneg Hl). lra.
  - apply IH. rewrite Qsum_cons in H. pose proof (Qsum_nonneg Hl). lra.
Qed.
Lemma Qprod_cons x l : Qprod (x :: l) = x * Qprod l. Proof. reflexivity. Qed.
Lemma Qprod_app l r : Qprod (l ++ r) == Qprod l * Qprod r.
Proof.
  induction l as [|x l IH]; [simpl; ring|]. rewrite <- app_comm_cons, !Qprod_cons, IH. ring.
Qed.
Lemma Qprod_ext A (f g : A -> Q) l : (forall x, In x l -> f x == g x) -> Qprod (map f l) == Qprod (map g l).
Proof.
  induction l as [|x l IH]; intros H; [simpl; reflexivity|].
  rewrite !map_cons, !Qprod_cons, (H x), IH; [reflexivity| |left; auto]. intros y Hy; apply H; right; auto.
Qed.

(** * C08 *)
Definition masked (w : list Q) (has : list bool) : list Q :=
  map2 (fun q (b : bool) => if b then q else 0) w has.

Lemma masked_nonneg w has : Forall (fun q => 0 < q) w -> Forall (fun q => 0 <= q) (masked w has).
Proof.
  intros H; revert has; induction H as [|x w Hx _ IH]; intros [|b has]; simpl; constructor; auto.
  destruct b; lra.
Qed.
Lemma masked_sum_zero w has : Forall (fun q => 0 < q) w -> length has = length w ->
  (Qsum (masked w has) == 0 <-> forall c, nth_error has c <> Some true).
Proof.
  intros Hw Hl; split.
  - intros Hs c Hc.
    pose proof (Qsum_zero (masked_nonneg has Hw) Hs) as Hz.
    assert (Hlt : (c < length w)%nat) by (rewrite <- Hl; apply nth_error_Some; congruence).
    destruct (nth_error w c) as [q|] eqn:Eq; [|apply nth_error_None in Eq; lia].
    assert (Hm : nth_error (masked w has) c = Some q)
      by (unfold masked; rewrite nth_error_map2, Eq, Hc; reflexivity).
    rewrite Forall_forall in Hz, Hw.
    pose proof (Hz q (nth_error_In _ _ Hm)). pose proof (Hw q (nth_error_In _ _ Eq)). lra.
  - revert has Hl; induction Hw as [|x w Hx _ IH]; intros [|b has] Hl H; simpl in *; try discriminate; try reflexivity.
    destruct b; [destruct (H 0%nat); reflexivity|].
    unfold masked in *; simpl. rewrite IH; [ring|lia|]. intros c; apply (H (S c)).
Qed.

Lemma normalize_row_defined w has : Forall (fun q => 0 < q) w -> length has = length w ->
  (normalize_row w has = None <-> forall c, nth_error has c <> Some true).
Proof.
  intros Hw Hl. rewrite <- masked_sum_zero by eauto. unfold normalize_row. fold (masked w has).
  destruct (Qeq_bool (Qsum (masked w has)) 0) eqn:E.
  - apply Qeq_bool_iff in E; tauto.
  - apply Qeq_bool_neq in E. split; intros H; [discriminate|contradiction].
Qed.

Lemma normalize_row_distribution w has r : Forall (fun q => 0 < q) w -> length has = length w ->
  normalize_row w has = Some r -> available_distribution w has r.
Proof.
  intros Hw Hl. unfold normalize_row. fold (masked w has).
  destruct (Qeq_bool (Qsum (masked w has)) 0) eqn:E; [discriminate|]. intros [= <-].
  apply Qeq_bool_neq in E.
  pose proof (masked_nonneg has Hw) as Hn. pose proof (Qsum_nonneg Hn) as Hs.
  set (s := Qsum (masked w has)) in *. assert (Hp : 0 < s) by lra.
  assert (Hnth : forall c q, nth_error (map (fun q => q / s) (masked w has)) c = Some q ->
    exists wc b, nth_error w c = Some wc /\ nth_error has c = Some b /\ q = (if b then wc else 0) / s).
  { intros c q. rewrite nth_error_map. unfold masked at 1; rewrite nth_error_map2.
    destruct (nth_error w c), (nth_error has c); simpl; try discriminate. intros [= <-]; eauto. }
  assert (Hwpos : forall c q, nth_error w c = Some q -> 0 < q)
    by (intros c q Hc; rewrite Forall_forall in Hw; exact (Hw q (nth_error_In _ _ Hc))).
  assert (Hi : 0 < / s) by (apply Qinv_lt_0_compat; auto).
  unfold available_distribution; conj.
  - rewrite map_length; unfold masked; rewrite map2_length, Hl. apply Nat.min_id.
  - apply Forall_map. eapply Forall_impl; [|exact Hn]. simpl; intros q Hq.
    unfold Qdiv. apply Qmult_le_0_compat; lra.
  - unfold Qdiv. rewrite Qsum_scale. fold s. field. lra.
  - intros c q b Hq Hb. destruct (Hnth _ _ Hq) as (wc & b' & H1 & H2 & ->).
    rewrite Hb in H2; injection H2 as <-. pose proof (Hwpos _ _ H1). destruct b.
    + split; [|discriminate]. intros H3. exfalso.
      assert (0 < wc / s) by (unfold Qdiv; apply Qmult_lt_0_compat; auto). lra.
    + split; [reflexivity|]. intros _. field. lra.
  - intros c d qc qd wc wd Hc Hd Hwc Hwd Hhc Hhd.
    destruct (Hnth _ _ Hc) as (wc' & bc & H1 & H2 & ->). destruct (Hnth _ _ Hd) as (wd' & bd & H3 & H4 & ->).
    rewrite Hwc in H1; rewrite Hwd in H3; rewrite Hhc in H2; rewrite Hhd in H4.
    injection H1 as <-; injection H2 as <-; injection H3 as <-; injection H4 as <-. field. lra.
Qed.

Lemma normalize_weights_spec W has o f w h :
  Forall (Forall (fun q => 0 < q)) W ->
  nth_error W f = Some w -> nth_error has o = Some h -> length h = length w ->
  exists row r, nth_error (normalize_weights W has) o = Some row /\ nth_error row f = Some r /\
    ((r = None /\ forall c, nth_error h c <> Some true) \/
     (exists d, r = Some d /\ available_distribution w h d /\ exists c, nth_error h c = Some true)).
Proof.
  intros HW Hf Ho Hl. unfold normalize_weights.
  exists (map (fun w_f => normalize_row w_f h) W), (normalize_row w h).
  rewrite !nth_error_map, Ho, Hf; conj; try reflexivity.
  assert (Hw : Forall (fun q => 0 < q) w).
  { rewrite Forall_forall in HW; apply HW. eapply nth_error_In; eauto. }
  destruct (normalize_row w h) as [d|] eqn:E.
  - right; exists d; conj; auto.
    + apply normalize_row_distribution; auto.
    + pose proof (normalize_row_defined Hw Hl) as Hd. rewrite E in Hd.
      destruct (existsb (fun b => b) h) eqn:Ex.
      * apply existsb_exists in Ex as (b & Hb & ->). apply In_nth_error in Hb as (c & Hc). eauto.
      * exfalso. assert (H : Some d = None); [|discriminate]. apply Hd. intros c Hc.
        assert (existsb (fun b => b) h = true); [|congruence].
        apply existsb_exists. exists true; split; auto. eapply nth_error_In; eauto.
  - left; split; auto. apply (normalize_row_defined Hw Hl). exact E.
Qed.

(** * C09 *)
(** Sum over all choices of the product of terms = product of the sums. *)
Lemma sum_choices A (F : nat -> A -> Q) (ls : list (list A)) : forall k,
  Qsum (map (fun xs => Qprod (mapi_from k F xs)) (choices ls)) ==
  Qprod (mapi_from k (fun i l => Qsum (map (F i) l)) ls).
Proof.
  induction ls as [|l ls IH]; intros k; [simpl; ring|].
  simpl choices. simpl mapi_from. rewrite Qprod_cons, <- (IH (S k)). clear IH.
  set (S0 := Qsum (map (fun xs => Qprod (mapi_from (S k) F xs)) (choices ls))).
  induction l as [|x l IHl]; [simpl; ring|].
  simpl map at 2. simpl concat. rewrite map_app, Qsum_app, IHl.
  rewrite (map_cons (F k)), Qsum_cons. clear IHl.
  assert (H : Qsum (map (fun xs => Qprod (mapi_from k F xs)) (map (cons x) (choices ls))) == F k x * S0).
  { unfold S0. rewrite map_map. simpl mapi_from.
    induction (choices ls) as [|c cs IHc]; [simpl; ring|]. rewrite !map_cons, !Qsum_cons, IHc, Qprod_cons. ring. }
  rewrite H. ring.
Qed.

(** Products over the positions of a source array. *)
Lemma Qprod_concat l : Qprod (concat l) == Qprod (map Qprod l).
Proof. induction l as [|x l IH]; [reflexivity|]. simpl concat. rewrite Qprod_app, IH. reflexivity. Qed.

Lemma mapi_from_ext A B (f g : nat -> A -> B) l : forall k,
  (forall i x, nth_error l i = Some x -> f (k + i)%nat x = g (k + i)%nat x) -> mapi_from k f l = mapi_from k g l.
Proof.
  induction l as [|x l IH]; intros k H; [reflexivity|]. simpl. f_equal.
  - specialize (H 0%nat x eq_refl). rewrite Nat.add_0_r in H. exact H.
  - apply IH. intros i y Hy. specialize (H (S i) y Hy). rewrite Nat.add_succ_r in H. exact H.
Qed.
Lemma map_mapi_from A B C (g : B -> C) (f : nat -> A -> B) l : forall k,
  map g (mapi_from k f l) = mapi_from k (fun i x => g (f i x)) l.
Proof. induction l; intros; simpl; f_equal; auto. Qed.
Lemma Qprod_mapi_ext A (f g : nat -> A -> Q) l : forall k,
  (forall i x, nth_error l i = Some x -> f (k + i)%nat x == g (k + i)%nat x) ->
  Qprod (mapi_from k f l) == Qprod (mapi_from k g l).
Proof.
  induction l as [|x l IH]; intros k H; [reflexivity|]. simpl mapi_from. rewrite !Qprod_cons, IH.
  - specialize (H 0%nat x eq_refl). rewrite Nat.add_0_r in H. rewrite H. reflexivity.
  - intros i y Hy. specialize (H (S i) y Hy). rewrite Nat.add_succ_r in H. exact H.
Qed.
Lemma Qsum_mapi_ext A (f g : nat -> A -> Q) l : forall k,
  (forall i x, nth_error l i = Some x -> f (k + i)%nat x == g (k + i)%nat x) ->
  Qsum (mapi_from k f l) == Qsum (mapi_from k g l).
Proof.
  induction l as [|x l IH]; intros k H; [reflexivity|]. simpl mapi_from. rewrite !Qsum_cons, IH.
  - specialize (H 0%nat x eq_refl). rewrite Nat.add_0_r in H. rewrite H. reflexivity.
  - intros i y Hy. specialize (H (S i) y Hy). rewrite Nat.add_succ_r in H. exact H.
Qed.

Lemma prod_positions (F : nat * nat * nat -> Q) (s : cube) :
  Qprod (map F (source_positions s)) ==
  Qprod (mapi (fun o s_o => Qprod (mapi (fun f s_of => Qprod (mapi (fun c (b : bool) =>
    if b then F (o, f, c) else 1) s_of)) s_o)) s).
Proof.
  unfold source_positions, mapi.
  rewrite concat_map, Qprod_concat. rewrite map_map, map_mapi_from.
  apply Qprod_mapi_ext. intros o s_o _.
  rewrite concat_map, Qprod_concat, map_map, map_mapi_from.
  apply Qprod_mapi_ext. intros f s_of _.
  rewrite concat_map, Qprod_concat, map_map, map_mapi_from.
  apply Qprod_mapi_ext. intros c b _. destruct b; simpl; ring.
Qed.

Lemma sum_one_hots (F : nat -> Q) n :
  Qsum (map (fun v => Qprod (mapi (fun c (b : bool) => if b then F c else 1) v)) (one_hots n)) ==
  Qsum (map F (seq 0 n)).
Proof.
  unfold one_hots. rewrite map_map. apply Qsum_ext. intros c Hc. apply in_seq in Hc.
  assert (H : forall m k, (k <= c < k + m)%nat ->
    Qprod (mapi_from k (fun d (b : bool) => if b then F d else 1) (map (Nat.eqb c) (seq k m))) == F c).
  { induction m as [|m IH]; intros k Hk; [lia|]. simpl seq. simpl map. simpl mapi_from. rewrite Qprod_cons.
    destruct (Nat.eqb_spec c k) as [->|Hne].
    - assert (H1 : forall m' k', (k < k')%nat ->
        Qprod (mapi_from k' (fun d (b : bool) => if b then F d else 1) (map (Nat.eqb k) (seq k' m'))) == 1).
      { induction m' as [|m' IH']; intros k' Hk'; [reflexivity|]. simpl seq. simpl map. simpl mapi_from.
        rewrite Qprod_cons. destruct (Nat.eqb_spec k k'); [lia|]. rewrite IH' by lia. ring. }
      rewrite H1 by lia. ring.
    - rewrite IH by lia. ring. }
  unfold mapi, one_hot. apply H. lia.
Qed.

Lemma all_some_map A B (f : A -> option B) (g : A -> B) l :
  (forall x, In x l -> f x = Some (g x)) -> all_some (map f l) = Some (map g l).
Proof.
  induction l as [|x l IH]; intros H; [reflexivity|]. simpl.
  rewrite H by (left; auto). rewrite IH; auto. intros y Hy; apply H; right; auto.
Qed.

Lemma nth_repeat_lt A (x d : A) n i : (i < n)%nat -> nth i (repeat x n) d = x.
Proof. revert i; induction n; intros [|i] H; simpl; try lia; auto. apply IHn; lia. Qed.

Lemma NoDup_map_inj A B (f : A -> B) l : (forall x y, In x l -> In y l -> f x = f y -> x = y) -> NoDup l -> NoDup (map f l).
Proof.
  induction l as [|x l IH]; intros Hf H; simpl; constructor.
  - inversion H as [|? ? Hn Hd]; subst. rewrite in_map_iff. intros (y & E & Hy). apply Hn.
    rewrite (Hf x y); simpl; auto.
  - inversion H; subst. apply IH; auto. intros; apply Hf; simpl; auto.
Qed.
Lemma NoDup_app_disj A (l r : list A) : NoDup l -> NoDup r -> (forall x, In x l -> ~ In x r) -> NoDup (l ++ r).
Proof.
  induction 1 as [|x l Hn _ IH]; intros Hr Hd; simpl; auto. constructor.
  - rewrite in_app_iff. intros [H|H]; [auto|]. exact (Hd x (or_introl eq_refl) H).
  - apply IH; auto. intros y Hy; apply Hd; right; auto.
Qed.
Lemma NoDup_choices A (ls : list (list A)) : Forall (@NoDup A) ls -> NoDup (choices ls).
Proof.
  induction 1 as [|l ls Hl _ IH]; simpl; [repeat constructor; auto|].
  induction Hl as [|x l Hn _ IHl]; simpl; [constructor|]. apply NoDup_app_disj; auto.
  - apply NoDup_map_inj; auto. intros ? ? _ _ [= E]; exact E.
  - intros ys H1 H2. apply in_map_iff in H1 as (zs & <- & _). apply in_concat in H2 as (c & H2 & H3).
    apply in_map_iff in H2 as (x' & <- & Hx'). apply in_map_iff in H3 as (? & E & _). injection E as -> _. auto.
Qed.
Lemma all_sources_nodup no nf nc : NoDup (all_sources no nf nc).
Proof.
  unfold all_sources. apply NoDup_choices, Forall_forall. intros l Hl. apply repeat_spec in Hl as ->.
  apply NoDup_choices, Forall_forall. intros l Hl. apply repeat_spec in Hl as ->.
  unfold one_hots. apply NoDup_map_inj; [|apply seq_NoDup].
  intros x y Hx Hy E. apply in_seq in Hx. apply in_seq in Hy.
  assert (H : nth_error (one_hot nc x) x = nth_error (one_hot nc y) x) by (rewrite E; reflexivity).
  unfold one_hot in H. rewrite !nth_error_map, (nth_error_nth' _ 0%nat), seq_nth in H by (rewrite ?seq_length; lia).
  simpl in H. rewrite Nat.eqb_refl in H. injection H as H. symmetry in H. apply Nat.eqb_eq in H. auto.
Qed.

Lemma in_choices A (ls : list (list A)) : forall xs,
  In xs (choices ls) <-> length xs = length ls /\ forall i l x, nth_error ls i = Some l -> nth_error xs i = Some x -> In x l.
Proof.
  induction ls as [|l ls IH]; intros xs; simpl.
  - split.
    + intros [<-|[]]. split; auto. intros [|i] l x H; discriminate.
    + intros [H _]. destruct xs; [auto|discriminate].
  - rewrite in_concat. split.
    + intros (ys & H1 & H2). apply in_map_iff in H1 as (x & <- & Hx). apply in_map_iff in H2 as (zs & <- & Hz).
      apply IH in Hz as [Hl Hz]. split; [simpl; lia|]. intros [|i] l' y H3 H4; simpl in *.
      * injection H3 as <-; injection H4 as <-; auto.
      * eapply Hz; eauto.
    + intros [Hl H]. destruct xs as [|x xs]; [discriminate|].
      exists (map (cons x) (choices ls)); split; apply in_map_iff.
      * exists x; split; auto. apply (H 0%nat); auto.
      * exists xs; split; auto. apply IH. split; [simpl in Hl; lia|]. intros i l' y H1 H2. apply (H (S i)); auto.
Qed.

Lemma nth_error_repeat_inv A (x y : A) n i : nth_error (repeat x n) i = Some y -> y = x.
Proof. intros H. apply nth_error_In in H. apply repeat_spec in H. auto. Qed.

Lemma exactly_one_one_hot n v : (length v = n /\ exactly_one v) <-> In v (one_hots n).
Proof.
  unfold one_hots. rewrite in_map_iff. split.
  - intros [Hl (c & Hc & Hu)]. exists c. split.
    + apply nth_error_ext. intros i. unfold one_hot. rewrite nth_error_map.
      destruct (Nat.lt_ge_cases i n) as [Hi|Hi].
      * rewrite (nth_error_nth' _ 0%nat) by (rewrite seq_length; lia). rewrite seq_nth by lia. simpl.
        destruct (nth_error v i) as [b|] eqn:E; [|apply nth_error_None in E; lia].
        f_equal. destruct (Nat.eqb_spec c i) as [->|Hne]; [congruence|].
        destruct b; auto. elim Hne. symmetry. apply Hu; auto.
      * rewrite (proj2 (nth_error_None _ _)) by (rewrite seq_length; lia).
        symmetry. apply nth_error_None. lia.
    + apply in_seq. assert (c < length v)%nat; [apply nth_error_Some; congruence|lia].
  - intros (c & <- & Hc). apply in_seq in Hc. unfold one_hot. rewrite map_length, seq_length. split; auto.
    exists c; split.
    + rewrite nth_error_map, (nth_error_nth' _ 0%nat) by (rewrite seq_length; lia). rewrite seq_nth by lia. simpl.
      rewrite Nat.eqb_refl. reflexivity.
    + intros d. rewrite nth_error_map. destruct (nth_error (seq 0 n) d) eqn:E; [|discriminate].
      simpl. intros [= H]. apply Nat.eqb_eq in H.
      assert (Hd : (d < n)%nat) by (rewrite <- (seq_length n 0); apply nth_error_Some; congruence).
      rewrite (nth_error_nth' _ 0%nat), seq_nth in E by (rewrite ?seq_length; lia). injection E as <-. auto.
Qed.

Lemma all_sources_complete no' nf' nc' s : In s (all_sources no' nf' nc') <-> valid_source no' nf' nc' s.
Proof.
  unfold all_sources, valid_source, cube in *. rewrite in_choices, repeat_length.
  rewrite Forall_forall. split; (intros [Hl H]; split; [exact Hl|]).
  - intros row Hr. apply In_nth_error in Hr as (i & Hi).
    assert (Hin : In row (choices (repeat (one_hots nc') nf'))).
    { apply (H i); auto. rewrite nth_error_repeat; auto. rewrite <- Hl. apply nth_error_Some; congruence. }
    apply in_choices in Hin as [H1 H2]. rewrite repeat_length in H1. split; auto. apply Forall_forall. intros v Hv.
    apply exactly_one_one_hot. apply In_nth_error in Hv as (j & Hj). apply (H2 j); auto.
    apply nth_error_repeat. rewrite <- H1. apply nth_error_Some; congruence.
  - intros i l row H1 H2. apply nth_error_repeat_inv in H1 as ->. apply in_choices. rewrite repeat_length.
    destruct (H row (nth_error_In _ _ H2)) as [H3 H4]. split; auto.
    intros j l v H5 H6. apply nth_error_repeat_inv in H5 as ->. apply exactly_one_one_hot.
    rewrite Forall_forall in H4. apply H4. eapply nth_error_In; eauto.
Qed.

Section Marginal.
Variables (lhs : list lhmat) (W : list (list (list Q))) (no nf nc : nat).
Hypothesis HWo : length W = no.
Hypothesis HWf : Forall (fun row => length row = nf /\ Forall (fun w => length w = nc) row) W.

Definition wt (o f c : nat) : Q := nth c (nth f (nth o W []) []) 0.
Definition mixture_at (o f : nat) : Q := Qsum (map (fun c => wt o f c * lh_at lhs o f c) (seq 0 nc)).

Lemma W_row o row : nth_error W o = Some row -> length row = nf.
Proof. intros H. rewrite Forall_forall in HWf. apply (HWf row). eapply nth_error_In; eauto. Qed.
Lemma W_cell o row f w : nth_error W o = Some row -> nth_error row f = Some w -> length w = nc.
Proof.
  intros H H1. rewrite Forall_forall in HWf. destruct (HWf row) as [_ H2]; [eapply nth_error_In; eauto|].
  rewrite Forall_forall in H2. apply H2. eapply nth_error_In; eauto.
Qed.

Lemma mapi_from_const A B C (g : nat -> C) (l : list A) (l' : list B) : length l = length l' ->
  forall k, mapi_from k (fun i _ => g i) l = mapi_from k (fun i _ => g i) l'.
Proof.
  revert l'; induction l as [|x l IH]; intros [|y l'] H k; simpl in *; try discriminate; auto.
  f_equal. apply IH; lia.
Qed.

Lemma mapi_from_seq A B (h : nat -> A -> B) (d : A) (l : list A) : forall k,
  mapi_from k h l = map (fun i => h (k + i)%nat (nth i l d)) (seq 0 (length l)).
Proof.
  induction l as [|x l IH]; intros k; [reflexivity|]. simpl. rewrite Nat.add_0_r. f_equal.
  rewrite IH, <- seq_shift, map_map. apply map_ext. intros i. rewrite Nat.add_succ_r. reflexivity.
Qed.

Lemma all_some_app A (l1 l2 : list (option A)) r1 r2 :
  all_some l1 = Some r1 -> all_some l2 = Some r2 -> all_some (l1 ++ l2) = Some (r1 ++ r2).
Proof.
  revert r1; induction l1 as [|[x|] l1 IH1]; intros r1 H1 H2; simpl in *.
  - injection H1 as <-; exact H2.
  - destruct (all_some l1) eqn:E; [|discriminate]. injection H1 as <-.
    erewrite IH1; eauto. reflexivity.
  - discriminate.
Qed.
Lemma all_some_concat A B C (h : A -> B) (F : nat -> B -> list (option C)) (G : nat -> A -> list C) l :
  (forall i x, all_some (F i (h x)) = Some (G i x)) ->
  forall k, all_some (concat (mapi_from k F (map h l))) = Some (concat (mapi_from k G l)).
Proof.
  intros H; induction l as [|x l IH]; intros k; [reflexivity|]. simpl. apply all_some_app; auto.
Qed.
Lemma all_some_mapi A B C (h : A -> B) (F : nat -> B -> option C) (G : nat -> A -> C) l :
  (forall i x, F i (h x) = Some (G i x)) ->
  forall k, all_some (mapi_from k F (map h l)) = Some (mapi_from k G l).
Proof. intros H; induction l as [|x l IH]; intros k; [reflexivity|]. simpl. rewrite H, IH. reflexivity. Qed.

Lemma mixture_values :
  all_some (mixture_lhs lhs (map (map Some) W)) =
  Some (concat (mapi (fun o w_o => mapi (fun f w => Qsum (mapi (fun c q => q * lh_at lhs o f c) w)) w_o) W)).
Proof.
  unfold mixture_lhs, mapi. apply all_some_concat. intros o row. apply all_some_mapi. intros f w. reflexivity.
Qed.

Lemma mixture_prod : exists m, oprod (mixture_lhs lhs (map (map Some) W)) = Some m /\
  m == Qprod (map (fun o => Qprod (map (mixture_at o) (seq 0 nf))) (seq 0 no)).
Proof.
  unfold oprod. rewrite mixture_values. eexists; split; [reflexivity|].
  rewrite Qprod_concat. unfold mapi at 1. rewrite map_mapi_from.
  rewrite (mapi_from_seq _ ([] : list (list Q))), HWo. apply Qprod_ext. intros o Ho. apply in_seq in Ho. simpl.
  destruct (nth_error W o) as [row|] eqn:Er; [|apply nth_error_None in Er; lia].
  pose proof (W_row Er) as Hrow. rewrite (nth_error_nth _ _ [] Er).
  unfold mapi at 1. rewrite (mapi_from_seq _ ([] : list Q)), Hrow. apply Qprod_ext. intros f Hf. apply in_seq in Hf. simpl.
  destruct (nth_error row f) as [w|] eqn:Ew; [|apply nth_error_None in Ew; lia].
  pose proof (W_cell Er Ew) as Hw.
  unfold mapi, mixture_at. rewrite (mapi_from_seq _ 0). rewrite (nth_error_nth _ _ [] Ew), Hw.
  apply Qsum_ext. intros c Hc. simpl. unfold wt. rewrite (nth_error_nth _ _ [] Er), (nth_error_nth _ _ [] Ew). reflexivity.
Qed.

Lemma source_prod s : valid_source no nf nc s ->
  exists a b, oprod (source_weights (map (map Some) W) s) = Some a /\ oprod (source_lhs lhs s) = Some b /\
  a * b == Qprod (mapi (fun o s_o => Qprod (mapi (fun f s_of => Qprod (mapi (fun c (x : bool) =>
    if x then wt o f c * lh_at lhs o f c else 1) s_of)) s_o)) s).
Proof.
  intros [Hl Hs]. unfold oprod, source_weights, source_lhs.
  rewrite (@all_some_map _ _ (fun '(o, f, c) => Some (lh_at lhs o f c)) (fun '(o, f, c) => lh_at lhs o f c)) by (intros [[o f] c] _; reflexivity).
  rewrite (@all_some_map _ _ _ (fun '(o, f, c) => wt o f c)).
  - do 2 eexists; conj; try reflexivity.
    rewrite <- (@prod_positions (fun '(o, f, c) => wt o f c * lh_at lhs o f c)).
    induction (source_positions s) as [|[[o f] c] l IH]; [simpl; ring|].
    rewrite !map_cons, !Qprod_cons, <- IH. ring.
  - intros [[o f] c] Hin. unfold wt.
    assert (Hof : (o < no)%nat /\ (f < nf)%nat).
    { unfold source_positions in Hin. apply in_concat in Hin as (l1 & H1 & Hin).
      apply In_nth_error in H1 as (o' & H1). rewrite nth_error_mapi in H1.
      destruct (nth_error s o') as [row|] eqn:Er; [|discriminate]. injection H1 as <-.
      apply in_concat in Hin as (l2 & H2 & Hin).
      apply In_nth_error in H2 as (f' & H2). rewrite nth_error_mapi in H2.
      destruct (nth_error row f') as [v|] eqn:Ev; [|discriminate]. injection H2 as <-.
      apply in_concat in Hin as (l3 & H3 & Hin).
      apply In_nth_error in H3 as (c' & H3). rewrite nth_error_mapi in H3.
      destruct (nth_error v c') as [x|] eqn:Ex; [|discriminate]. injection H3 as <-.
      destruct x; [|contradiction]. destruct Hin as [[= <- <- <-]|[]].
      rewrite Forall_forall in Hs. destruct (Hs row (nth_error_In _ _ Er)) as [Hr _]. split.
      - rewrite <- Hl. apply nth_error_Some; congruence.
      - rewrite <- Hr. apply nth_error_Some; congruence. }
    destruct Hof as [Ho Hf].
    destruct (nth_error W o) as [row|] eqn:Er; [|apply nth_error_None in Er; lia].
    pose proof (W_row Er) as Hrow.
    destruct (nth_error row f) as [w|] eqn:Ew; [|apply nth_error_None in Ew; lia].
    rewrite (nth_error_nth _ _ [] Er), (nth_error_nth _ _ [] Ew).
    assert (H1 : nth_error (map (map Some) W) o = Some (map Some row)) by (rewrite nth_error_map, Er; reflexivity).
    rewrite (nth_error_nth _ _ [] H1).
    assert (H2 : nth_error (map Some row) f = Some (Some w)) by (rewrite nth_error_map, Ew; reflexivity).
    rewrite (nth_error_nth _ _ None H2). reflexivity.
Qed.

Lemma marginal_mixture : exists l m,
  all_some (map (joint lhs (map (map Some) W)) (all_sources no nf nc)) = Some l /\
  oprod (mixture_lhs lhs (map (map Some) W)) = Some m /\ Qsum l == m.
Proof.
  destruct mixture_prod as (m & Hm & Em).
  set (G := fun s : cube => match joint lhs (map (map Some) W) s with Some q => q | None => 0 end).
  exists (map G (all_sources no nf nc)), m; conj; auto.
  - apply all_some_map. intros s Hs. apply all_sources_complete in Hs.
    destruct (source_prod Hs) as (a & b & Ha & Hb & _). unfold G, joint. rewrite Ha, Hb. reflexivity.
  - rewrite Em.
    transitivity (Qsum (map (fun s => Qprod (mapi (fun o s_o => Qprod (mapi (fun f s_of => Qprod (mapi (fun c (x : bool) =>
      if x then wt o f c * lh_at lhs o f c else 1) s_of)) s_o)) s)) (all_sources no nf nc))).
    { apply Qsum_ext. intros s Hs. apply all_sources_complete in Hs.
      destruct (source_prod Hs) as (a & b & Ha & Hb & E). unfold G, joint. rewrite Ha, Hb. exact E. }
    unfold all_sources, mapi at 1. rewrite sum_choices.
    rewrite (mapi_from_seq _ ([] : list (list (list bool)))), repeat_length.
    apply Qprod_ext. intros o Ho. apply in_seq in Ho. rewrite nth_repeat_lt by lia. simpl.
    unfold mapi at 1. rewrite sum_choices.
    rewrite (mapi_from_seq _ ([] : list (list bool))), repeat_length.
    apply Qprod_ext. intros f Hf. apply in_seq in Hf. rewrite nth_repeat_lt by lia. simpl.
    apply (@sum_one_hots (fun c => wt o f c * lh_at lhs o f c)).
Qed.

End Marginal.
