(** Lemmas for C10-C12. *)
From Coq Require Import Lqa.
From Verif Require Import M_operators S_operators.
Set Implicit Arguments.
Unset Strict Implicit.
Open Scope Q_scope.

(** * Supports *)
Lemma Qmult_neq_0 a b : ~ a * b == 0 -> ~ a == 0 /\ ~ b == 0.
Proof. intros H; split; intros H1; apply H; rewrite H1; ring. Qed.

Lemma supp_scale A (d : dist A) p b : supp (scale p d) b -> ~ p == 0 /\ supp d b.
Proof.
  intros (q & Hin & Hq). unfold scale in Hin. apply in_map_iff in Hin as ([a r] & [= <- <-] & Hin).
  apply Qmult_neq_0 in Hq as [H1 H2]. split; auto. exists r; auto.
Qed.
Lemma supp_bind A B (d : dist A) (f : A -> dist B) b : supp (bind d f) b -> exists a, supp d a /\ supp (f a) b.
Proof.
  intros (q & Hin & Hq). unfold bind in Hin. apply in_concat in Hin as (l & Hl & Hin).
  apply in_map_iff in Hl as ([a p] & <- & Ha).
  assert (Hs : supp (scale p (f a)) b) by (exists q; auto).
  apply supp_scale in Hs as [Hp Hs]. exists a; split; auto. exists p; auto.
Qed.
Lemma supp_ret A (a b : A) : supp (ret a) b -> b = a.
Proof. intros (q & [H|[]] & _). congruence. Qed.
Lemma supp_uniform A (l : list A) a : supp (uniform l) a -> In a l.
Proof. intros (q & H & _). unfold uniform in H. apply in_map_iff in H as (b & [= <- _] & H). auto. Qed.
Lemma supp_choose l f out : supp (choose l f) out -> (out = Fail /\ l = []) \/ exists a, In a l /\ supp (f a) out.
Proof.
  destruct l as [|a l]; simpl; intros H.
  - apply supp_ret in H; auto.
  - right. apply supp_bind in H as (b & H1 & H2). exists b; split; auto. apply supp_uniform in H1; auto.
Qed.
Lemma supp_mapi l o : supp (mapi (fun o (q : Q) => (o, q)) l) o -> exists q, nth_error l o = Some q /\ ~ q == 0.
Proof.
  intros (p & Hin & Hp). apply In_nth_error in Hin as (i & Hi). rewrite nth_error_mapi in Hi.
  destruct (nth_error l i) eqn:E; [|discriminate]. injection Hi as <- <-. eauto.
Qed.
Lemma supp_choose_p p f out : supp (choose_p p f) out ->
  (out = Fail /\ p = None) \/ exists l a q, p = Some l /\ nth_error l a = Some q /\ ~ q == 0 /\ supp (f a) out.
Proof.
  destruct p as [l|]; simpl; intros H.
  - right. apply supp_bind in H as (a & H1 & H2). apply supp_mapi in H1 as (q & H1 & H3). eauto 8.
  - apply supp_ret in H; auto.
Qed.

Lemma supp_finish e must x cl' objs q qb y q' qb' :
  supp (finish e must x cl' objs q qb) (Propose y q' qb') -> x_clusters y = cl'.
Proof.
  unfold finish. destruct (e_resample e).
  - destruct (x_source x).
    + intros H. apply supp_bind in H as (rows & _ & H). apply supp_ret in H. injection H as -> _ _. reflexivity.
    + intros H. apply supp_ret in H. destruct must; [discriminate|]. injection H as -> _ _. reflexivity.
  - intros H. apply supp_ret in H. injection H as -> _ _. reflexivity.
Qed.

(** * Sizes *)
Lemma size_count c : size c = count_occ Bool.bool_dec c true.
Proof. unfold size. induction c as [|[] c IH]; simpl; auto. Qed.
Lemma size_upd_true c : forall o, nth_error c o = Some false -> size (upd o (fun _ => true) c) = S (size c).
Proof.
  unfold size. induction c as [|b c IH]; intros [|o] H; simpl in *; try discriminate.
  - injection H as ->. reflexivity.
  - destruct b; simpl; rewrite IH; auto.
Qed.
Lemma size_upd_false c : forall o, nth_error c o = Some true -> S (size (upd o (fun _ => false) c)) = size c.
Proof.
  unfold size. induction c as [|b c IH]; intros [|o] H; simpl in *; try discriminate.
  - injection H as ->. reflexivity.
  - specialize (IH _ H). destruct b; simpl; lia.
Qed.
Lemma in_nonzero c o : In o (nonzero c) <-> nth_error c o = Some true.
Proof.
  unfold nonzero. rewrite filter_In, in_seq. split.
  - intros [H1 H2]. destruct (nth_error c o) eqn:E; [|apply nth_error_None in E; lia].
    rewrite (nth_error_nth _ _ false E) in H2. congruence.
  - intros H. split; [|apply nth_error_nth; auto]. assert (o < length c)%nat; [apply nth_error_Some; congruence|lia].
Qed.
Lemma nonzero_length c : length (nonzero c) = size c.
Proof.
  unfold nonzero, size. 
  assert (H : forall k, length (filter (fun o => nth (o - k) c false) (seq k (length c))) = length (filter (fun b : bool => b) c)).
  { induction c as [|b c IH]; intros k; [reflexivity|]. simpl. rewrite Nat.sub_diag. 
    assert (H1 : filter (fun o => match (o - k)%nat with 0%nat => b | S m => nth m c false end) (seq (S k) (length c)) =
                 filter (fun o => nth (o - S k) c false) (seq (S k) (length c))).
    { apply filter_ext_in. intros o Ho. apply in_seq in Ho. replace (o - k)%nat with (S (o - S k)) by lia. reflexivity. }
    rewrite H1. destruct b; simpl; rewrite IH; reflexivity. }
  rewrite <- (H 0%nat). f_equal. apply filter_ext. intros o. rewrite Nat.sub_0_r. reflexivity.
Qed.

(** * Shapes and disjointness *)
Definition row (cl : bmat) (z : nat) : list bool := nth z cl [].
Lemma nth_upd_same A (d : A) (f : A -> A) l i : (i < length l)%nat -> nth i (upd i f l) d = f (nth i l d).
Proof.
  intros H. destruct (nth_error l i) eqn:E; [|apply nth_error_None in E; lia].
  rewrite (nth_error_nth _ _ d E). apply nth_error_nth. rewrite nth_error_upd_same, E. reflexivity.
Qed.
Lemma nth_upd_other A (d : A) (f : A -> A) l i j : i <> j -> nth j (upd i f l) d = nth j l d.
Proof.
  intros H. destruct (nth_error l j) eqn:E.
  - rewrite (nth_error_nth _ _ d E). apply nth_error_nth. rewrite nth_error_upd_other; auto.
  - pose proof E as E'. apply nth_error_None in E. rewrite nth_overflow, nth_overflow; auto. rewrite upd_length; auto.
Qed.
Lemma Forall_upd A (P : A -> Prop) (f : A -> A) l i :
  Forall P l -> (forall x, nth_error l i = Some x -> P (f x)) -> Forall P (upd i f l).
Proof.
  intros H; revert i; induction H as [|x l Hx Hl IH]; intros [|i] Hf; simpl; constructor; auto.
Qed.
Lemma shape_upd k n cl z f : cluster_shape k n cl -> (forall c, length (f c) = length c) -> cluster_shape k n (upd z f cl).
Proof.
  intros [H1 H2] Hf. split; [rewrite upd_length; auto|]. apply Forall_upd; auto.
  intros c Hc. rewrite Hf. rewrite Forall_forall in H2. apply H2. eapply nth_error_In; eauto.
Qed.
Lemma shape_upd' k n cl z r : cluster_shape k n cl -> length r = n -> cluster_shape k n (upd z (fun _ => r) cl).
Proof.
  intros [H1 H2] Hr. split; [rewrite upd_length; auto|]. apply Forall_upd; auto.
Qed.

Lemma any_group_false cl o : any_group cl o = false -> forall i, nth o (nth i cl []) false = false.
Proof.
  intros H i. destruct (nth o (nth i cl []) false) eqn:E; auto. rewrite <- H. symmetry.
  unfold any_group. apply existsb_exists. exists (nth i cl []). split; auto.
  destruct (Nat.lt_ge_cases i (length cl)); [apply nth_In; auto|]. rewrite (nth_overflow cl) in E by auto.
  destruct o; discriminate.
Qed.
Lemma any_group_true cl o i : nth o (nth i cl []) false = true -> any_group cl o = true.
Proof.
  intros H. destruct (any_group cl o) eqn:E; auto. rewrite (any_group_false E) in H. discriminate.
Qed.

Lemma disjoint_add cl z a : disjoint_groups cl -> any_group cl a = false -> disjoint_groups (add_object cl z a).
Proof.
  intros Hd Hf o i j Hi Hj. unfold add_object in *.
  assert (Hz : forall k, nth o (nth k (upd z (upd a (fun _ => true)) cl) []) false = true ->
    nth o (nth k cl []) false = true \/ (k = z /\ o = a)).
  { intros k Hk. destruct (Nat.eq_dec z k) as [<-|Hne].
    - destruct (Nat.lt_ge_cases z (length cl)) as [Hlt|Hge].
      + rewrite nth_upd_same in Hk by auto. destruct (Nat.eq_dec a o) as [<-|Hao]; [auto|].
        rewrite nth_upd_other in Hk by auto. auto.
      + rewrite upd_out in Hk by auto. auto.
    - rewrite nth_upd_other in Hk by auto. auto. }
  apply Hz in Hi. apply Hz in Hj. destruct Hi as [Hi|[Hi Ho]], Hj as [Hj|[Hj Ho']].
  - eapply Hd; eauto.
  - rewrite Ho', any_group_false in Hi; auto; discriminate.
  - rewrite Ho, any_group_false in Hj; auto; discriminate.
  - congruence.
Qed.
Lemma disjoint_sub cl cl' : disjoint_groups cl ->
  (forall o i, nth o (nth i cl' []) false = true -> nth o (nth i cl []) false = true) -> disjoint_groups cl'.
Proof. intros Hd H o i j Hi Hj. eapply Hd; eauto. Qed.
Lemma remove_sub cl z a o i : nth o (nth i (remove_object cl z a) []) false = true -> nth o (nth i cl []) false = true.
Proof.
  unfold remove_object. destruct (Nat.eq_dec z i) as [<-|Hne]; [|rewrite nth_upd_other by auto; auto].
  destruct (Nat.lt_ge_cases z (length cl)) as [Hlt|Hge]; [|rewrite upd_out by auto; auto].
  rewrite nth_upd_same by auto. destruct (Nat.eq_dec a o) as [<-|Hao].
  - destruct (Nat.lt_ge_cases a (length (nth z cl []))) as [Hl|Hl].
    + rewrite nth_upd_same by auto. discriminate.
    + rewrite upd_out by auto. auto.
  - rewrite nth_upd_other by auto. auto.
Qed.

(** * What a proposal can do *)
(** One object added to a cluster it can join, one removed, or one cluster replaced. *)
Inductive change (n mn mx : nat) (cl : bmat) : bmat -> Prop :=
| ch_add : forall z a, (z < length cl)%nat -> (a < n)%nat -> any_group cl a = false ->
    change n mn mx cl (add_object cl z a)
| ch_remove : forall z a, (z < length cl)%nat -> nth_error (nth z cl []) a = Some true ->
    change n mn mx cl (remove_object cl z a)
| ch_replace : forall z r, (z < length cl)%nat -> length r = n -> (mn <= size r <= mx)%nat ->
    (forall o, nth o r false = true -> any_group cl o = false \/ nth o (nth z cl []) false = true) ->
    change n mn mx cl (upd z (fun _ => r) cl).

Lemma in_ids x z : In z (ids x) <-> (z < length (x_clusters x))%nat.
Proof. unfold ids. rewrite in_seq. lia. Qed.

Lemma nth_error_any_cluster n cl a : (a < n)%nat -> nth_error (any_cluster n cl) a = Some (any_group cl a).
Proof.
  intros H. unfold any_cluster. rewrite nth_error_map, (nth_error_nth' _ 0%nat), seq_nth by (rewrite ?seq_length; lia).
  reflexivity.
Qed.
Lemma nth_error_bnot l a b : nth_error (bnot l) a = Some b <-> nth_error l a = Some (negb b).
Proof.
  unfold bnot. rewrite nth_error_map. destruct (nth_error l a) as [[]|]; destruct b; simpl; split; congruence.
Qed.
Lemma free_true n cl a : nth_error (bnot (any_cluster n cl)) a = Some true -> (a < n)%nat /\ any_group cl a = false.
Proof.
  rewrite nth_error_bnot. simpl. intros H.
  assert (Ha : (a < n)%nat).
  { assert (a < length (any_cluster n cl))%nat by (apply nth_error_Some; congruence).
    unfold any_cluster in *. rewrite map_length, seq_length in *. auto. }
  rewrite nth_error_any_cluster in H by auto. split; congruence.
Qed.
Lemma neighbours_free n c cl adj a :
  nth_error (get_neighbours c (any_cluster n cl) adj) a = Some true -> (a < n)%nat /\ any_group cl a = false.
Proof.
  unfold get_neighbours. rewrite nth_error_map2. destruct (nth_error adj a); [|discriminate].
  destruct (nth_error (any_cluster n cl) a) as [b|] eqn:E; [|discriminate]. intros [= H].
  apply andb_true_iff in H as [_ H]. apply negb_true_iff in H as ->.
  apply free_true. apply nth_error_bnot. auto.
Qed.

Lemma supp_grow e x y q qb : supp (grow e x) (Propose y q qb) ->
  exists z a, (z < length (x_clusters x))%nat /\ (a < n_objects e)%nat /\ any_group (x_clusters x) a = false /\
    (size (nth z (x_clusters x) []) < e_max e)%nat /\ x_clusters y = add_object (x_clusters x) z a.
Proof.
  intros H. apply supp_choose in H as [[H _]|(z & Hz & H)]; [discriminate|]. apply in_ids in Hz. unfold grow_at in H. cbv zeta in H.
  destruct (Nat.leb_spec (e_max e) (size (nth z (x_clusters x) []))) as [Hm|Hm]; [apply supp_ret in H; discriminate|].
  apply supp_bind in H as (c & _ & H). cbv zeta in H.
  destruct (negb _); [apply supp_ret in H; discriminate|].
  apply supp_choose in H as [[H _]|(a & Ha & H)]; [discriminate|]. apply supp_finish in H.
  assert (Hf : (a < n_objects e)%nat /\ any_group (x_clusters x) a = false).
  { apply in_nonzero in Ha. destruct c; [eapply neighbours_free|eapply free_true]; eauto. }
  destruct Hf. eauto 10.
Qed.
Lemma supp_shrink e x y q qb : supp (shrink e x) (Propose y q qb) ->
  exists z a, (z < length (x_clusters x))%nat /\ nth_error (nth z (x_clusters x) []) a = Some true /\
    (e_min e < size (nth z (x_clusters x) []))%nat /\ x_clusters y = remove_object (x_clusters x) z a.
Proof.
  intros H. apply supp_choose in H as [[H _]|(z & Hz & H)]; [discriminate|]. apply in_ids in Hz. unfold shrink_at in H. cbv zeta in H.
  destruct (Nat.leb_spec (size (nth z (x_clusters x) [])) (e_min e)) as [Hm|Hm]; [apply supp_ret in H; discriminate|].
  apply supp_choose in H as [[H _]|(a & Ha & H)]; [discriminate|]. apply supp_finish in H. apply in_nonzero in Ha.
  eauto 10.
Qed.

Lemma normalize_zero v l a q : normalize v = Some l -> nth_error l a = Some q -> ~ q == 0 ->
  exists r, nth_error v a = Some r /\ ~ r == 0.
Proof.
  unfold normalize. destruct (Qeq_bool (Qsum v) 0) eqn:E; [discriminate|]. intros [= <-]. rewrite nth_error_map.
  destruct (nth_error v a) as [r|]; [|discriminate]. intros [= <-] H. exists r; split; auto.
  intros Hr. apply H. rewrite Hr. apply Qeq_bool_neq in E. field. auto.
Qed.
Lemma bmask_zero v m a r : nth_error (bmask v m) a = Some r -> ~ r == 0 -> nth_error m a = Some true.
Proof.
  unfold bmask. rewrite nth_error_map2. destruct (nth_error v a); [|discriminate].
  destruct (nth_error m a) as [[]|]; try discriminate; auto. intros [= <-] H. exfalso; apply H; reflexivity.
Qed.

Lemma supp_gibbsish_grow e x y q qb : supp (gibbsish_grow e x) (Propose y q qb) ->
  exists z a, (z < length (x_clusters x))%nat /\ (a < n_objects e)%nat /\ any_group (x_clusters x) a = false /\
    size (nth z (x_clusters x) []) <> e_max e /\ x_clusters y = add_object (x_clusters x) z a.
Proof.
  intros H. apply supp_choose in H as [[H _]|(z & Hz & H)]; [discriminate|]. apply in_ids in Hz. unfold gibbsish_grow_at in H. cbv zeta in H.
  destruct (negb _); [apply supp_ret in H; discriminate|].
  destruct (Nat.eqb_spec (size (nth z (x_clusters x) [])) (e_max e)) as [Hm|Hm]; [apply supp_ret in H; discriminate|].
  destruct (posteriors e (x_clusters x) z) as [post|]; [|apply supp_ret in H; discriminate].
  apply supp_choose_p in H as [[H _]|(l & a & p & Hl & Ha & Hp & H)]; [discriminate|]. apply supp_finish in H.
  destruct (normalize_zero Hl Ha Hp) as (r & Hr & Hr0). pose proof (bmask_zero Hr Hr0) as Hc.
  apply free_true in Hc as [H1 H2]. eauto 10.
Qed.
Lemma supp_gibbsish_shrink e x y q qb : supp (gibbsish_shrink e x) (Propose y q qb) ->
  exists z a, (z < length (x_clusters x))%nat /\ nth_error (nth z (x_clusters x) []) a = Some true /\
    size (nth z (x_clusters x) []) <> e_min e /\ x_clusters y = remove_object (x_clusters x) z a.
Proof.
  intros H. apply supp_choose in H as [[H _]|(z & Hz & H)]; [discriminate|]. apply in_ids in Hz. unfold gibbsish_shrink_at in H. cbv zeta in H.
  destruct (Nat.eqb_spec (size (nth z (x_clusters x) [])) (e_min e)) as [Hm|Hm]; [apply supp_ret in H; discriminate|].
  destruct (posteriors e (x_clusters x) z) as [post|]; [|apply supp_ret in H; discriminate].
  apply supp_choose_p in H as [[H _]|(l & a & p & Hl & Ha & Hp & H)]; [discriminate|]. apply supp_finish in H.
  destruct (normalize_zero Hl Ha Hp) as (r & Hr & Hr0). pose proof (bmask_zero Hr Hr0) as Hc. eauto 10.
Qed.

Lemma supp_prod_dist A (ds : list (dist A)) l : supp (prod_dist ds) l -> Forall2 (fun d x => supp d x) ds l.
Proof.
  revert l; induction ds as [|d ds IH]; intros l H; simpl in H.
  - apply supp_ret in H as ->. constructor.
  - apply supp_bind in H as (x & Hx & H). apply supp_bind in H as (xs & Hxs & H). apply supp_ret in H as ->.
    constructor; auto.
Qed.

Lemma Forall2_len A B (R : A -> B -> Prop) l r : Forall2 R l r -> length l = length r.
Proof. induction 1; simpl; auto. Qed.
Lemma gather_length A (a : list bool) : forall (l : list A), length l = length a -> length (gather a l) = size a.
Proof.
  unfold size. induction a as [|[] a IH]; intros [|x l] H; simpl in *; try discriminate; auto.
Qed.
Lemma scatter_length a : forall c n, length c = length a -> length (scatter a c n) = length a.
Proof.
  induction a as [|[] a IH]; intros [|b c] n H; simpl in *; try discriminate; auto.
  destruct n; simpl; rewrite IH; auto.
Qed.
(** Entries outside the mask stay, entries inside come from the new values. *)
Lemma scatter_outside a : forall c n o, nth_error a o = Some false -> length c = length a ->
  nth_error (scatter a c n) o = nth_error c o.
Proof.
  induction a as [|b a IH]; intros [|x c] n [|o] Ho Hl; simpl in *; try discriminate.
  - injection Ho as ->. reflexivity.
  - destruct b; [destruct n|]; simpl; apply IH; auto.
Qed.
Lemma size_scatter a : forall c n, length c = length a -> length n = size a ->
  (forall o, nth_error c o = Some true -> nth_error a o = Some true) -> size (scatter a c n) = size n.
Proof.
  unfold size. induction a as [|b a IH]; intros [|x c] n Hc Hn H; simpl in *; try discriminate.
  - destruct n; auto; discriminate.
  - destruct b; simpl in Hn.
    + destruct n as [|y n]; [discriminate|]. simpl in *.
      assert (IH' : length (filter (fun b : bool => b) (scatter a c n)) = length (filter (fun b : bool => b) n)).
      { apply IH; auto. intros o Ho. apply (H (S o)); auto. }
      destruct y; simpl; auto.
    + assert (Hx : x = false). { destruct x; auto. specialize (H 0%nat eq_refl). discriminate. }
      subst x. simpl. apply IH; auto. intros o Ho. apply (H (S o)); auto.
Qed.

Lemma available_nth n cl i o : n = length (nth i cl []) -> (o < n)%nat ->
  nth_error (map2 (fun (occ own : bool) => negb occ || own) (any_cluster n cl) (nth i cl [])) o
  = Some (negb (any_group cl o) || nth o (nth i cl []) false).
Proof.
  intros Hn Ho. rewrite nth_error_map2, nth_error_any_cluster by auto.
  rewrite (nth_error_nth' (nth i cl []) false) by lia. reflexivity.
Qed.

Lemma supp_gibbsish2 e x y q qb k : supp (gibbsish2 e x) (Propose y q qb) -> cluster_shape k (n_objects e) (x_clusters x) ->
  exists z r, (z < length (x_clusters x))%nat /\ length r = n_objects e /\ (e_min e <= size r <= e_max e)%nat /\
    (forall o, nth o r false = true -> any_group (x_clusters x) o = false \/ nth o (nth z (x_clusters x) []) false = true) /\
    x_clusters y = upd z (fun _ => r) (x_clusters x).
Proof.
  intros H [Hk Hn]. set (cl := x_clusters x) in *.
  apply supp_choose in H as [[H _]|(z & Hz & H)]; [discriminate|]. apply in_ids in Hz. unfold gibbsish2_at in H. cbv zeta in H. fold cl in Hz, H.
  assert (Hrow : length (nth z cl []) = n_objects e).
  { rewrite Forall_forall in Hn. apply Hn. apply nth_In; auto. }
  apply supp_bind in H as (new & Hnew & H).
  destruct (negb _) eqn:Eb; [apply supp_ret in H; discriminate|].
  apply negb_false_iff, andb_true_iff in Eb as [H1 H2]. apply Nat.leb_le in H1, H2.
  destruct (forallb _ _); [apply supp_ret in H; discriminate|].
  apply supp_finish in H.
  exists z, (scatter (available e cl z) (nth z cl []) new).
  assert (Hal : length (available e cl z) = n_objects e).
  { unfold available, any_cluster. rewrite map2_length, map_length, seq_length, Hrow. apply Nat.min_id. }
  assert (Hlen : length new = size (available e cl z)).
  { apply supp_prod_dist in Hnew. apply Forall2_len in Hnew. rewrite <- Hnew, map_length.
    apply gather_length. rewrite map_length, seq_length. auto. }
  assert (Hav : forall o, (o < n_objects e)%nat -> nth_error (available e cl z) o =
            Some (negb (any_group cl o) || nth o (nth z cl []) false)).
  { intros o Ho. unfold available. rewrite available_nth; auto. }
  conj; auto.
  - rewrite scatter_length; congruence.
  - rewrite size_scatter; auto; [congruence|]. intros o Ho.
    assert (Hlt : (o < n_objects e)%nat) by (rewrite <- Hrow; apply nth_error_Some; congruence).
    rewrite Hav by auto. rewrite (nth_error_nth _ _ false Ho), orb_true_r. reflexivity.
  - rewrite size_scatter; auto; [congruence|]. intros o Ho.
    assert (Hlt : (o < n_objects e)%nat) by (rewrite <- Hrow; apply nth_error_Some; congruence).
    rewrite Hav by auto. rewrite (nth_error_nth _ _ false Ho), orb_true_r. reflexivity.
  - intros o Ho. destruct (any_group cl o) eqn:Eo; auto. right.
    destruct (nth o (nth z cl []) false) eqn:Ez; auto.
    destruct (Nat.lt_ge_cases o (n_objects e)) as [Hlt|Hge].
    + pose proof (Hav o Hlt) as Ha. rewrite Eo, Ez in Ha. simpl in Ha.
      pose proof (@scatter_outside _ (nth z cl []) new o Ha) as Hs.
      rewrite (nth_error_nth' (nth z cl []) false), Ez in Hs by congruence.
      rewrite (nth_error_nth _ _ false (Hs ltac:(congruence))) in Ho. discriminate.
    + rewrite nth_overflow in Ho; [discriminate|]. rewrite scatter_length; lia.
Qed.

Lemma supp_alter e x out : supp (alter_cluster e x) out -> supp (shrink e x) out \/ supp (grow e x) out.
Proof. intros H. apply supp_bind in H as ([] & _ & H); auto. Qed.
Lemma supp_gibbsish e x out : supp (gibbsish e x) out -> supp (gibbsish_shrink e x) out \/ supp (gibbsish_grow e x) out.
Proof. intros H. apply supp_bind in H as ([] & _ & H); auto. Qed.

Lemma propose_change e o x y k : can_propose e o x y -> cluster_shape k (n_objects e) (x_clusters x) ->
  change (n_objects e) (e_min e) (e_max e) (x_clusters x) (x_clusters y).
Proof.
  intros (q & qb & H) Hs. destruct o; simpl in H.
  - apply supp_alter in H as [H|H].
    + apply supp_shrink in H as (z & a & Hz & Ha & _ & ->). constructor; auto.
    + apply supp_grow in H as (z & a & Hz & Ha & Hf & _ & ->). constructor; auto.
  - apply supp_gibbsish in H as [H|H].
    + apply supp_gibbsish_shrink in H as (z & a & Hz & Ha & _ & ->). constructor; auto.
    + apply supp_gibbsish_grow in H as (z & a & Hz & Ha & Hf & _ & ->). constructor; auto.
  - eapply supp_gibbsish2 in H as (z & r & Hz & Hr & Hsz & Hin & ->); eauto. constructor; auto.
Qed.

Lemma change_shape n mn mx k cl cl' : change n mn mx cl cl' -> cluster_shape k n cl -> cluster_shape k n cl'.
Proof.
  intros [z a _ _ _|z a _ _|z r _ Hr _ _] H.
  - apply shape_upd; auto. intros; apply upd_length.
  - apply shape_upd; auto. intros; apply upd_length.
  - apply shape_upd'; auto.
Qed.
Lemma change_disjoint n mn mx cl cl' : change n mn mx cl cl' -> disjoint_groups cl -> disjoint_groups cl'.
Proof.
  intros [z a _ _ Hf|z a _ _|z r Hz _ _ Hin] H.
  - apply disjoint_add; auto.
  - eapply disjoint_sub; eauto. intros; eapply remove_sub; eauto.
  - intros o i j Hi Hj.
    assert (Hcase : forall k, nth o (nth k (upd z (fun _ => r) cl) []) false = true ->
      (k = z /\ nth o r false = true) \/ (k <> z /\ nth o (nth k cl []) false = true)).
    { intros k Hk. destruct (Nat.eq_dec z k) as [<-|Hne].
      - rewrite nth_upd_same in Hk by auto. auto.
      - rewrite nth_upd_other in Hk by auto. auto. }
    apply Hcase in Hi. apply Hcase in Hj.
    destruct Hi as [[Hni Hi]|[Hni Hi]], Hj as [[Hnj Hj]|[Hnj Hj]]; [congruence|..|eapply H; eauto]; subst z.
    + destruct (Hin o Hi) as [Hx|Hx]; [rewrite any_group_false in Hj; auto; discriminate|]. eapply H; eauto.
    + destruct (Hin o Hj) as [Hx|Hx]; [rewrite any_group_false in Hi; auto; discriminate|]. eapply H; eauto.
Qed.

Lemma chain_invariant n mn mx ops k x y : chain n mn mx ops x y ->
  cluster_shape k n (x_clusters x) -> disjoint_groups (x_clusters x) ->
  cluster_shape k n (x_clusters y) /\ disjoint_groups (x_clusters y).
Proof.
  intros H Hs Hd. induction H as [| | |x y z e o _ IH _ Hn _ _ Hp]; simpl; auto.
  destruct (IH Hs Hd) as [H1 H2]. subst n. pose proof (propose_change Hp H1) as Hc. split.
  - eapply change_shape; eauto.
  - eapply change_disjoint; eauto.
Qed.

(** * Sizes of clusters *)
Lemma sizes_upd mn mx cl z f : sizes_in mn mx cl ->
  (forall c, nth_error cl z = Some c -> (mn <= size (f c) <= mx)%nat) -> sizes_in mn mx (upd z f cl).
Proof.
  intros H Hf. unfold sizes_in in *. apply Forall_upd; auto. intros c Hc. rewrite <- size_count. auto.
Qed.
Lemma free_row cl z c a n : Forall (fun c => length c = n) cl -> nth_error cl z = Some c -> (a < n)%nat ->
  any_group cl a = false -> nth_error c a = Some false.
Proof.
  intros Hn Hc Ha Hf. rewrite Forall_forall in Hn.
  rewrite (nth_error_nth' _ false) by (rewrite (Hn c); auto; eapply nth_error_In; eauto).
  f_equal. rewrite <- (nth_error_nth _ _ [] Hc). apply any_group_false; auto.
Qed.

(** How the sizes change in one proposal. *)
Lemma propose_sizes e o x y k : can_propose e o x y -> cluster_shape k (n_objects e) (x_clusters x) ->
  sizes_in (e_min e) (e_max e) (x_clusters x) -> sizes_in (e_min e) (e_max e) (x_clusters y).
Proof.
  intros (q & qb & H) [Hk Hn] Hsz.
  assert (Hrow : forall z c, nth_error (x_clusters x) z = Some c -> (e_min e <= size c <= e_max e)%nat).
  { intros z c Hc. unfold sizes_in in Hsz. rewrite Forall_forall in Hsz. rewrite size_count. apply Hsz. eapply nth_error_In; eauto. }
  destruct o; simpl in H.
  - apply supp_alter in H as [H|H].
    + apply supp_shrink in H as (z & a & Hz & Ha & Hmin & ->). apply sizes_upd; auto. intros c Hc.
      rewrite (nth_error_nth _ _ [] Hc) in Ha, Hmin. pose proof (size_upd_false Ha). pose proof (Hrow _ _ Hc). lia.
    + apply supp_grow in H as (z & a & Hz & Ha & Hf & Hmax & ->). apply sizes_upd; auto. intros c Hc.
      rewrite (nth_error_nth _ _ [] Hc) in Hmax. pose proof (size_upd_true (free_row Hn Hc Ha Hf)). pose proof (Hrow _ _ Hc). lia.
  - apply supp_gibbsish in H as [H|H].
    + apply supp_gibbsish_shrink in H as (z & a & Hz & Ha & Hmin & ->). apply sizes_upd; auto. intros c Hc.
      rewrite (nth_error_nth _ _ [] Hc) in Ha, Hmin. pose proof (size_upd_false Ha). pose proof (Hrow _ _ Hc). lia.
    + apply supp_gibbsish_grow in H as (z & a & Hz & Ha & Hf & Hmax & ->). apply sizes_upd; auto. intros c Hc.
      rewrite (nth_error_nth _ _ [] Hc) in Hmax. pose proof (size_upd_true (free_row Hn Hc Ha Hf)). pose proof (Hrow _ _ Hc). lia.
  - eapply supp_gibbsish2 in H as (z & r & Hz & Hr & Hb & Hin & ->); [|split; eauto]. apply sizes_upd; auto.
Qed.

Lemma chain_sizes n mn mx ops k x y : chain n mn mx ops x y ->
  cluster_shape k n (x_clusters x) -> disjoint_groups (x_clusters x) -> sizes_in mn mx (x_clusters x) ->
  sizes_in mn mx (x_clusters y).
Proof.
  intros H Hs Hd Hz. induction H as [| | |x y z e o Hc IH _ Hn Hmn Hmx Hp]; simpl; auto.
  destruct (chain_invariant Hc Hs Hd) as [H1 H2]. specialize (IH Hs Hd Hz). subst. eapply propose_sizes; eauto.
Qed.

(** From any start: a cluster above the maximum does not grow, one below the minimum does not shrink. *)
Lemma propose_toward_bounds e o x y k z c c' : o <> OpGibbsish -> can_propose e o x y ->
  cluster_shape k (n_objects e) (x_clusters x) ->
  nth_error (x_clusters x) z = Some c -> nth_error (x_clusters y) z = Some c' ->
  ((e_max e <= size c)%nat -> (size c' <= size c)%nat) /\ ((size c <= e_min e)%nat -> (size c <= size c')%nat).
Proof.
  intros Ho (q & qb & H) [Hk Hn] Hc Hc'. destruct o; simpl in H; [|congruence|].
  - apply supp_alter in H as [H|H].
    + apply supp_shrink in H as (z' & a & Hz & Ha & Hmin & E). rewrite E in Hc'. unfold remove_object in Hc'.
      rewrite nth_error_upd in Hc'. destruct (Nat.eqb_spec z' z) as [->|Hne].
      * rewrite Hc in Hc'. injection Hc' as <-. rewrite (nth_error_nth _ _ [] Hc) in Ha, Hmin.
        pose proof (size_upd_false Ha). lia.
      * rewrite Hc in Hc'. injection Hc' as <-. lia.
    + apply supp_grow in H as (z' & a & Hz & Ha & Hf & Hmax & E). rewrite E in Hc'. unfold add_object in Hc'.
      rewrite nth_error_upd in Hc'. destruct (Nat.eqb_spec z' z) as [->|Hne].
      * rewrite Hc in Hc'. injection Hc' as <-. rewrite (nth_error_nth _ _ [] Hc) in Hmax.
        pose proof (size_upd_true (free_row Hn Hc Ha Hf)). lia.
      * rewrite Hc in Hc'. injection Hc' as <-. lia.
  - eapply supp_gibbsish2 in H as (z' & r & Hz & Hr & Hb & Hin & E); [|split; eauto]. rewrite E in Hc'.
    rewrite nth_error_upd in Hc'. destruct (Nat.eqb_spec z' z) as [->|Hne].
    + rewrite Hc in Hc'. injection Hc' as <-. lia.
    + rewrite Hc in Hc'. injection Hc' as <-. lia.
Qed.
