(** Lemmas for C75: what the sampler never changes in settings outside the hypotheses. *)
From Coq Require Import Reals Qreals Lra.
From Verif Require Import M_source S_model S_operators S_source S_mcmc S_honest S_gsource S_ergodic
  L_model L_cache L_operators L_reverse L_balance L_honest2 L_gsource2 L_labels L_reach2.
Set Implicit Arguments.
Unset Strict Implicit.
Open Scope R_scope.

Lemma Rsum_some A (f : A -> R) l : Rsum (map f l) <> 0 -> exists a, In a l /\ f a <> 0.
Proof.
  induction l as [|a l IH]; intros H; [elim H; reflexivity|]. destruct (Req_dec (f a) 0) as [E|E]; [|exists a; split; simpl; auto].
  destruct IH as (b & Hb & Hf); [|exists b; split; simpl; auto]. intros E'. apply H. unfold Rsum in *. simpl. rewrite E, E'. ring.
Qed.
Lemma matrix_supp e moves ll prior states x y : sampler_matrix e moves ll prior states x y <> 0 ->
  x = y \/ exists w m q qb, In (w, m) moves /\ w <> 0 /\ supp (run_move e m x) (Propose y q qb).
Proof.
  intros H. unfold sampler_matrix in H. apply Rsum_some in H as ([w m] & Hm & H). cbv beta iota in H.
  unfold move_matrix, matrix in H. destruct (cstate_eq_dec x y) as [E|E]; auto. right.
  assert (w <> 0 /\ kernel cstate_eq_dec 1 ll prior (move_props e m) x y <> 0) as [Hw Hk].
  { split; intros Z; apply H; rewrite Z; ring. }
  unfold kernel in Hk. apply Rsum_some in Hk as ([out p] & Hin & Hk). cbv beta iota in Hk. unfold move_props in Hin.
  apply in_map_iff in Hin as ([out' p'] & [= <- <-] & Hin). destruct out' as [|y' q qb|]; cbn [proposes] in Hk; try (elim Hk; ring).
  destruct (cstate_eq_dec y' y) as [->|]; [|elim Hk; ring]. exists w, m, q, qb. conj; auto. exists p'. split; auto.
  intros Z. apply Hk. apply Qeq_eqR in Z. rewrite Z, RMicromega.Q2R_0. ring.
Qed.
(** Invariants of the moves are invariants of the chain. *)
Lemma nstep_invariant e moves ll prior states (I : cstate -> Prop) :
  (forall x y w m q qb, In x states -> In y states -> I x -> In (w, m) moves -> w <> 0 -> supp (run_move e m x) (Propose y q qb) -> I y) ->
  forall n x y, In x states -> In y states -> I x -> nstep cstate_eq_dec (sampler_matrix e moves ll prior states) states n x y <> 0 -> I y.
Proof.
  intros Step. induction n as [|n IH]; intros x y Hx Hy Ix H; simpl in H.
  - destruct (cstate_eq_dec x y) as [->|]; auto. elim H; auto.
  - apply Rsum_some in H as (z & Hz & H). apply IH with z; auto; [|intros E; apply H; rewrite E; ring].
    assert (Hm : sampler_matrix e moves ll prior states x z <> 0) by (intros E; apply H; rewrite E; ring).
    apply matrix_supp in Hm as [<-|(w & m & q & qb & Hm & Hw & S)]; auto. apply (Step x z w m q qb); auto.
Qed.
Lemma source_same e x y q qb : supp (gibbs_source e x) (Propose y q qb) -> x_clusters y = x_clusters x.
Proof.
  intros H. unfold gibbs_source in H. destruct (x_source x); [|apply supp_ret in H; discriminate]. cbv zeta in H.
  apply supp_bind in H as (rows & _ & H). apply supp_ret in H. injection H as -> _ _. reflexivity.
Qed.

Open Scope nat_scope.
(** All objects in clusters of the minimal size. *)
Lemma full_clusters k mn mx n cl : cluster_shape k n cl -> disjoint_groups cl -> sizes_in mn mx cl -> k * mn = n ->
  (forall a, a < n -> any_group cl a = true) /\ (forall i, i < k -> size (nth i cl []) = mn).
Proof.
  intros Hc Hd Hs Hn. destruct (clusters_labels Hc Hd Hs) as (u & (L & R & C) & ->).
  pose proof (cnt_sum R) as S. assert (Sm : k * mn <= list_sum (map (fun i => cnt (Some i) u) (seq 0 k))).
  { assert (G : forall m s, (forall i, s <= i < s + m -> mn <= cnt (Some i) u) -> m * mn <= list_sum (map (fun i => cnt (Some i) u) (seq s m))).
    { induction m as [|m IH]; intros s H; simpl; auto. pose proof (H s ltac:(lia)). assert (m * mn <= list_sum (map (fun i => cnt (Some i) u) (seq (Datatypes.S s) m))) by (apply IH; intros; apply H; lia). lia. }
    apply G. intros i Hi. apply C. lia. }
  assert (N : cnt None u = 0) by lia. split.
  - intros a Ha. rewrite any_mat by auto. destruct (nth_error u a) as [[i|]|] eqn:E; auto.
    + exfalso. pose proof (cnt_gain (l := Some 0) E ltac:(discriminate)) as _. pose proof (@cnt_lose u a (Some 0) None E ltac:(discriminate)). lia.
    + apply nth_error_None in E. lia.
  - intros i Hi. rewrite nth_mat_lt by auto. rewrite size_lrow. destruct (Nat.eq_dec (cnt (Some i) u) mn) as [|Hne]; auto. exfalso.
    assert (G : forall m s, (forall j, s <= j < s + m -> mn <= cnt (Some j) u) -> s <= i < s + m -> mn < cnt (Some i) u -> m * mn < list_sum (map (fun i => cnt (Some i) u) (seq s m))).
    { induction m as [|m IH]; intros s H Hi' Hlt; [lia|]. simpl. pose proof (H s ltac:(lia)). destruct (Nat.eq_dec s i) as [->|Hsi].
      - assert (G : forall m s, (forall j, s <= j < s + m -> mn <= cnt (Some j) u) -> m * mn <= list_sum (map (fun i => cnt (Some i) u) (seq s m))).
        { clear. induction m as [|m IH]; intros s H; simpl; auto. pose proof (H s ltac:(lia)). assert (m * mn <= list_sum (map (fun i => cnt (Some i) u) (seq (Datatypes.S s) m))) by (apply IH; intros; apply H; lia). lia. }
        assert (m * mn <= list_sum (map (fun i => cnt (Some i) u) (seq (Datatypes.S i) m))) by (apply G; intros; apply H; lia). lia.
      - assert (m * mn < list_sum (map (fun i => cnt (Some i) u) (seq (Datatypes.S s) m))) by (apply IH; auto; [intros; apply H|]; lia). lia. }
    assert (k * mn < list_sum (map (fun i => cnt (Some i) u) (seq 0 k))); [|lia]. apply G; try lia.
    + intros j Hj. apply C. lia.
    + specialize (C i Hi). lia.
Qed.
Lemma subset_full : forall r c : list bool, length r = length c -> (forall o, nth o r false = true -> nth o c false = true) -> size c <= size r -> r = c.
Proof.
  unfold size. assert (Le : forall r c : list bool, length r = length c -> (forall o, nth o r false = true -> nth o c false = true) ->
    length (filter (fun b => b) r) <= length (filter (fun b => b) c)).
  { induction r as [|b r IH]; intros [|d c] L H; try discriminate; simpl; auto.
    assert (I : length (filter (fun b => b) r) <= length (filter (fun b => b) c)) by (apply IH; auto; intros o; apply (H (Datatypes.S o))).
    pose proof (H 0) as H0. simpl in H0. destruct b, d; simpl; try lia; specialize (H0 eq_refl); discriminate. }
  induction r as [|b r IH]; intros [|d c] L H Hs; try discriminate; auto.
  assert (Ht : forall o, nth o r false = true -> nth o c false = true) by (intros o; apply (H (Datatypes.S o))).
  pose proof (Le r c ltac:(auto) Ht) as I. pose proof (H 0) as H0. simpl in H0, Hs.
  destruct b, d; simpl in Hs; try lia; try (specialize (H0 eq_refl); discriminate); f_equal; apply IH; auto; lia.
Qed.
Lemma upd_nth_id (cl : bmat) i : upd i (fun _ => nth i cl []) cl = cl.
Proof. apply upd_id. intros r Hr. rewrite (nth_error_nth _ _ [] Hr). reflexivity. Qed.
Lemma full_stuck e k o x y q qb : good e k x -> k * e_min e = n_objects e -> supp (run_op e o x) (Propose y q qb) -> x_clusters y = x_clusters x.
Proof.
  intros (Hc & Hd & Hs & _) Hk H. destruct (full_clusters Hc Hd Hs Hk) as [Full Min]. destruct Hc as [Hl Hn].
  destruct o; simpl in H.
  - exfalso. apply supp_alter in H as [H|H].
    + apply supp_shrink in H as (z & a & Hz & _ & Hm & _). rewrite Min in Hm; lia.
    + apply supp_grow in H as (z & a & _ & Ha & Hf & _). rewrite Full in Hf by auto. discriminate.
  - exfalso. apply supp_gibbsish in H as [H|H].
    + apply supp_gibbsish_shrink in H as (z & a & Hz & _ & Hm & _). rewrite Min in Hm by lia. congruence.
    + apply supp_gibbsish_grow in H as (z & a & _ & Ha & Hf & _). rewrite Full in Hf by auto. discriminate.
  - apply (@supp_gibbsish2 e x y q qb k) in H as (z & r & Hz & Lr & Sz & Sub & ->); [|split; auto].
    rewrite <- (upd_nth_id (x_clusters x) z) at 2. f_equal. 
    assert (E : r = nth z (x_clusters x) []); [|rewrite E; reflexivity]. apply subset_full.
    + rewrite Forall_forall in Hn. rewrite Lr. symmetry. apply Hn, nth_In. auto.
    + intros a Ha. destruct (Sub a Ha) as [Hf|]; auto. rewrite Full in Hf; [discriminate|]. rewrite <- Lr. apply nth_error_Some.
      destruct (nth_error r a) eqn:E; [discriminate|]. apply nth_error_None in E. rewrite nth_overflow in Ha by auto. discriminate.
    + rewrite Min by lia. lia.
Qed.
Lemma one_size_stuck e k o x y q qb : good e k x -> e_min e = e_max e -> o <> OpGibbsish2 -> ~ supp (run_op e o x) (Propose y q qb).
Proof.
  intros ((Hl & Hn) & Hd & Hs & _) Hk Ho H.
  assert (Sz : forall i, i < length (x_clusters x) -> size (nth i (x_clusters x) []) = e_min e).
  { intros i Hi. unfold sizes_in in Hs. rewrite Forall_forall in Hs. specialize (Hs _ (nth_In (x_clusters x) [] Hi)). rewrite size_count. lia. }
  destruct o; simpl in H; [| |congruence].
  - apply supp_alter in H as [H|H].
    + apply supp_shrink in H as (z & a & Hz & _ & Hm & _). rewrite Sz in Hm; lia.
    + apply supp_grow in H as (z & a & Hz & _ & _ & Hm & _). rewrite Sz in Hm; lia.
  - apply supp_gibbsish in H as [H|H].
    + apply supp_gibbsish_shrink in H as (z & a & Hz & _ & Hm & _). rewrite Sz in Hm by auto. congruence.
    + apply supp_gibbsish_grow in H as (z & a & Hz & _ & _ & Hm & _). rewrite Sz in Hm by auto. congruence.
Qed.
(** Growing only to neighbours. *)
Lemma grow_connected e x y q qb : (e_pconn e == 1)%Q -> supp (grow e x) (Propose y q qb) ->
  exists z a b, z < length (x_clusters x) /\ x_clusters y = add_object (x_clusters x) z a /\
    nth b (nth a (e_adj e) []) false = true /\ nth b (nth z (x_clusters x) []) false = true.
Proof.
  intros Hp H. apply supp_choose in H as [[H _]|(z & Hz & H)]; [discriminate|]. apply in_ids in Hz. unfold grow_at in H. cbv zeta in H.
  destruct (_ <=? _); [apply supp_ret in H; discriminate|]. apply supp_bind in H as (c & Hcf & H).
  assert (c = true) as ->.
  { destruct c; auto. exfalso. destruct Hcf as (p & [E|[E|[]]] & Hp'); [discriminate|]. injection E as <-. apply Hp'. rewrite Hp. reflexivity. }
  destruct (negb _); [apply supp_ret in H; discriminate|]. apply supp_choose in H as [[H _]|(a & Ha & H)]; [discriminate|].
  apply supp_finish in H. apply in_nonzero in Ha. unfold get_neighbours in Ha. rewrite nth_error_map2 in Ha.
  destruct (nth_error (e_adj e) a) as [row|] eqn:Er; [|discriminate]. destruct (nth_error (any_cluster _ _) a) as [occ|]; [|discriminate].
  injection Ha as Ha. apply andb_prop in Ha as [Ha _]. apply existsb_exists in Ha as (v & Hv & ->). apply In_nth_error in Hv as (b & Hb).
  rewrite nth_error_map2 in Hb. destruct (nth_error row b) as [v1|] eqn:E1; [|discriminate]. destruct (nth_error (nth z (x_clusters x) []) b) as [v2|] eqn:E2; [|discriminate].
  injection Hb as Hb. apply andb_prop in Hb as [-> ->]. exists z, a, b. conj; auto.
  - rewrite (nth_error_nth _ _ [] Er). apply nth_error_nth. auto.
  - apply nth_error_nth. auto.
Qed.
Lemma confined_step e (A : nat -> bool) i x y q qb : (e_pconn e == 1)%Q ->
  (forall a b, nth b (nth a (e_adj e) []) false = true -> A b = true -> A a = true) ->
  (forall o, nth o (nth i (x_clusters x) []) false = true -> A o = true) ->
  supp (run_op e OpAlter x) (Propose y q qb) -> forall o, nth o (nth i (x_clusters y) []) false = true -> A o = true.
Proof.
  intros Hp Hcl Hx H o Ho. simpl in H. apply supp_alter in H as [H|H].
  - apply supp_shrink in H as (z & a & Hz & _ & _ & E). rewrite E in Ho. unfold remove_object in Ho. apply Hx.
    destruct (Nat.eq_dec z i) as [->|Hzi].
    + rewrite L_operators.nth_upd_same in Ho by auto. destruct (Nat.eq_dec a o) as [->|Hao]; [|rewrite L_operators.nth_upd_other in Ho; auto].
      destruct (Nat.lt_ge_cases o (length (nth i (x_clusters x) []))) as [Hlt|Hge].
      * rewrite L_operators.nth_upd_same in Ho by auto. discriminate.
      * rewrite nth_overflow in Ho by (rewrite upd_length; auto). discriminate.
    + rewrite L_operators.nth_upd_other in Ho; auto.
  - apply (grow_connected Hp) in H as (z & a & b & Hz & E & Hadj & Hb). rewrite E in Ho. unfold add_object in Ho.
    destruct (Nat.eq_dec z i) as [->|Hzi].
    + rewrite L_operators.nth_upd_same in Ho by auto. destruct (Nat.eq_dec a o) as [->|Hao]; [|rewrite L_operators.nth_upd_other in Ho; auto].
      apply Hcl with b; auto.
    + rewrite L_operators.nth_upd_other in Ho; auto.
Qed.
