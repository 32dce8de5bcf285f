(** Lemmas for C35. *)
From Verif Require Import M_size S_size L_operators.
From Coq Require Import Lra Permutation.
Set Implicit Arguments.
Unset Strict Implicit.
Open Scope nat_scope.

(** * Enumeration of clusterings object by object *)
Definition hit (d : option nat) (i : nat) : bool := match d with Some j => i =? j | None => false end.
Definition addcol (d : option nat) (cl : bmat) : bmat := mapi (fun i r => hit d i :: r) cl.
Fixpoint gen (n : nat) (ks : list nat) : list bmat :=
  match n with
  | 0 => if forallb (Nat.eqb 0) ks then [repeat [] (length ks)] else []
  | S n => map (addcol None) (gen n ks) ++
      flat_map (fun i => if nth i ks 0 =? 0 then [] else map (addcol (Some i)) (gen n (upd i pred ks))) (seq 0 (length ks))
  end.

Definition tr (c : list bool) := count_occ Bool.bool_dec c true.
Lemma addcol_length d cl : length (addcol d cl) = length cl.
Proof. apply mapi_length. Qed.
Lemma nth_addcol d cl i : i < length cl -> nth i (addcol d cl) [] = hit d i :: nth i cl [].
Proof.
  intros H. unfold addcol, bmat in *. apply nth_error_nth. rewrite nth_error_mapi.
  rewrite (nth_error_nth' cl [] H). reflexivity.
Qed.
Lemma nth_addcol_out d cl i : length cl <= i -> nth i (addcol d cl) [] = [].
Proof. intros H. apply nth_overflow. rewrite addcol_length. auto. Qed.
Lemma map_tl_addcol d cl : map (@tl bool) (addcol d cl) = cl.
Proof.
  apply nth_error_ext. intros i. rewrite nth_error_map. unfold addcol. rewrite nth_error_mapi. destruct (nth_error cl i); reflexivity.
Qed.
Lemma hit_inj n d d' : (forall i, i < n -> hit d i = hit d' i) -> (forall i, d = Some i -> i < n) -> (forall i, d' = Some i -> i < n) -> d = d'.
Proof.
  intros H H1 H2. destruct d as [a|], d' as [b|]; simpl in *; auto.
  - specialize (H a (H1 a eq_refl)). rewrite Nat.eqb_refl in H. symmetry in H. apply Nat.eqb_eq in H. congruence.
  - specialize (H a (H1 a eq_refl)). rewrite Nat.eqb_refl in H. discriminate.
  - specialize (H b (H2 b eq_refl)). rewrite Nat.eqb_refl in H. discriminate.
Qed.
Lemma addcol_inj d d' cl cl' : addcol d cl = addcol d' cl' -> (forall i, d = Some i -> i < length cl) ->
  (forall i, d' = Some i -> i < length cl') -> d = d' /\ cl = cl'.
Proof.
  intros H H1 H2. assert (E : cl = cl') by (rewrite <- (map_tl_addcol d cl), H; apply map_tl_addcol). split; auto. subst cl'.
  apply (@hit_inj (length cl)); auto. intros i Hi.
  assert (A : nth i (addcol d cl) [] = nth i (addcol d' cl) []) by (rewrite H; auto). rewrite !nth_addcol in A by auto. congruence.
Qed.

Lemma all_false_hit l : (forall i, nth i l false = false) -> map2 (fun (b : bool) (r : list bool) => r) l (map (fun _ => []) l) = map (fun _ => []) l.
Proof. induction l; simpl; intros; auto. f_equal. apply IHl. intros i; exact (H (S i)). Qed.

Lemma nth_map_tr (cl : bmat) i : nth i (map tr cl) 0 = tr (nth i cl []).
Proof. change 0 with (tr []). rewrite map_nth. reflexivity. Qed.
Lemma tr_hit d i r : tr (hit d i :: r) = (if hit d i then 1 else 0) + tr r.
Proof. unfold tr. simpl. destruct (hit d i); simpl; auto. Qed.

Lemma map_tr_none cl : map tr (addcol None cl) = map tr cl.
Proof.
  apply nth_error_ext. intros i. rewrite !nth_error_map. unfold addcol. rewrite nth_error_mapi. destruct (nth_error cl i); simpl; auto.
Qed.
Lemma map_tr_some j cl : map tr (addcol (Some j) cl) = upd j S (map tr cl).
Proof.
  apply nth_error_ext. intros i. rewrite nth_error_upd, !nth_error_map. unfold addcol. rewrite nth_error_mapi.
  rewrite (Nat.eqb_sym j i). destruct (nth_error cl i) as [r|]; [|destruct (i =? j); auto]. cbn [option_map hit]. destruct (i =? j); simpl; f_equal.
Qed.
Lemma upd_pred_S j ks : upd j pred (upd j S ks) = ks.
Proof. revert j. induction ks as [|k ks IH]; intros [|j]; simpl; auto. f_equal. auto. Qed.
Lemma upd_S_pred j ks : nth j ks 0 <> 0 -> upd j S (upd j pred ks) = ks.
Proof. revert j. induction ks as [|k ks IH]; intros [|j] H; simpl in *; auto; f_equal; auto; lia. Qed.
Lemma nth_upd_S j ks : j < length ks -> nth j (upd j S ks) 0 <> 0.
Proof. revert j. induction ks as [|k ks IH]; intros [|j] H; simpl in *; try lia. apply IH. lia. Qed.

Lemma shape_addcol k n d cl : cluster_shape k (S n) (addcol d cl) <-> cluster_shape k n cl.
Proof.
  unfold cluster_shape. rewrite addcol_length. split; intros [H1 H2]; split; auto; apply Forall_forall; intros c Hc.
  - apply In_nth with (d := []) in Hc as (i & Hi & <-). rewrite Forall_forall in H2.
    assert (I : In (nth i (addcol d cl) []) (addcol d cl)) by (apply nth_In; rewrite addcol_length; auto).
    apply H2 in I. rewrite nth_addcol in I by auto. simpl in I. lia.
  - apply In_nth with (d := []) in Hc as (i & Hi & <-). rewrite addcol_length in Hi. rewrite nth_addcol by auto. simpl. f_equal.
    rewrite Forall_forall in H2. apply H2. apply nth_In; auto.
Qed.
Lemma disjoint_addcol d cl : disjoint_groups (addcol d cl) <-> disjoint_groups cl.
Proof.
  unfold disjoint_groups. split; intros H o i j Hi Hj.
  - assert (A : forall i, nth o (nth i cl []) false = true -> i < length cl).
    { intros i' H'. destruct (Nat.lt_ge_cases i' (length cl)); auto. rewrite (nth_overflow cl) in H' by auto. destruct o; discriminate. }
    apply (H (S o)); rewrite nth_addcol; auto.
  - assert (A : forall i, nth o (nth i (addcol d cl) []) false = true -> i < length cl).
    { intros i' H'. destruct (Nat.lt_ge_cases i' (length cl)); auto. rewrite nth_addcol_out in H' by auto. destruct o; discriminate. }
    pose proof (A i Hi). pose proof (A j Hj). rewrite nth_addcol in Hi, Hj by auto. destruct o as [|o]; simpl in Hi, Hj.
    + destruct d; simpl in *; try discriminate. apply Nat.eqb_eq in Hi, Hj. congruence.
    + apply (H o); auto.
Qed.

Lemma split_col n cl : Forall (fun c => length c = S n) cl -> disjoint_groups cl ->
  exists d cl', cl = addcol d cl' /\ forall i, d = Some i -> i < length cl'.
Proof.
  intros Hs Hd. exists (group_of cl 0), (map (@tl bool) cl). split.
  - apply nth_error_ext. intros i. unfold addcol. rewrite nth_error_mapi, nth_error_map.
    destruct (nth_error cl i) as [r|] eqn:E; auto. simpl. f_equal. rewrite Forall_forall in Hs.
    specialize (Hs r (nth_error_In _ _ E)). destruct r as [|b r]; [discriminate|]. simpl. f_equal.
    assert (Hb : nth 0 (nth i cl []) false = b) by (rewrite (nth_error_nth _ _ [] E); reflexivity).
    unfold hit. destruct (group_of cl 0) as [j|] eqn:Eg; unfold group_of in Eg.
    + apply find_some in Eg as [Hj1 Hj2]. destruct b.
      * symmetry. apply Nat.eqb_eq. exact (Hd 0 i j Hb Hj2).
      * symmetry. apply Nat.eqb_neq. intros ->. congruence.
    + destruct b; auto. eapply find_none in Eg; [|apply in_seq; split; [lia|]; cbn [Nat.add]; apply nth_error_Some; rewrite E; discriminate].
      congruence.
  - intros i Hi. rewrite map_length. unfold group_of in Hi. apply find_some in Hi as [Hi _]. apply in_seq in Hi. lia.
Qed.

Lemma clustering_succ n ks cl : clustering (S n) ks cl <->
  exists d cl', cl = addcol d cl' /\
    match d with None => clustering n ks cl' | Some i => i < length ks /\ nth i ks 0 <> 0 /\ clustering n (upd i pred ks) cl' end.
Proof.
  unfold clustering. split.
  - intros (Hs & Hd & Hk). destruct (@split_col n cl) as (d & cl' & -> & Hi); [apply Hs|auto|]. exists d, cl'. split; auto.
    pose proof (proj1 (shape_addcol _ _ _ _) Hs) as Hs'. apply disjoint_addcol in Hd. fold tr in Hk.
    destruct d as [i|].
    + rewrite map_tr_some in Hk. specialize (Hi i eq_refl). rewrite upd_length.
      assert (L : length cl' = length ks) by apply Hs'. split; [lia|]. rewrite <- Hk. split.
      * apply nth_upd_S. rewrite map_length; auto.
      * rewrite upd_pred_S. rewrite upd_length, map_length. conj; auto. split; auto. apply Hs'.
    + rewrite map_tr_none in Hk. conj; auto.
  - intros (d & cl' & -> & H). destruct d as [i|].
    + destruct H as (Hi & Hn & Hs & Hd & Hk). rewrite upd_length in Hs. conj.
      * apply shape_addcol; auto.
      * apply disjoint_addcol; auto.
      * fold tr in *. rewrite map_tr_some, Hk. apply upd_S_pred; auto.
    + destruct H as (Hs & Hd & Hk). conj; [apply shape_addcol|apply disjoint_addcol|]; auto. fold tr in *. rewrite map_tr_none; auto.
Qed.

Lemma gen_spec n : forall ks cl, In cl (gen n ks) <-> clustering n ks cl.
Proof.
  induction n as [|n IH]; intros ks cl.
  - cbn [gen]. destruct (forallb (Nat.eqb 0) ks) eqn:E.
    + rewrite forallb_forall in E. split.
      * intros [<-|[]]. unfold clustering. conj.
        -- split; [apply repeat_length|]. apply Forall_forall. intros c Hc. apply repeat_spec in Hc. subst; auto.
        -- intros o i j Hi. rewrite nth_repeat in Hi. destruct o; discriminate.
        -- apply nth_error_ext. intros i. rewrite nth_error_map. destruct (nth_error ks i) as [k|] eqn:Ek.
           ++ rewrite nth_error_repeat by (apply nth_error_Some; congruence). simpl. f_equal. apply Nat.eqb_eq. apply E. eapply nth_error_In; eauto.
           ++ rewrite (proj2 (nth_error_None _ _)); auto. rewrite repeat_length. apply nth_error_None; auto.
      * intros ((Hl & Hs) & _ & _). left. rewrite <- Hl. clear - Hs. induction Hs as [|c cl Hc _ IHc]; simpl; auto.
        apply length_zero_iff_nil in Hc. subst. f_equal. auto.
    + split; [intros []|]. intros ((Hl & Hs) & _ & Hk). exfalso. assert (A : forallb (Nat.eqb 0) ks = true); [|congruence].
      rewrite <- Hk. apply forallb_forall. intros k Hin. apply in_map_iff in Hin as (c & <- & Hc). rewrite Forall_forall in Hs.
      specialize (Hs c Hc). apply length_zero_iff_nil in Hs. subst. reflexivity.
  - rewrite clustering_succ. cbn [gen]. rewrite in_app_iff, in_map_iff, in_flat_map. split.
    + intros [(cl' & <- & H)|(i & Hi & H)].
      * exists None, cl'. split; auto. apply IH; auto.
      * apply in_seq in Hi. destruct (nth i ks 0 =? 0) eqn:E; [contradiction|]. apply Nat.eqb_neq in E.
        apply in_map_iff in H as (cl' & <- & H). exists (Some i), cl'. split; auto. conj; auto; [lia|]. apply IH; auto.
    + intros (d & cl' & -> & H). destruct d as [i|].
      * right. destruct H as (Hi & Hn & H). exists i. split; [apply in_seq; lia|].
        apply Nat.eqb_neq in Hn. rewrite Hn. apply in_map. apply IH; auto.
      * left. exists cl'. split; auto. apply IH; auto.
Qed.

Lemma NoDup_map_inj A B (f : A -> B) l : (forall x y, In x l -> In y l -> f x = f y -> x = y) -> NoDup l -> NoDup (map f l).
Proof.
  intros H Hl. induction Hl as [|x l Hx Hl IH]; simpl; constructor.
  - intros Hin. apply in_map_iff in Hin as (y & E & Hy). apply H in E; [subst; auto|right; auto|left; auto].
  - apply IH. intros; apply H; auto; right; auto.
Qed.
Lemma NoDup_app A (l r : list A) : NoDup l -> NoDup r -> (forall x, In x l -> ~ In x r) -> NoDup (l ++ r).
Proof.
  induction 1 as [|x l Hx Hl IH]; simpl; auto. intros Hr H. constructor.
  - rewrite in_app_iff. intros [I|I]; auto. apply (H x); auto.
  - apply IH; auto.
Qed.
Lemma NoDup_flat_map A B (f : A -> list B) l : NoDup l -> (forall x, In x l -> NoDup (f x)) ->
  (forall x y b, In x l -> In y l -> In b (f x) -> In b (f y) -> x = y) -> NoDup (flat_map f l).
Proof.
  intros Hl. induction Hl as [|x l Hx Hl IH]; simpl; intros H1 H2; [constructor|].
  apply NoDup_app; [apply H1; auto|apply IH; auto; intros; eapply H2; eauto|].
  intros b Hb Hin. apply in_flat_map in Hin as (y & Hy & Hby). assert (x = y) by (eapply H2; eauto). subst. auto.
Qed.
Lemma gen_NoDup n : forall ks, NoDup (gen n ks).
Proof.
  induction n as [|n IH]; intros ks; simpl.
  - destruct (forallb _ _); repeat constructor; auto.
  - assert (L : forall m ks cl, In cl (gen m ks) -> length cl = length ks) by (intros m ks' cl H; apply gen_spec in H as ((H & _) & _); auto).
    apply NoDup_app.
    + apply NoDup_map_inj; auto. intros x y _ _ E. apply addcol_inj in E; [tauto|discriminate|discriminate].
    + apply NoDup_flat_map.
      * apply seq_NoDup.
      * intros i Hi. apply in_seq in Hi. destruct (_ =? 0); [constructor|]. apply NoDup_map_inj; auto.
        intros x y Hx Hy E. apply L in Hx, Hy. rewrite upd_length in Hx, Hy. apply addcol_inj in E; [tauto| |]; intros j [= <-]; lia.
      * intros i j b Hi Hj Hbi Hbj. apply in_seq in Hi, Hj. destruct (nth i ks 0 =? 0), (nth j ks 0 =? 0); try contradiction.
        apply in_map_iff in Hbi as (x & <- & Hx). apply in_map_iff in Hbj as (y & E & Hy). apply L in Hx, Hy. rewrite upd_length in Hx, Hy.
        apply addcol_inj in E as [E _]; [congruence| |]; intros k [= <-]; lia.
    + intros b Hb Hin. apply in_map_iff in Hb as (x & <- & Hx). apply in_flat_map in Hin as (i & Hi & Hin). apply in_seq in Hi.
      destruct (_ =? 0); [contradiction|]. apply in_map_iff in Hin as (y & E & Hy). apply L in Hx, Hy. rewrite upd_length in Hy.
      apply addcol_inj in E as [E _]; [discriminate| |discriminate]. intros k [= <-]; lia.
Qed.

(** * Their number *)
Definition facts (ks : list nat) : nat := fold_right (fun k acc => fact k * acc) 1 ks.
Lemma facts_upd ks i : i < length ks -> nth i ks 0 <> 0 -> facts ks = nth i ks 0 * facts (upd i pred ks).
Proof.
  revert i. induction ks as [|k ks IH]; intros [|i] Hi Hn; simpl length in Hi; try lia; unfold facts in *; cbn [fold_right upd nth] in *.
  - destruct k; [congruence|]. change (fact (S k)) with (S k * fact k). cbn [pred]. lia.
  - rewrite (IH i) by (auto; lia). lia.
Qed.
Lemma sum_upd ks i : i < length ks -> nth i ks 0 <> 0 -> S (list_sum (upd i pred ks)) = list_sum ks.
Proof.
  revert i. induction ks as [|k ks IH]; intros [|i] Hi Hn; simpl in *; try lia.
  rewrite <- (IH i); auto; lia.
Qed.
Lemma sum_nth ks : list_sum (map (fun i => nth i ks 0) (seq 0 (length ks))) = list_sum ks.
Proof.
  induction ks as [|k ks IH]; simpl; auto. f_equal. rewrite <- seq_shift, map_map. exact IH.
Qed.
Lemma flat_map_len A B (f : A -> list B) l : length (flat_map f l) = list_sum (map (fun x => length (f x)) l).
Proof. induction l; simpl; auto. rewrite app_length. auto. Qed.
Lemma sum_scale A (f g : A -> nat) c l : (forall x, In x l -> f x * c = g x) -> list_sum (map f l) * c = list_sum (map g l).
Proof. induction l as [|x l IH]; simpl; intros H; auto. rewrite Nat.mul_add_distr_r, H, IH; auto. Qed.
Lemma sum_zero A (f : A -> nat) l : (forall x, In x l -> f x = 0) -> list_sum (map f l) = 0.
Proof. induction l as [|x l IH]; simpl; intros H; auto. rewrite H, IH; auto. Qed.
Lemma gen_empty n : forall ks, n < list_sum ks -> length (gen n ks) = 0.
Proof.
  induction n as [|n IH]; intros ks H; simpl.
  - destruct (forallb _ ks) eqn:E; auto. exfalso. rewrite forallb_forall in E.
    assert (list_sum ks = 0); [|lia]. clear H. induction ks as [|k ks IHk]; simpl; auto.
    rewrite IHk by (intros; apply E; right; auto). specialize (E k (or_introl eq_refl)). destruct k; [lia|discriminate].
  - rewrite app_length, map_length, IH by lia. rewrite flat_map_len. apply sum_zero. intros i Hi. apply in_seq in Hi.
    destruct (nth i ks 0 =? 0) eqn:E; auto. apply Nat.eqb_neq in E. rewrite map_length. apply IH.
    pose proof (@sum_upd ks i ltac:(lia) E). lia.
Qed.
Lemma gen_count n : forall ks, list_sum ks <= n -> length (gen n ks) * (facts ks * fact (n - list_sum ks)) = fact n.
Proof.
  induction n as [|n IH]; intros ks H.
  - assert (Z : list_sum ks = 0) by lia. assert (E : forallb (Nat.eqb 0) ks = true /\ facts ks = 1).
    { clear H. induction ks as [|k ks IHk]; simpl in *; auto. assert (k = 0) by lia. assert (list_sum ks = 0) by lia. subst.
      destruct (IHk H0) as [I1 I2]. split; [exact I1|]. rewrite I2; reflexivity. }
    destruct E as [E ->]. cbn [gen]. rewrite E, Z. reflexivity.
  - cbn [gen]. rewrite app_length, map_length, Nat.mul_add_distr_r.
    assert (A : length (gen n ks) * (facts ks * fact (S n - list_sum ks)) = (S n - list_sum ks) * fact n).
    { destruct (Nat.eq_dec (list_sum ks) (S n)) as [E|E].
      - rewrite gen_empty by lia. rewrite E, Nat.sub_diag. reflexivity.
      - replace (S n - list_sum ks) with (S (n - list_sum ks)) by lia. rewrite <- (IH ks) by lia.
        change (fact (S (n - list_sum ks))) with (S (n - list_sum ks) * fact (n - list_sum ks)). lia. }
    rewrite A, flat_map_len.
    rewrite (@sum_scale _ _ (fun i => nth i ks 0 * fact n)).
    + assert (B : list_sum (map (fun i => nth i ks 0 * fact n) (seq 0 (length ks))) = list_sum ks * fact n).
      { rewrite <- (sum_nth ks). symmetry. apply sum_scale. auto. }
      rewrite B. rewrite <- Nat.mul_add_distr_r. replace (S n - list_sum ks + list_sum ks) with (S n) by lia. reflexivity.
    + intros i Hi. apply in_seq in Hi. destruct (nth i ks 0 =? 0) eqn:E.
      * apply Nat.eqb_eq in E. rewrite E. reflexivity.
      * apply Nat.eqb_neq in E. rewrite map_length. rewrite (@facts_upd ks i) by (auto; lia).
        pose proof (@sum_upd ks i ltac:(lia) E) as Hs. rewrite <- (IH (upd i pred ks)) by lia.
        replace (S n - list_sum ks) with (n - list_sum (upd i pred ks)) by lia. lia.
Qed.

(** * The logarithm *)
Lemma Rsum_app l r : Rsum (l ++ r) = (Rsum l + Rsum r)%R.
Proof. induction l as [|x l IH]; simpl; [lra|]. unfold Rsum in *. simpl. rewrite IH. lra. Qed.
Lemma fact_pos k : (0 < INR (fact k))%R.
Proof. apply lt_0_INR. apply lt_O_fact. Qed.
Lemma log_sum n : Rsum (map (fun i => ln (INR (1 + i))) (seq 0 n)) = ln (INR (fact n)).
Proof.
  induction n as [|n IH].
  - simpl. symmetry. apply ln_1.
  - rewrite seq_S, map_app, Rsum_app, IH. cbn [map Rsum fold_right Nat.add].
    change (fact (S n)) with (S n * fact n). rewrite mult_INR, ln_mult; [lra| |apply fact_pos]. apply lt_0_INR. lia.
Qed.
Lemma cums_nth n k : 0 < k <= n -> nth (k - 1) (cumsumR (map (fun i => ln (INR (1 + i))) (seq 0 n))) 0%R = ln (INR (fact k)).
Proof.
  intros H. unfold cumsumR. rewrite map_length, seq_length. rewrite nth_indep with (d' := Rsum (firstn (S 0) (map (fun i => ln (INR (1 + i))) (seq 0 n)))) by (rewrite map_length, seq_length; lia).
  rewrite (map_nth (fun i => Rsum (firstn (S i) _))). rewrite seq_nth by lia. cbn [Nat.add].
  replace (S (k - 1)) with k by lia. rewrite <- log_sum. f_equal. rewrite firstn_map. f_equal.
  replace n with (k + (n - k)) by lia. rewrite seq_app, firstn_app, seq_length, Nat.sub_diag, firstn_O, app_nil_r.
  rewrite firstn_all2; auto. rewrite seq_length; auto.
Qed.
Lemma sum_cums n ks : (forall k, In k ks -> 0 < k <= n) ->
  Rsum (map (fun k => nth (k - 1) (cumsumR (map (fun i => ln (INR (1 + i))) (seq 0 n))) 0%R) ks) = ln (INR (facts ks)).
Proof.
  induction ks as [|k ks IH]; intros H.
  - simpl. symmetry; apply ln_1.
  - cbn [map Rsum fold_right facts]. change (fold_right Rplus 0%R (map (fun k0 => nth (k0 - 1) (cumsumR (map (fun i => ln (INR (1 + i))) (seq 0 n))) 0%R) ks))
      with (Rsum (map (fun k0 => nth (k0 - 1) (cumsumR (map (fun i => ln (INR (1 + i))) (seq 0 n))) 0%R) ks)).
    rewrite IH by (intros; apply H; right; auto). rewrite cums_nth by (apply H; left; auto).
    change (fold_right (fun k0 acc => fact k0 * acc) 1 ks) with (facts ks).
    rewrite mult_INR, ln_mult; auto using fact_pos. apply lt_0_INR. clear. induction ks; simpl; auto. 
    pose proof (lt_O_fact a). unfold facts in *. nia.
Qed.
Lemma facts_pos ks : 0 < facts ks.
Proof. induction ks as [|k ks IH]; simpl; auto. pose proof (lt_O_fact k). unfold facts in *. nia. Qed.
Lemma facts_filter ks : facts (filter (fun k => 0 <? k) ks) = facts ks.
Proof. induction ks as [|k ks IH]; simpl; auto. destruct k; simpl; [unfold facts in *; simpl; rewrite IH; lia|]. unfold facts in *. simpl. rewrite IH. auto. Qed.
Lemma sum_filter ks : list_sum (filter (fun k => 0 <? k) ks) = list_sum ks.
Proof. induction ks as [|k ks IH]; simpl; auto. destruct k; simpl; auto. Qed.
Lemma in_le_sum k ks : In k ks -> k <= list_sum ks.
Proof. induction ks as [|x ks IH]; simpl; [intros []|]. intros [->|H]; [lia|]. apply IH in H. lia. Qed.
Lemma sum_zero_facts ks : list_sum ks = 0 -> facts ks = 1.
Proof. induction ks as [|k ks IH]; simpl; auto. intros H. assert (k = 0) by lia. subst. rewrite IH by lia. reflexivity. Qed.

Lemma log_multinom_exp n ks : list_sum ks <= n -> exists m, log_multinom n ks = Some m /\
  exp m = INR (length (gen n ks)).
Proof.
  intros H. pose proof (gen_count H) as C. unfold log_multinom. destruct (list_sum ks =? 0) eqn:E.
  - apply Nat.eqb_eq in E. exists 0%R. split; auto. rewrite exp_0. rewrite (sum_zero_facts E), E, Nat.sub_0_r in C.
    assert (length (gen n ks) = 1) by (pose proof (lt_O_fact n); nia). rewrite H0. reflexivity.
  - cbv zeta. assert (F : forallb (fun k => k <=? n) (filter (fun k => 0 <? k) ks) = true).
    { apply forallb_forall. intros k Hk. apply filter_In in Hk as [Hk _]. apply in_le_sum in Hk. apply Nat.leb_le. lia. }
    rewrite F. eexists. split; [reflexivity|].
    rewrite log_sum, sum_cums, facts_filter.
    2:{ intros k Hk. apply filter_In in Hk as [Hk1 Hk2]. apply Nat.ltb_lt in Hk2. apply in_le_sum in Hk1. lia. }
    rewrite sum_filter.
    assert (Cr : (INR (length (gen n ks)) * (INR (facts ks) * INR (fact (n - list_sum ks))) = INR (fact n))%R) by (rewrite <- !mult_INR; f_equal; auto).
    assert (F1 : (0 < INR (facts ks))%R) by (apply lt_0_INR; apply facts_pos).
    assert (F2 := fact_pos (n - list_sum ks)). assert (F3 := fact_pos n).
    destruct (0 <? Z.of_nat n - Z.of_nat (list_sum ks))%Z eqn:Er.
    + apply Z.ltb_lt in Er. replace (Z.to_nat (Z.of_nat n - Z.of_nat (list_sum ks))) with (n - list_sum ks) by lia.
      rewrite cums_nth by lia. unfold Rminus. rewrite !exp_plus, !exp_Ropp, !exp_ln by auto. rewrite <- Cr. field. lra.
    + apply Z.ltb_ge in Er. replace (n - list_sum ks) with 0 in Cr by lia. simpl in Cr.
      unfold Rminus. rewrite exp_plus, exp_Ropp, !exp_ln by auto. rewrite <- Cr. field. lra.
Qed.

Lemma gen_lists n ks : lists_clusterings n ks (gen n ks).
Proof. split; [apply gen_NoDup|apply gen_spec]. Qed.
Lemma lists_length n ks l : lists_clusterings n ks l -> length l = length (gen n ks).
Proof.
  intros [H1 H2]. apply Permutation_length. apply NoDup_Permutation; auto using gen_NoDup.
  intros x. rewrite H2, gen_spec. tauto.
Qed.

Lemma Permutation_list_sum l r : Permutation l r -> list_sum l = list_sum r.
Proof. induction 1; simpl; lia. Qed.
Lemma Permutation_Rsum l r : Permutation l r -> Rsum l = Rsum r.
Proof. induction 1; unfold Rsum in *; simpl; lra. Qed.
Lemma Permutation_filter A (f : A -> bool) l r : Permutation l r -> Permutation (filter f l) (filter f r).
Proof.
  induction 1; simpl; auto; try (destruct (f x); auto); [destruct (f y); auto; constructor|eauto using perm_trans].
Qed.
Lemma forallb_Permutation A (f : A -> bool) l r : Permutation l r -> forallb f l = forallb f r.
Proof.
  intros P. apply eq_true_iff_eq. rewrite !forallb_forall. split; intros H x Hx; apply H; [apply Permutation_sym in P|]; eapply Permutation_in; eauto.
Qed.
Lemma log_multinom_perm n ks ks' : Permutation ks ks' -> log_multinom n ks = log_multinom n ks'.
Proof.
  intros P. unfold log_multinom. rewrite (Permutation_list_sum P). destruct (_ =? 0); auto. cbv zeta.
  pose proof (Permutation_filter (fun k => 0 <? k) P) as Pf. rewrite (forallb_Permutation _ Pf).
  destruct (forallb _ _); auto. rewrite (Permutation_Rsum (Permutation_map _ Pf)), (Permutation_list_sum Pf). auto.
Qed.
Lemma size_prior_perm t n cl cl' : Permutation cl cl' -> cluster_size_prior t n cl = cluster_size_prior t n cl'.
Proof.
  intros P. pose proof (Permutation_map size P) as Ps. unfold cluster_size_prior. cbv zeta. destruct t.
  - rewrite (log_multinom_perm n Ps). auto.
  - assert (E : existsb (Nat.eqb 0) (map size cl) = existsb (Nat.eqb 0) (map size cl')).
    { apply eq_true_iff_eq. rewrite !existsb_exists. split; intros (x & H & H'); exists x; split; auto; [|apply Permutation_sym in Ps]; eapply Permutation_in; eauto. }
    rewrite E. destruct (existsb (Nat.eqb 0) (map size cl')); auto. rewrite (Permutation_Rsum (Permutation_map _ Ps)). auto.
  - auto.
Qed.
