(** Lemmas for C81. *)
From Coq Require Import QArith Qround Lqa.
From Verif Require Import Base M_util S_cache M_text M_loggers S_loggers L_loggers M_plot S_plot L_plot S_charts.
Set Implicit Arguments.
Unset Strict Implicit.
Close Scope Q_scope.
Open Scope nat_scope.

Lemma number_skip A (l : list A) (P : nat -> bool) (R : A -> bool) : forall b, (forall t x, nth_error l t = Some x -> P t = R x) ->
  number P (seq b (length l - b)) = number R (skipn b l).
Proof.
  assert (Base : forall (l : list A) k, (forall t x, nth_error l t = Some x -> P (k + t) = R x) -> number P (seq k (length l)) = number R l).
  { clear. induction l as [|x r IH]; intros k H; auto. cbn [length seq number]. rewrite <- (H 0 x eq_refl), Nat.add_0_r. f_equal. apply IH.
    intros t y Hy. rewrite <- (H (S t) y Hy). f_equal. lia. }
  intros b H. rewrite <- skipn_length. apply Base. intros t x Hx. apply H. rewrite <- Hx. clear. revert l. induction b as [|b IH]; intros [|y l]; simpl; auto.
  destruct t; auto.
Qed.
Lemma number_sum A (P : A -> bool) d l : number P l = list_sum (map (fun t => if P (nth t l d) then 1 else 0) (seq 0 (length l))).
Proof.
  induction l as [|x r IH]; auto. cbn [length seq]. rewrite sum_cons. cbn [number nth]. f_equal. rewrite IH, <- seq_shift, map_map. reflexivity.
Qed.
Lemma sum_plus A (f g : A -> nat) l : list_sum (map (fun x => f x + g x) l) = list_sum (map f l) + list_sum (map g l).
Proof. induction l as [|x r IH]; auto. rewrite !sum_cons, IH. lia. Qed.
Lemma sum_zero A (l : list A) : list_sum (map (fun _ => 0) l) = 0.
Proof. induction l as [|x r IH]; auto. Qed.
Lemma sum_numbers (P : list bool -> bool) n clusters : same_samples n clusters ->
  list_sum (map (number P) clusters) = list_sum (map (fun t => list_sum (map (fun c => if P (nth t c []) then 1 else 0) clusters)) (seq 0 n)).
Proof.
  intros H. induction H as [|c r Hc _ IH]; [rewrite sum_zero; auto|].
  rewrite sum_cons, IH, (number_sum P []), Hc, <- sum_plus. reflexivity.
Qed.
Lemma number_as_sum A (P : A -> bool) l : number P l = list_sum (map (fun x => if P x then 1 else 0) l).
Proof. induction l as [|x r IH]; auto. rewrite sum_cons, <- IH. reflexivity. Qed.

(** Samples with relabelled clusters: clusters x samples. *)
Section Relabelled.
Variables (K : nat) (samples : list bmat) (ps : list (list nat)) (res : list (list (list bool))).
Hypothesis perms : Forall (is_perm K) ps.
Hypothesis lps : length ps = length samples.
Hypothesis shape : Forall (fun cl => length cl = K) samples.
Hypothesis lres : length res = K.
Hypothesis entries : forall i, i < K -> length (nth i res []) = length samples /\
  forall t p x, nth_error ps t = Some p -> nth_error samples t = Some x -> nth_error (nth i res []) t = Some (nth (nth i p 0) x []).

Lemma relabelled_same : same_samples (length samples) res.
Proof.
  unfold same_samples. apply Forall_forall. intros c Hc. apply (In_nth _ _ []) in Hc as (i & Hi & <-). apply entries. lia.
Qed.
Lemma relabelled_at t x : nth_error samples t = Some x -> exists p, is_perm K p /\ map (fun c => nth t c []) res = reorder [] p x.
Proof.
  intros Hx. destruct (nth_error ps t) as [p|] eqn:Ep.
  2:{ apply nth_error_None in Ep. assert (t < length samples) by (apply nth_error_Some; congruence). lia. }
  exists p. assert (Hp : is_perm K p) by (rewrite Forall_forall in perms; apply perms; eapply nth_error_In; eauto). split; auto.
  assert (Lp : length p = K) by (unfold is_perm in Hp; rewrite (Permutation_length Hp), seq_length; auto).
  apply (nth_ext _ _ [] []); [unfold reorder; rewrite !map_length; lia|]. intros i Hi. rewrite map_length in Hi.
  unfold reorder. rewrite (nth_indep _ [] (nth t [] [])) by (rewrite map_length; auto). rewrite (map_nth (fun c => nth t c [])).
  rewrite (nth_indep (map _ p) [] (nth 0 x [])) by (rewrite map_length; lia). rewrite (map_nth (fun i => nth i x [])).
  destruct (entries (i := i)) as [_ E]; [lia|]. specialize (E t p x Ep Hx). apply nth_error_nth with (d := []) in E. exact E.
Qed.
Lemma relabelled_perm t x : nth_error samples t = Some x -> Permutation (map (fun c => nth t c []) res) x.
Proof.
  intros Hx. destruct (relabelled_at Hx) as (p & Hp & ->). unfold reorder. unfold is_perm in Hp.
  assert (Lx : length x = K) by (rewrite Forall_forall in shape; apply shape; eapply nth_error_In; eauto).
  rewrite (Permutation_map (fun i => nth i x []) Hp). rewrite <- Lx. clear. induction x as [|r x IH] using rev_ind; auto.
  rewrite app_length, Nat.add_1_r, seq_S, map_app. cbn [map Nat.add]. rewrite app_nth2, Nat.sub_diag by lia. apply Permutation_app_tail.
  rewrite <- IH at 2. apply Permutation_refl'. apply map_ext_in. intros i Hi. apply in_seq in Hi. rewrite app_nth1 by lia. reflexivity.
Qed.
Lemma relabelled_exclusive : Forall disjoint_groups samples -> exclusive res.
Proof.
  intros D c c' t o A B. unfold is_in, has in A, B.
  assert (Hc : forall c, nth o (nth t (nth c res []) []) false = true -> c < K /\ t < length samples).
  { intros c0 H. destruct (Nat.lt_ge_cases c0 K) as [L|L]; [|rewrite (nth_overflow res) in H by lia; destruct t, o; discriminate].
    split; auto. destruct (entries L) as [El _]. destruct (Nat.lt_ge_cases t (length samples)) as [|G]; auto.
    rewrite (nth_overflow (nth c0 res [])) in H by lia. destruct o; discriminate. }
  destruct (Hc c A) as [Lc Lt]. destruct (Hc c' B) as [Lc' _].
  destruct (nth_error samples t) as [x|] eqn:Ex; [|apply nth_error_None in Ex; lia].
  destruct (nth_error ps t) as [p|] eqn:Ep; [|apply nth_error_None in Ep; lia].
  assert (Hp : is_perm K p) by (rewrite Forall_forall in perms; apply perms; eapply nth_error_In; eauto).
  destruct (entries Lc) as [_ E]. specialize (E t p x Ep Ex). apply nth_error_nth with (d := []) in E. rewrite E in A.
  destruct (entries Lc') as [_ E']. specialize (E' t p x Ep Ex). apply nth_error_nth with (d := []) in E'. rewrite E' in B.
  assert (Dx : disjoint_groups x) by (rewrite Forall_forall in D; apply D; eapply nth_error_In; eauto).
  specialize (Dx _ _ _ A B). unfold is_perm in Hp. apply (NoDup_nth p 0); auto; try (rewrite (Permutation_length Hp), seq_length; auto).
  apply (Permutation_NoDup (Permutation_sym Hp)). apply seq_NoDup.
Qed.
Lemma existsb_perm A (f : A -> bool) l l' : Permutation l l' -> existsb f l = existsb f l'.
Proof.
  induction 1 as [|x l l' _ IH|x y l|l1 l2 l3 _ IH1 _ IH2]; auto; cbn [existsb]; [rewrite IH; auto| |congruence].
  destruct (f x), (f y); auto.
Qed.
Lemma existsb_map A B (f : B -> bool) (g : A -> B) l : existsb f (map g l) = existsb (fun x => f (g x)) l.
Proof. induction l as [|x r IH]; auto. cbn [map existsb]. rewrite IH. auto. Qed.
Lemma forallb_negb A (f : A -> bool) l : forallb (fun x => negb (f x)) l = negb (existsb f l).
Proof. induction l as [|x r IH]; auto. cbn [forallb existsb]. rewrite IH, negb_orb. auto. Qed.
Lemma relabelled_free o t x : nth_error samples t = Some x -> in_none o res t = free o x.
Proof.
  intros Hx. unfold in_none, free, has. rewrite (forallb_negb (fun c => nth o (nth t c []) false)). f_equal.
  rewrite <- (existsb_perm (fun c => nth o c false) (relabelled_perm Hx)), existsb_map. reflexivity.
Qed.
Lemma relabelled_together p q t x : Forall disjoint_groups samples -> nth_error samples t = Some x ->
  list_sum (map (fun c => if has_both p q (nth t c []) then 1 else 0) res) = if together p q x then 1 else 0.
Proof.
  intros D Hx. unfold together. rewrite <- (existsb_perm (fun c => nth p c false && nth q c false) (relabelled_perm Hx)), existsb_map.
  pose proof (@one_or_none (fun c => has_both p q (nth t c [])) res) as O.
  assert (Z : list_sum (map (fun c => if has_both p q (nth t c []) then 1 else 0) res) + (if forallb (fun c => negb (has_both p q (nth t c []))) res then 1 else 0) = 1).
  { apply O. intros c c' _ _ A B. unfold has_both in A, B. apply andb_true_iff in A as [A _]. apply andb_true_iff in B as [B _].
    apply (relabelled_exclusive D (c := c) (c' := c') (t := t) (o := p)); auto. }
  rewrite (forallb_negb (fun c => has_both p q (nth t c []))) in Z. unfold has_both, has in *. destruct (existsb _ res); cbn [negb] in Z; lia.
Qed.
End Relabelled.
Lemma labelled_perms K n : forall logged cls ps, labelled K n logged cls ps -> Forall (is_perm K) ps.
Proof. intros logged cls ps H. induction H as [|logged cl cls p ps [Hp _] _ IH]; constructor; auto. Qed.

Lemma inj_le_Q a b : a <= b -> (inject_Z (Z.of_nat a) <= inject_Z (Z.of_nat b))%Q.
Proof. intros H. rewrite <- Zle_Qle. lia. Qed.
Lemma burn_in_room mb pb N : (0 <= mb)%Q -> (mb < 1)%Q -> (0 <= pb)%Q -> (pb < 1)%Q ->
  exists N', forall n i j, N' <= n -> rounded_down mb n i -> rounded_up pb (n - i) j -> N + (i + j) <= n.
Proof.
  intros Hm0 Hm Hp0 Hp. set (d := ((1 - pb) * (1 - mb))%Q). assert (Hd : (0 < d)%Q) by (unfold d; apply Qmult_lt_0_compat; lra).
  set (a := inject_Z (Z.of_nat N)). exists (Z.to_nat (Qceiling ((a + 1) / d))). intros n i j Hn [R1 _] [_ R2].
  set (qn := inject_Z (Z.of_nat n)) in *. set (qi := inject_Z (Z.of_nat i)) in *. set (qj := inject_Z (Z.of_nat j)) in *.
  assert (P0 : (0 <= qn)%Q) by (unfold qn; apply (inj_le_Q (a := 0)); lia).
  assert (Hin : i <= n).
  { assert (qi <= qn)%Q by nra. unfold qi, qn in H. rewrite <- Zle_Qle in H. lia. }
  assert (Em : (inject_Z (Z.of_nat (n - i)) == qn - qi)%Q).
  { unfold qn, qi. rewrite Nat2Z.inj_sub by auto. unfold Zminus. rewrite inject_Z_plus, inject_Z_opp. reflexivity. }
  rewrite Em in R2.
  assert (Big : (a + 1 <= d * qn)%Q).
  { assert (C : ((a + 1) / d <= qn)%Q).
    { eapply Qle_trans; [apply Qle_ceiling|]. unfold qn. rewrite <- Zle_Qle. lia. }
    apply (Qmult_le_l _ _ d Hd) in C. assert (Ed : (d * ((a + 1) / d) == a + 1)%Q) by (field; lra). rewrite Ed in C. exact C. }
  assert (K1 : ((1 - mb) * qn <= qn - qi)%Q) by lra.
  assert (K2 : (d * qn <= (1 - pb) * (qn - qi))%Q).
  { unfold d. rewrite <- Qmult_assoc. apply Qmult_le_l; [lra|exact K1]. }
  assert (F : (a + qi + qj < qn + 0)%Q) by lra.
  assert (F2 : (inject_Z (Z.of_nat N + Z.of_nat i + Z.of_nat j) < inject_Z (Z.of_nat n))%Q).
  { rewrite !inject_Z_plus. unfold a, qi, qj, qn in F. lra. }
  rewrite <- Zlt_Qlt in F2. lia.
Qed.
