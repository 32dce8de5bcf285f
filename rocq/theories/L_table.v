(** Lemmas for C83: the cells of the table. *)
From Coq Require Import Permutation Sorted.
From Verif Require Import M_plot2 S_plot2.
Set Implicit Arguments.
Unset Strict Implicit.
Close Scope Q_scope.
Open Scope nat_scope.

Lemma combine_snoc A B (l : list A) (l' : list B) x y : length l = length l' -> combine (l ++ [x]) (l' ++ [y]) = combine l l' ++ [(x, y)].
Proof. revert l'. induction l as [|a l IH]; intros [|b l'] H; simpl in *; try discriminate; auto. rewrite IH by lia. reflexivity. Qed.
Section Rows.
Variables (n_row n_col : nat).
Hypothesis Hn : 0 < n_row.
Notation site := (nat * str * option nat)%type.
Definition entry (sites : list site) (r c : nat) : list cell :=
  match nth_error sites (c * n_row + r) with Some (o, name, k) => [Number (o + 1) k; Name name k] | None => [] end.
Definition cells (sites : list site) (r : nat) : list cell := flat_map (entry sites r) (seq 0 n_col).
Lemma entry_app sites x r c : c * n_row + r <> length sites -> entry (sites ++ [x]) r c = entry sites r c.
Proof.
  intros H. unfold entry. destruct (Nat.lt_ge_cases (c * n_row + r) (length sites)) as [L|L].
  - rewrite nth_error_app1 by auto. reflexivity.
  - rewrite (proj2 (nth_error_None sites _)) by auto. rewrite (proj2 (nth_error_None (sites ++ [x]) _)); auto. rewrite app_length. simpl. lia.
Qed.
Lemma cells_other sites x r : r < n_row -> r <> length sites mod n_row -> cells (sites ++ [x]) r = cells sites r.
Proof.
  intros Hr H. unfold cells. rewrite !flat_map_concat_map. f_equal. apply map_ext. intros c. apply entry_app. intros E. apply H. rewrite <- E.
  rewrite Nat.add_comm, Nat.mod_add by lia. symmetry. apply Nat.mod_small. auto.
Qed.
Lemma cells_none sites r a n : length sites <= a * n_row + r -> flat_map (entry sites r) (seq a n) = [].
Proof.
  revert a. induction n as [|n IH]; intros a H; simpl; auto. unfold entry at 1. rewrite (proj2 (nth_error_None _ _)) by auto.
  rewrite IH by (simpl; lia). reflexivity.
Qed.
Lemma cells_same sites o name k : length sites < n_col * n_row ->
  cells (sites ++ [(o, name, k)]) (length sites mod n_row) = cells sites (length sites mod n_row) ++ [Number (o + 1) k; Name name k].
Proof.
  intros H. set (m := length sites) in *. set (q := m / n_row). set (r := m mod n_row).
  assert (E : m = q * n_row + r) by (unfold q, r; rewrite Nat.mul_comm; apply Nat.div_mod; lia).
  assert (Hq : q < n_col) by (unfold q; apply Nat.div_lt_upper_bound; lia).
  clearbody q r. assert (E0 : length sites = q * n_row + r) by exact E.
  unfold cells. replace n_col with (q + (1 + (n_col - q - 1))) by lia. rewrite seq_app, !flat_map_app. cbn [Nat.add seq flat_map].
  rewrite (@cells_none sites r (S q)) by (simpl; lia).
  rewrite (@cells_none (sites ++ [(o, name, k)]) r (S q)) by (rewrite app_length; simpl; lia).
  assert (E1 : entry (sites ++ [(o, name, k)]) r q = [Number (o + 1) k; Name name k]).
  { unfold entry. rewrite <- E. unfold m. rewrite nth_error_app2, Nat.sub_diag by auto. reflexivity. }
  assert (E2 : entry sites r q = []) by (unfold entry; rewrite <- E; unfold m; rewrite (proj2 (nth_error_None _ _)) by auto; reflexivity).
  rewrite E1, E2. rewrite !app_nil_r. f_equal. rewrite !flat_map_concat_map. f_equal. apply map_ext_in. intros c Hc. apply in_seq in Hc.
  apply entry_app. fold m. rewrite E. nia.
Qed.
Lemma upd_map_seq A (f : A -> A) (g h : nat -> A) : forall n a i, i < n -> (forall r, a <= r < a + n -> r <> a + i -> h r = g r) -> h (a + i) = f (g (a + i)) ->
  upd i f (map g (seq a n)) = map h (seq a n).
Proof.
  induction n as [|n IH]; intros a i Hi H1 H2; [lia|]. cbn [seq map]. destruct i as [|i]; cbn [upd].
  - rewrite Nat.add_0_r in H2. rewrite H2. f_equal. apply map_ext_in. intros r Hr. apply in_seq in Hr. symmetry. apply H1; lia.
  - rewrite (H1 a) by lia. f_equal. apply IH; [lia| |].
    + intros r Hr N. apply H1; lia.
    + replace (S a + i) with (a + S i) by lia. auto.
Qed.
Lemma filled_rows sites : length sites <= n_col * n_row ->
  fold_left (fun t '(i, (o, name, c)) => upd (i mod n_row) (fun r => r ++ [Number (o + 1) c; Name name c]) t) (combine (seq 0 (length sites)) sites) (repeat [] n_row)
  = map (cells sites) (seq 0 n_row).
Proof.
  induction sites as [|((o & name) & k) sites IH] using rev_ind; intros H.
  - cbn [combine fold_left length seq].
    clear. assert (E : forall l, map (cells []) l = repeat [] (length l)).
    { induction l as [|a l IH]; auto. cbn [map length repeat]. rewrite IH. f_equal. unfold cells. induction (seq 0 n_col) as [|x s IHs]; auto. cbn [flat_map].
      rewrite IHs. unfold entry. destruct (x * n_row + a); reflexivity. }
    rewrite E, seq_length. reflexivity.
  - rewrite app_length in *. cbn [length] in *. rewrite Nat.add_1_r, seq_S. cbn [Nat.add].
    assert (Ec : combine (seq 0 (length sites) ++ [length sites]) (sites ++ [(o, name, k)]) = combine (seq 0 (length sites)) sites ++ [(length sites, (o, name, k))]).
    { apply combine_snoc. rewrite seq_length. reflexivity. }
    rewrite Ec, fold_left_app, IH by lia. cbn [fold_left]. apply upd_map_seq.
    + apply Nat.mod_upper_bound. lia.
    + intros r Hr N. apply cells_other; lia.
    + cbn [Nat.add]. apply cells_same. lia.
Qed.
Definition full_entry (sites : list site) (r c : nat) : list cell :=
  match nth_error sites (c * n_row + r) with Some (o, name, k) => [Number (o + 1) k; Name name k] | None => [Empty; Empty] end.
Lemma pad_row sites r : forall n a, flat_map (entry sites r) (seq a n) ++ repeat Empty (n * 2 - length (flat_map (entry sites r) (seq a n))) = flat_map (full_entry sites r) (seq a n).
Proof.
  induction n as [|n IH]; intros a; auto. cbn [seq flat_map]. unfold entry at 1 3, full_entry at 1.
  destruct (nth_error sites (a * n_row + r)) as [((o & name) & k)|] eqn:E.
  - cbn [app length]. rewrite <- IH. replace (S n * 2 - S (S (length (flat_map (entry sites r) (seq (S a) n))))) with (n * 2 - length (flat_map (entry sites r) (seq (S a) n))) by lia. reflexivity.
  - cbn [app]. rewrite <- IH. apply nth_error_None in E. rewrite cells_none by (simpl; lia). cbn [length app]. rewrite !Nat.sub_0_r. reflexivity.
Qed.
End Rows.

Lemma ceil_enough n c : 0 < c -> n <= c * ceil_div n c.
Proof. intros H. unfold ceil_div. pose proof (Nat.div_mod (n + c - 1) c ltac:(lia)). pose proof (Nat.mod_upper_bound (n + c - 1) c ltac:(lia)). lia. Qed.
Lemma ceil_least n c m : 0 < c -> n <= c * m -> ceil_div n c <= m.
Proof. intros H Hm. unfold ceil_div. assert ((n + c - 1) / c < S m); [|lia]. apply Nat.div_lt_upper_bound; lia. Qed.
Lemma ceil_pos n c : 0 < c -> 0 < n -> 0 < ceil_div n c.
Proof. intros H Hn. pose proof (@ceil_enough n c H). destruct (ceil_div n c); lia. Qed.
Lemma correspondence_rows n_col sites : 0 < n_col -> sites <> [] ->
  let n_row := ceil_div (length sites) n_col in
  correspondence n_col sites = Some (map (fun r => flat_map (full_entry n_row sites r) (seq 0 n_col)) (seq 0 n_row)).
Proof.
  intros Hc Hs n_row. assert (Hl : 0 < length sites) by (destruct sites; [congruence|simpl; lia]). assert (Hr : 0 < n_row) by (apply ceil_pos; auto).
  unfold correspondence. fold n_row. rewrite (proj2 (Nat.eqb_neq n_col 0)), (proj2 (Nat.eqb_neq n_row 0)) by lia.
  rewrite (@filled_rows n_row n_col Hr sites) by (apply ceil_enough; auto). f_equal. rewrite map_map. apply map_ext. intros r. apply pad_row. exact Hr.
Qed.

(** * Which objects *)
Lemma existsb_nat o l : existsb (Nat.eqb o) l = true <-> In o l.
Proof. rewrite existsb_exists. split; [intros (x & H & E); apply Nat.eqb_eq in E; subst; auto|intros H; exists o; rewrite Nat.eqb_refl; auto]. Qed.
Definition clusters_with (labels : list (list nat)) (o : nat) : list nat := filter (fun c => existsb (Nat.eqb o) (nth c labels [])) (seq 0 (length labels)).
Lemma clusters_with_in labels o c : In c (clusters_with labels o) <-> In o (nth c labels []).
Proof.
  unfold clusters_with. rewrite filter_In, existsb_nat, in_seq. split; [tauto|]. intros H. split; auto. split; [lia|].
  destruct (Nat.lt_ge_cases c (length labels)); auto. rewrite nth_overflow in H by auto. destruct H.
Qed.
Lemma combine_seq_in A (l : list A) : forall a o x, In (o, x) (combine (seq a (length l)) l) <-> a <= o /\ nth_error l (o - a) = Some x.
Proof.
  induction l as [|y l IH]; intros a o x; simpl.
  - split; [intros []|]. intros [_ H]. destruct (o - a); discriminate.
  - rewrite IH. split.
    + intros [E|[L E]]; [injection E as <- <-; rewrite Nat.sub_diag; auto|]. split; [lia|]. replace (o - a) with (S (o - S a)) by lia. auto.
    + intros [L E]. destruct (Nat.eq_dec o a) as [->|N]; [left; rewrite Nat.sub_diag in E; simpl in E; congruence|].
      right. split; [lia|]. replace (o - a) with (S (o - S a)) in E by lia. auto.
Qed.
Lemma sites_in show_all names labels o name k : In (o, name, k) (table_sites show_all names labels) <->
  nth_error names o = Some name /\ match k with Some c => In o (nth c labels []) | None => show_all = true /\ forall c, ~ In o (nth c labels []) end.
Proof.
  unfold table_sites. rewrite in_flat_map. split.
  - intros ((o' & name') & Hin & H). apply combine_seq_in in Hin as [_ Hin]. rewrite Nat.sub_0_r in Hin. fold (clusters_with labels o') in H.
    destruct (clusters_with labels o') as [|c cs] eqn:E.
    + destruct show_all; [|destruct H]. destruct H as [H|[]]. injection H as <- <- <-. split; auto. split; auto. intros c Hc. apply clusters_with_in in Hc. rewrite E in Hc. destruct Hc.
    + apply in_map_iff in H as (c' & H & Hc). injection H as <- <- <-. rewrite <- E in Hc. apply clusters_with_in in Hc. auto.
  - intros [Hn Hk]. exists (o, name). split; [apply combine_seq_in; rewrite Nat.sub_0_r; split; [lia|auto]|]. fold (clusters_with labels o).
    destruct (clusters_with labels o) as [|c cs] eqn:E.
    + destruct k as [c|].
      * apply clusters_with_in in Hk. rewrite E in Hk. destruct Hk.
      * destruct Hk as [-> _]. left. reflexivity.
    + destruct k as [c'|].
      * apply clusters_with_in in Hk. rewrite E in Hk. apply in_map_iff. exists c'. auto.
      * destruct Hk as [_ Hk]. exfalso. apply (Hk c). apply clusters_with_in. rewrite E. left. reflexivity.
Qed.
Lemma sites_sorted show_all names labels : disjoint labels -> Sorted.StronglySorted lt (map (fun s => fst (fst s)) (table_sites show_all names labels)).
Proof.
  intros Hd. unfold table_sites. generalize 0 at 2. induction names as [|x names IH]; intros a; [constructor|]. cbn [length seq combine flat_map]. rewrite map_app.
  assert (L : forall o, In o (map (fun s => fst (fst s)) (flat_map (fun '(o, name) => match clusters_with labels o with [] => if show_all then [(o, name, None)] else [] | cs => map (fun c => (o, name, Some c)) cs end)
      (combine (seq (S a) (length names)) names))) -> a < o).
  { intros o H. apply in_map_iff in H as (((o' & n') & k) & E & H). cbn [fst] in E. subst o'. apply in_flat_map in H as ((o2 & n2) & Hin & H).
    apply combine_seq_in in Hin as [Hin _]. assert (E : o = o2); [|lia]. destruct (clusters_with labels o2) as [|c cs].
    - destruct show_all; [|destruct H]. destruct H as [H|[]]. congruence.
    - apply in_map_iff in H as (c' & H & _). congruence. }
  specialize (IH (S a)). fold (clusters_with labels a). destruct (clusters_with labels a) as [|c cs] eqn:E.
  - destruct show_all; cbn [map app]; auto. constructor; auto. apply Forall_forall. exact L.
  - assert (cs = []).
    { destruct cs as [|c' cs]; auto. exfalso. assert (c = c').
      { apply (Hd a c c'); apply clusters_with_in; rewrite E; simpl; auto. }
      subst c'. assert (N : NoDup (clusters_with labels a)) by (apply NoDup_filter, seq_NoDup). rewrite E in N. inversion N as [|? ? N1 N2]. apply N1. left. reflexivity. }
    subst cs. cbn [map app fst]. constructor; auto. apply Forall_forall. exact L.
Qed.
