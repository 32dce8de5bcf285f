(** Specifications and lemmas for the loading of data. *)
From Coq Require Export Sorted.
From Coq Require Import Lqa.
From Verif Require Export M_data L_text.
Set Implicit Arguments.
Unset Strict Implicit.

(** * Specifications *)
(** The states of a feature come without gaps: missing cells only at the end of the column. *)
Definition gap_free (st : list (option str)) : Prop := exists ss k, st = map Some ss ++ repeat None k.
(** The only true position is [i]. *)
Definition hot_at (r : list bool) (i : nat) : Prop := forall j, nth j r false = true <-> j = i.
(** Strictly increasing strings: sorted, no repetitions. *)
Definition str_lt (a b : str) : Prop := str_cmp a b = Lt.
Definition increasing (l : list str) : Prop := StronglySorted str_lt l.
(** The cost given in the file for objects [x] and [y]. *)
Definition file_cost (f : cost_file) (x y : str) (q : Q) : Prop :=
  exists r c, nth_error (cf_rows f) r = Some x /\ nth_error (cf_cols f) c = Some y /\ q = entry (cf_entry f) r c.

(** * Lists *)
Lemma all_opt'_Forall2 A (l : list (option A)) r : all_opt' l = Some r -> Forall2 (fun x y => x = Some y) l r.
Proof.
  revert r; induction l as [|[x|] l IH]; intros r H; simpl in H.
  - injection H as <-. constructor.
  - destruct (all_opt' l) as [b|]; [|discriminate]. injection H as <-. constructor; auto.
  - discriminate.
Qed.
Lemma all_opt'_some A (l : list (option A)) : Forall (fun x => x <> None) l -> exists r, all_opt' l = Some r.
Proof.
  induction 1 as [|[x|] l Hx Hl (r & IH)]; simpl; [eauto| |congruence]. rewrite IH. eauto.
Qed.
Lemma all_opt'_none A (l : list (option A)) : In None l -> all_opt' l = None.
Proof. induction l as [|[x|] l IH]; simpl; intros H; [destruct H| |auto]. destruct H as [H|H]; [discriminate|]. rewrite IH; auto. Qed.
Lemma Forall2_nth A B (R : A -> B -> Prop) l r i x : Forall2 R l r -> nth_error l i = Some x -> exists y, nth_error r i = Some y /\ R x y.
Proof.
  intros H; revert i; induction H as [|a b l r Hab H IH]; intros [|i] Hi; simpl in *; try discriminate; eauto. injection Hi as <-. eauto.
Qed.
Lemma get_col_In A (df : list (str * A)) n c : get_col df n = Some c -> In (n, c) df.
Proof.
  induction df as [|(m, x) r IH]; simpl; [discriminate|]. destruct (str_eqb n m) eqn:E; intros H.
  - apply str_eqb_eq in E. left. congruence.
  - right. auto.
Qed.
Lemma get_col_NoDup A (df : list (str * A)) n c : NoDup (map fst df) -> In (n, c) df -> get_col df n = Some c.
Proof.
  induction df as [|(m, x) r IH]; simpl; intros HN Hin; [destruct Hin|]. inversion HN as [|? ? Hm HN']; subst.
  destruct Hin as [E|Hin].
  - injection E as -> ->. rewrite str_eqb_refl. reflexivity.
  - destruct (str_eqb n m) eqn:E; auto. apply str_eqb_eq in E. subst m. exfalso. apply Hm. apply in_map_iff. exists (n, c). auto.
Qed.
Lemma get_col_some A (df : list (str * A)) n : In n (map fst df) -> exists c, get_col df n = Some c.
Proof.
  induction df as [|(m, x) r IH]; simpl; intros H; [destruct H|]. destruct (str_eqb n m) eqn:E; [eauto|].
  destruct H as [->|H]; auto. rewrite str_eqb_refl in E. discriminate.
Qed.
Lemma get_col_map A B (g : A -> B) df n : get_col (map (fun '(m, c) => (m, g c)) df) n = option_map g (get_col df n).
Proof. induction df as [|(m, x) r IH]; simpl; auto. destruct (str_eqb n m); auto. Qed.
Lemma dropna_In A (l : list (option A)) x : In x (dropna l) <-> In (Some x) l.
Proof.
  induction l as [|[y|] l IH]; simpl; [tauto| |].
  - rewrite IH. split; intros [H|H]; auto; left; congruence.
  - rewrite IH. split; [auto|intros [H|H]; [discriminate|auto]].
Qed.
Lemma dropna_length A (l : list (option A)) : length (dropna l) <= length l.
Proof. induction l as [|[y|] l IH]; simpl; lia. Qed.
Lemma dropna_gap_free (ss : list str) k : dropna (map Some ss ++ repeat None k) = ss.
Proof. induction ss; simpl; [induction k; simpl; auto|congruence]. Qed.
Lemma set_eqb_spec a b : set_eqb a b = true <-> (forall x, In x a <-> In x b).
Proof.
  unfold set_eqb. rewrite andb_true_iff, !forallb_forall. split.
  - intros (H1 & H2) x. split; intros H; apply mem_In; auto.
  - intros H. split; intros x Hx; apply mem_In; apply H; auto.
Qed.

(** * Encoding *)
Lemma last_index_from_spec x l : forall k i, last_index_from k x l = Some i -> exists j, i = k + j /\ nth_error l j = Some x.
Proof.
  induction l as [|y r IH]; intros k i H; simpl in H; [discriminate|].
  destruct (last_index_from (S k) x r) as [m|] eqn:E.
  - injection H as <-. destruct (IH _ _ E) as (j & -> & Hj). exists (S j). split; [lia|exact Hj].
  - destruct (str_eqb x y) eqn:E'; [|discriminate]. apply str_eqb_eq in E'. injection H as <-. subst y. exists 0. split; [lia|reflexivity].
Qed.
Lemma last_index_from_some x l : forall k, In x l -> exists i, last_index_from k x l = Some i.
Proof.
  induction l as [|y r IH]; intros k H; [destruct H|]. simpl.
  destruct (last_index_from (S k) x r) as [m|] eqn:E; [eauto|].
  destruct H as [->|H]; [rewrite str_eqb_refl; eauto|]. destruct (IH (S k) H) as (i & Hi). congruence.
Qed.
Lemma nth_one_hot n i j : i < n -> (nth j (one_hot n i) false = true <-> j = i).
Proof.
  intros Hi. unfold one_hot. destruct (Nat.lt_ge_cases j n) as [Hj|Hj].
  - rewrite (nth_indep _ false ((fun j => j =? i) 0)) by (rewrite map_length, seq_length; auto).
    rewrite (map_nth (fun j => j =? i)), seq_nth by auto. simpl. apply Nat.eqb_eq.
  - rewrite nth_overflow by (rewrite map_length, seq_length; auto). split; [discriminate|lia].
Qed.
Lemma nth_repeat_false n j : nth j (repeat false n) false = false.
Proof. revert j; induction n; intros [|j]; simpl; auto. Qed.
Lemma encode_feature_spec n st raw vals : length st = n -> encode_feature n st raw = Some vals ->
  length vals = length raw /\
  forall o v, nth_error raw o = Some v -> exists r, nth_error vals o = Some r /\ length r = n /\
    match v with
    | None => forall j, nth j r false = false
    | Some x => exists i, i < n /\ hot_at r i /\ nth_error (dropna st) i = Some x
    end.
Proof.
  intros Hn H. unfold encode_feature in H. destruct (forallb _ _) eqn:E; [|discriminate]. injection H as <-.
  split; [apply map_length|]. intros o v Ho. rewrite forallb_forall in E.
  eexists. split; [rewrite nth_error_map, Ho; reflexivity|].
  destruct v as [x|].
  - assert (Hin : In x (dropna st)). { apply mem_In, E, dropna_In. eapply nth_error_In; eauto. }
    destruct (last_index_from_some 0 Hin) as (i & Hi). unfold ext_to_int. rewrite Hi.
    destruct (last_index_from_spec Hi) as (j & -> & Hj). simpl.
    assert (Hlt : j < n). { apply nth_error_Some_lt in Hj. pose proof (dropna_length st). lia. }
    split; [unfold one_hot; rewrite map_length, seq_length; auto|]. exists j. conj; auto. intros k. apply nth_one_hot; auto.
  - split; [apply repeat_length|]. intros j. apply nth_repeat_false.
Qed.
Lemma encode_feature_accepts n st raw : (exists vals, encode_feature n st raw = Some vals) <-> (forall x, In (Some x) raw -> In (Some x) st).
Proof.
  unfold encode_feature. destruct (forallb _ _) eqn:E.
  - rewrite forallb_forall in E. split; [|intros _; eauto]. intros _ x Hx. apply dropna_In, mem_In, E, dropna_In, Hx.
  - split; [intros (v & H); discriminate|]. intros H. exfalso.
    assert (E' : forallb (fun x => mem x (dropna st)) (dropna raw) = true); [|congruence].
    apply forallb_forall. intros x Hx. apply mem_In, dropna_In, H, dropna_In, Hx.
Qed.
Lemma encode_states_inv n data fs e : encode_states n data fs = Some e ->
  enc_states e = map (fun '(_, st) => map is_some st) fs /\ enc_names e = map (fun '(_, st) => dropna st) fs /\
  forall f name st, nth_error fs f = Some (name, st) -> exists raw vals,
    get_col data name = Some raw /\ encode_feature n st raw = Some vals /\ nth_error (enc_values e) f = Some vals.
Proof.
  unfold encode_states. destruct (all_opt' _) as [vs|] eqn:E; [|discriminate]. intros H. injection H as <-. cbn [enc_states enc_names enc_values].
  conj; auto. intros f name st Hf. apply all_opt'_Forall2 in E.
  destruct (@Forall2_nth _ _ _ _ _ f _ E (map_nth_error _ _ _ Hf)) as (y & Hy & Ey).
  destruct (get_col data name) as [raw|]; [|discriminate]. exists raw.
  destruct (encode_feature n st raw) as [vals|]; [|discriminate]. exists vals. simpl in Ey. injection Ey as <-.
  conj; auto. rewrite nth_error_map, Hy. reflexivity.
Qed.
Lemma encode_states_accepts n data fs :
  (exists e, encode_states n data fs = Some e) <->
  (forall name st, In (name, st) fs -> exists raw, get_col data name = Some raw /\ forall x, In (Some x) raw -> In (Some x) st).
Proof.
  split.
  - intros (e & H) name st Hin. apply In_nth_error in Hin. destruct Hin as (f & Hf).
    destruct (encode_states_inv H) as (_ & _ & Hinv). destruct (Hinv f name st Hf) as (raw & vals & Hc & He & _).
    exists raw. split; auto. apply (proj1 (encode_feature_accepts n st raw)). eauto.
  - intros H. unfold encode_states.
    destruct (@all_opt'_some _ (map (fun '(name, st) => match get_col data name with
                                          | Some raw => option_map (fun v => (v, raw)) (encode_feature n st raw)
                                          | None => None end) fs)) as (vs & E).
    + apply Forall_map, Forall_forall. intros (name, st) Hin. destruct (H name st Hin) as (raw & Hc & Hsub). rewrite Hc.
      destruct (proj2 (encode_feature_accepts n st raw) Hsub) as (v & ->). discriminate.
    + rewrite E. eauto.
Qed.

(** * Sorted sets *)
Lemma cmp_eq a : forall b, str_cmp a b = Eq <-> a = b.
Proof.
  induction a as [|x a IH]; intros [|y b]; simpl; split; intros H; try discriminate; auto.
  - destruct (N.compare_spec (N_of_ascii x) (N_of_ascii y)) as [E| |]; try discriminate.
    apply IH in H. subst b. f_equal. apply (f_equal ascii_of_N) in E. rewrite !ascii_N_embedding in E. exact E.
  - injection H as -> ->. rewrite N.compare_refl. apply IH. reflexivity.
Qed.
Lemma cmp_antisym a : forall b, str_cmp a b = CompOpp (str_cmp b a).
Proof.
  induction a as [|x a IH]; intros [|y b]; simpl; auto.
  rewrite (N.compare_antisym (N_of_ascii y) (N_of_ascii x)). destruct (N.compare (N_of_ascii y) (N_of_ascii x)); simpl; auto.
Qed.
Lemma lt_trans a : forall b c, str_lt a b -> str_lt b c -> str_lt a c.
Proof.
  unfold str_lt. induction a as [|x a IH]; intros [|y b] [|z c] H1 H2; simpl in *; try discriminate; auto.
  destruct (N.compare_spec (N_of_ascii x) (N_of_ascii y)) as [E1|E1|E1]; try discriminate;
  destruct (N.compare_spec (N_of_ascii y) (N_of_ascii z)) as [E2|E2|E2]; try discriminate.
  - rewrite E1, E2, N.compare_refl. eapply IH; eauto.
  - rewrite E1. apply N.compare_lt_iff in E2. rewrite E2. reflexivity.
  - rewrite <- E2. apply N.compare_lt_iff in E1. rewrite E1. reflexivity.
  - assert (E3 : (N_of_ascii x < N_of_ascii z)%N) by (eapply N.lt_trans; eauto). apply N.compare_lt_iff in E3. rewrite E3. reflexivity.
Qed.
Lemma insert_In x y l : In x (insert y l) <-> x = y \/ In x l.
Proof.
  induction l as [|z l IH]; simpl; [intuition|]. destruct (str_cmp y z) eqn:E; simpl.
  - apply cmp_eq in E. subst z. intuition.
  - intuition.
  - rewrite IH. intuition.
Qed.
Lemma insert_increasing y l : increasing l -> increasing (insert y l).
Proof.
  induction 1 as [|z l HS IH HF]; simpl; [repeat constructor|]. destruct (str_cmp y z) eqn:E.
  - constructor; auto.
  - constructor; [constructor; auto|]. constructor; auto. eapply Forall_impl; [|exact HF]. intros w Hw. eapply lt_trans; eauto.
  - constructor; auto. apply Forall_forall. intros w Hw. apply insert_In in Hw. destruct Hw as [->|Hw].
    + unfold str_lt. rewrite cmp_antisym, E. reflexivity.
    + rewrite Forall_forall in HF. auto.
Qed.
Lemma fold_insert_In x l acc : In x (fold_right insert acc l) <-> In x l \/ In x acc.
Proof. induction l as [|y l IH]; simpl; [tauto|]. rewrite insert_In, IH. intuition. Qed.
Lemma fold_insert_increasing l acc : increasing acc -> increasing (fold_right insert acc l).
Proof. intros H. induction l; simpl; auto. apply insert_increasing; auto. Qed.
Lemma sorted_set_In x l : In x (sorted_set l) <-> In x l.
Proof. unfold sorted_set. rewrite fold_insert_In. simpl. tauto. Qed.
Lemma sorted_set_increasing l : increasing (sorted_set l).
Proof. apply fold_insert_increasing. constructor. Qed.
Lemma increasing_NoDup l : increasing l -> NoDup l.
Proof.
  induction 1 as [|z l HS IH HF]; constructor; auto. intros Hin. rewrite Forall_forall in HF. specialize (HF z Hin).
  unfold str_lt in HF. rewrite (proj2 (cmp_eq z z) eq_refl) in HF. discriminate.
Qed.

(** * Confounders *)
Lemma confounder_inv n data name gs c col : get_col data name = Some col -> confounder_from_dataframe n data name gs = Some c ->
  cd_assignment c = map (fun g => map (fun v => match v with Some x => str_eqb x g | None => false end) col) (cd_groups c) /\
  (forall g, In g (cd_groups c) <-> In (Some g) col) /\ (match gs with Some l => cd_groups c = l | None => NoDup (cd_groups c) end).
Proof.
  intros Hc H. unfold confounder_from_dataframe in H. rewrite Hc in H. destruct gs as [l|].
  - destruct (set_eqb _ _) eqn:E; [|discriminate]. injection H as <-. cbn [cd_groups cd_assignment]. conj; auto.
    intros g. rewrite (proj1 (set_eqb_spec _ _) E), sorted_set_In, dropna_In. tauto.
  - injection H as <-. cbn [cd_groups cd_assignment]. conj; auto.
    + intros g. rewrite sorted_set_In, dropna_In. tauto.
    + apply increasing_NoDup, sorted_set_increasing.
Qed.

(** * Costs *)
Lemma index_of_from_spec x l : forall k i, index_of_from k x l = Some i -> exists j, i = k + j /\ nth_error l j = Some x.
Proof.
  induction l as [|y r IH]; intros k i H; simpl in H; [discriminate|]. destruct (str_eqb x y) eqn:E.
  - apply str_eqb_eq in E. injection H as <-. subst y. exists 0. split; [lia|reflexivity].
  - destruct (IH _ _ H) as (j & -> & Hj). exists (S j). split; [lia|exact Hj].
Qed.
Lemma index_of_spec x l i : index_of x l = Some i -> nth_error l i = Some x.
Proof. intros H. destruct (index_of_from_spec H) as (j & -> & Hj). exact Hj. Qed.
Lemma entry_square n f i j : i < n -> j < n -> entry (square n f) i j = f i j.
Proof.
  intros Hi Hj. unfold entry, square.
  rewrite (nth_indep _ [] ((fun i => map (f i) (seq 0 n)) 0)) by (rewrite map_length, seq_length; auto).
  rewrite (map_nth (fun i => map (f i) (seq 0 n))), seq_nth by auto.
  rewrite (nth_indep _ 0%Q (f (0 + i) 0)) by (rewrite map_length, seq_length; auto).
  rewrite (map_nth (f (0 + i))), seq_nth by auto. reflexivity.
Qed.
Lemma cost_matrix_spec names f m : read_geo_cost_matrix names f = Some m ->
  (forall x, In x (cf_cols f) <-> In x names) /\
  length m = length names /\ Forall (fun r => length r = length names) m /\
  exists c : nat -> nat -> Q,
    (forall i j x y, nth_error names i = Some x -> nth_error names j = Some y -> file_cost f x y (c i j)) /\
    (((forall i j, i < length names -> j < length names -> isclose (c i j) (c j i) = true /\ entry m i j = c i j)) \/
     ((exists i j, i < length names /\ j < length names /\ isclose (c i j) (c j i) = false) /\
      forall i j, i < length names -> j < length names -> entry m i j = ((c i j + c j i) / 2)%Q)).
Proof.
  unfold read_geo_cost_matrix. destruct (set_eqb _ _) eqn:Es; [|discriminate].
  destruct (all_opt' (map (fun x => index_of x (cf_rows f)) names)) as [ri|] eqn:Er; [|discriminate].
  destruct (all_opt' (map (fun x => index_of x (cf_cols f)) names)) as [ci|] eqn:Ec; [|discriminate].
  set (n := length names). set (c := fun i j => entry (cf_entry f) (nth i ri 0) (nth j ci 0)).
  intros H. split; [apply set_eqb_spec, Es|].
  assert (Hsq : forall g, length (square n g) = n /\ Forall (fun r => length r = n) (square n g)).
  { intros g. unfold square. rewrite map_length, seq_length. split; auto. apply Forall_map, Forall_forall. intros i _. rewrite map_length, seq_length; auto. }
  apply all_opt'_Forall2 in Er, Ec.
  assert (Hf : forall i j x y, nth_error names i = Some x -> nth_error names j = Some y -> file_cost f x y (c i j)).
  { intros i j x y Hx Hy.
    destruct (Forall2_nth Er (map_nth_error _ _ _ Hx)) as (r & Hr & Hr').
    destruct (Forall2_nth Ec (map_nth_error _ _ _ Hy)) as (k & Hk & Hk').
    exists r, k. conj; [apply index_of_spec; auto|apply index_of_spec; auto|].
    unfold c. rewrite (nth_error_nth _ _ 0 Hr), (nth_error_nth _ _ 0 Hk). reflexivity. }
  assert (Hce : forall i j, i < n -> j < n -> entry (square n c) i j = c i j) by (intros; apply entry_square; auto).
  destruct (forallb _ _) eqn:E; injection H as <-.
  - split; [apply Hsq|]. split; [apply Hsq|]. exists c. split; auto. left. intros i j Hi Hj. split; [|auto].
    rewrite forallb_forall in E. assert (E1 := E i ltac:(apply in_seq; lia)). rewrite forallb_forall in E1.
    assert (E2 := E1 j ltac:(apply in_seq; lia)). rewrite !Hce in E2; auto.
  - split; [apply Hsq|]. split; [apply Hsq|]. exists c. split; auto. right. split.
    + clear -E Hce.
      assert (Hex : forall (p : nat -> bool) l, forallb p l = false -> exists x, In x l /\ p x = false).
      { induction l as [|x l IH]; simpl; [discriminate|]. destruct (p x) eqn:Ep; simpl; intros H; [|exists x; auto]. destruct (IH H) as (y & Hy & Hp). exists y; auto. }
      destruct (Hex _ _ E) as (i & Hi & Ei). destruct (Hex _ _ Ei) as (j & Hj & Ej).
      apply in_seq in Hi. apply in_seq in Hj. exists i, j. conj; try lia. rewrite !Hce in Ej by lia. exact Ej.
    + intros i j Hi Hj. rewrite entry_square by auto. rewrite !Hce by auto. reflexivity.
Qed.

(** * The extraction tool *)
Lemma lstrip_idem x : lstrip (lstrip x) = lstrip x.
Proof. induction x as [|c r IH]; simpl; auto. destruct (is_space c) eqn:E; auto. simpl. rewrite E. reflexivity. Qed.
Lemma lstrip_fix x : (forall c r, x = c :: r -> is_space c = false) -> lstrip x = x.
Proof. destruct x as [|c r]; simpl; auto. intros H. rewrite (H c r eq_refl). reflexivity. Qed.
Lemma lstrip_head x c r : lstrip x = c :: r -> is_space c = false.
Proof. induction x as [|d x IH]; simpl; [discriminate|]. destruct (is_space d) eqn:E; auto. intros H. congruence. Qed.
Lemma lstrip_suffix x : exists p, x = p ++ lstrip x.
Proof. induction x as [|c r (p & IH)]; [exists []; auto|]. simpl. destruct (is_space c); [exists (c :: p); simpl; congruence|exists []; auto]. Qed.
Lemma strip_idem x : strip (strip x) = strip x.
Proof.
  unfold strip. set (y := lstrip x).
  assert (Hy : lstrip (rev (lstrip (rev y))) = rev (lstrip (rev y))).
  { apply lstrip_fix. intros c r H. destruct (lstrip_suffix (rev y)) as (p & Hp).
    assert (E : y = rev (lstrip (rev y)) ++ rev p) by (rewrite <- (rev_involutive y) at 1; rewrite Hp at 1; apply rev_app_distr).
    rewrite H in E. simpl in E. apply (lstrip_head (x := x) (c := c) (r := r ++ rev p)). exact E. }
  rewrite Hy, rev_involutive, lstrip_idem. reflexivity.
Qed.
Section Extract.
Variable na : str -> bool.
(** [x] is an observed value of feature [n] in the file. *)
Definition occurs (f : csv) (n x : str) : Prop := exists cells c, get_col f n = Some cells /\ In c cells /\ na c = false /\ strip c = x.
Lemma read_cell_some c x : read_cell na c = Some x <-> na c = false /\ strip c = x.
Proof. unfold read_cell. destruct (na c); split; try intros (H & H'); try intros H; try discriminate; try congruence; split; congruence. Qed.
Lemma collect_spec f d : NoDup (map fst f) -> collect_feature_states na f = Some d ->
  NoDup (map fst d) /\ (forall n, In n (map fst d) <-> In n (map fst f) /\ ~ In n metadata) /\
  forall n ss, In (n, ss) d -> increasing ss /\ forall x, In x ss <-> occurs f n x.
Proof.
  intros HN H. unfold collect_feature_states in H. destruct (forallb _ _); [|discriminate]. injection H as <-.
  assert (Hin : forall n ss, In (n, ss) (map (fun '(n, c) => (n, sorted_set (dropna c))) (filter (fun '(n, _) => negb (mem n metadata)) (read_csv na f))) <->
    exists cells, In (n, cells) f /\ ~ In n metadata /\ ss = sorted_set (dropna (map (read_cell na) cells))).
  { intros n ss. rewrite in_map_iff. split.
    - intros ((m, c) & E & Hf). apply filter_In in Hf. destruct Hf as (Hf & Hm). unfold read_csv in Hf. apply in_map_iff in Hf.
      destruct Hf as ((m', cells) & E' & Hf). injection E' as -> <-. injection E as -> <-. exists cells. conj; auto.
      intros Hmem. apply mem_In in Hmem. rewrite Hmem in Hm. discriminate.
    - intros (cells & Hf & Hm & ->). exists (n, map (read_cell na) cells). split; [reflexivity|]. apply filter_In. split.
      + unfold read_csv. apply in_map_iff. exists (n, cells). auto.
      + destruct (mem n metadata) eqn:E; auto. apply mem_In in E. contradiction. }
  conj.
  - rewrite map_map. apply NoDup_map_inv with (f := fun x => x). rewrite map_id.
    rewrite (map_ext _ fst) by (intros (a, b); reflexivity).
    assert (E : forall l, map fst (filter (fun '((n, _) : str * list (option str)) => negb (mem n metadata)) l) = filter (fun n => negb (mem n metadata)) (map fst l)).
    { generalize metadata. intros md. induction l as [|(a, b) l IH]; cbn [map filter fst]; auto. destruct (negb (mem a md)); cbn [map filter fst]; congruence. }
    rewrite E. apply NoDup_filter. unfold read_csv. rewrite map_map. rewrite (map_ext _ fst) by (intros (a, b); reflexivity). exact HN.
  - intros n. rewrite in_map_iff. split.
    + intros ((m, ss) & <- & H). apply Hin in H. destruct H as (cells & Hf & Hm & _). split; auto. apply in_map_iff. exists (m, cells). auto.
    + intros (Hf & Hm). apply in_map_iff in Hf. destruct Hf as ((m, cells) & <- & Hf).
      exists (m, sorted_set (dropna (map (read_cell na) cells))). split; auto. apply Hin. eauto.
  - intros n ss H. apply Hin in H. destruct H as (cells & Hf & _ & ->). split; [apply sorted_set_increasing|].
    intros x. rewrite sorted_set_In, dropna_In, in_map_iff. split.
    + intros (c & Hc & Hc'). apply read_cell_some in Hc. exists cells, c. conj; try tauto. apply get_col_NoDup; auto.
    + intros (cells' & c & Hg & Hc & Hna & Hs). rewrite (get_col_NoDup HN Hf) in Hg. injection Hg as <-.
      exists c. split; auto. apply read_cell_some. auto.
Qed.
Lemma merge_spec a b d : merge_states a b = Some d -> NoDup (map fst b) ->
  map fst d = map fst a /\ (forall n, In n (map fst a) <-> In n (map fst b)) /\
  forall n ss, In (n, ss) d -> exists sa sb, In (n, sa) a /\ In (n, sb) b /\ (increasing sa -> increasing ss) /\ forall x, In x ss <-> In x sa \/ In x sb.
Proof.
  intros H HN. unfold merge_states in H. destruct (set_eqb _ _) eqn:E; [|discriminate]. injection H as <-.
  assert (Hk := proj1 (set_eqb_spec _ _) E). conj.
  - rewrite map_map. apply map_ext. intros (n, ss). reflexivity.
  - exact Hk.
  - intros n ss Hin. apply in_map_iff in Hin. destruct Hin as ((m, sa) & E' & Hin). injection E' as -> <-.
    assert (Hn : In n (map fst b)) by (apply Hk, in_map_iff; exists (n, sa); auto).
    destruct (get_col_some Hn) as (sb & Hsb). rewrite Hsb. exists sa, sb. conj; auto using get_col_In.
    + intros. apply fold_insert_increasing; auto.
    + intros x. rewrite fold_insert_In. tauto.
Qed.
Lemma merge_files_spec : forall files acc d, Forall (fun f : csv => NoDup (map fst f)) files -> merge_files na acc files = Some d ->
  map fst d = map fst acc /\ (forall f, In f files -> forall n, In n (map fst d) <-> In n (map fst f) /\ ~ In n metadata) /\
  forall n ss, In (n, ss) d -> exists sa, In (n, sa) acc /\ (increasing sa -> increasing ss) /\
    forall x, In x ss <-> In x sa \/ exists f, In f files /\ occurs f n x.
Proof.
  induction files as [|f files IH]; intros acc d HF H; simpl in H.
  - injection H as <-. conj; auto; [intros f []|]. intros n ss Hin. exists ss. conj; auto. intros x. split; [auto|]. intros [Hx|(f & [] & _)]; auto.
  - inversion HF as [|? ? Hf HF']; subst. destruct (collect_feature_states na f) as [b|] eqn:Eb; [|discriminate].
    destruct (merge_states acc b) as [a'|] eqn:Em; [|discriminate].
    destruct (collect_spec Hf Eb) as (HNb & Hkb & Hb). destruct (merge_spec Em HNb) as (Hfst & Hk & Hm).
    destruct (IH _ _ HF' H) as (Hfd & Hkd & Hd). conj.
    + congruence.
    + intros g [<-|Hg] n; [|apply Hkd; auto]. rewrite Hfd, Hfst, Hk. apply Hkb.
    + intros n ss Hin. destruct (Hd n ss Hin) as (sa & Hsa & Hinc & Hx). destruct (Hm n sa Hsa) as (s1 & s2 & H1 & H2 & Hinc' & Hx').
      exists s1. conj; auto. intros x. rewrite Hx, Hx', (proj2 (Hb n s2 H2) x). split.
      * intros [[Hl|Hr]|(g & Hg & Ho)]; auto; [right; exists f; split; simpl; auto|right; exists g; split; simpl; auto].
      * intros [Hl|(g & [<-|Hg] & Ho)]; auto. right. exists g. auto.
Qed.
Lemma extract_spec files out : Forall (fun f : csv => NoDup (map fst f)) files -> extract_feature_states na files = Some out ->
  exists d, out = write_states d /\ NoDup (map fst d) /\
    (forall f, In f files -> forall n, In n (map fst d) <-> In n (map fst f) /\ ~ In n metadata) /\
    forall n ss, In (n, ss) d -> increasing ss /\ forall x, In x ss <-> exists f, In f files /\ occurs f n x.
Proof.
  intros HF H. destruct files as [|f files]; [discriminate|]. simpl in H. inversion HF as [|? ? Hf HF']; subst.
  destruct (collect_feature_states na f) as [a|] eqn:Ea; [|discriminate].
  destruct (merge_files na a files) as [d|] eqn:Ed; [|discriminate].
  destruct (collect_spec Hf Ea) as (HNa & Hka & Ha). destruct (merge_files_spec HF' Ed) as (Hfst & Hk & Hm).
  assert (E : out = write_states d) by (destruct d; congruence). exists d. conj; auto.
  - rewrite Hfst. exact HNa.
  - intros g [<-|Hg] n; [|apply Hk; auto]. rewrite Hfst. apply Hka.
  - intros n ss Hin. destruct (Hm n ss Hin) as (sa & Hsa & Hinc & Hx). destruct (Ha n sa Hsa) as (Hi & Ho). split; auto.
    intros x. rewrite Hx, Ho. split.
    + intros [Hl|(g & Hg & Hr)]; [exists f; simpl; auto|exists g; simpl; auto].
    + intros (g & [<-|Hg] & Hr); auto. right. exists g. auto.
Qed.
Lemma max_len_ge (d : list (str * list str)) n ss : In (n, ss) d -> length ss <= max_len d.
Proof.
  induction d as [|(m, x) d IH]; intros H; [destruct H|]. change (max_len ((m, x) :: d)) with (Nat.max (length x) (max_len d)).
  destruct H as [E|H]; [injection E as -> ->; lia|specialize (IH H); lia].
Qed.
Lemma read_states ss k : na [] = true -> (forall x, In x ss -> na x = false /\ strip x = x) ->
  map (read_cell na) (ss ++ repeat [] k) = map Some ss ++ repeat None k.
Proof.
  intros H0 H. rewrite map_app. f_equal.
  - apply map_ext_in. intros x Hx. apply read_cell_some. auto.
  - induction k; simpl; auto. unfold read_cell at 1. rewrite H0. congruence.
Qed.
End Extract.
