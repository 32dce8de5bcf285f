(** Lemmas for C67, C68 and C69. *)
From Coq Require Import Lqa.
From Verif Require Export S_counts L_text L_data L_util.
From Coq Require Import Lia.
Set Implicit Arguments.
Unset Strict Implicit.
Close Scope Q_scope.
Close Scope R_scope.

(** * Dictionaries *)
Lemma str_eqb_sym a b : str_eqb a b = str_eqb b a.
Proof. destruct (str_eqb b a) eqn:E; [apply str_eqb_eq in E as ->; apply str_eqb_refl|]. destruct (str_eqb a b) eqn:F; auto. apply str_eqb_eq in F as ->. rewrite str_eqb_refl in E. discriminate. Qed.
Lemma str_eqb_neq a b : str_eqb a b = false <-> a <> b.
Proof. split; [intros H ->; rewrite str_eqb_refl in H; discriminate|]. intros H. destruct (str_eqb a b) eqn:E; auto. apply str_eqb_eq in E. contradiction. Qed.
Lemma get_dset A (d : dict A) k v x : get_col (dset k v d) x = if str_eqb x k then Some v else get_col d x.
Proof.
  induction d as [|[k' v'] d IH]; [reflexivity|]. cbn [dset]. destruct (str_eqb k k') eqn:E.
  - apply str_eqb_eq in E as ->. cbn [get_col]. destruct (str_eqb x k'); reflexivity.
  - cbn [get_col]. destruct (str_eqb x k') eqn:F; [|apply IH]. apply str_eqb_eq in F as ->. rewrite str_eqb_sym, E. reflexivity.
Qed.
Lemma get_dict_of A (l : list (str * A)) x : get_col (dict_of l) x = last_row x l.
Proof.
  unfold dict_of. assert (H : forall d, get_col (fold_left (fun d '(k, v) => dset k v d) l d) x = match last_row x l with Some v => Some v | None => get_col d x end).
  { induction l as [|[k v] l IH]; intros d; [reflexivity|]. cbn [fold_left last_row]. rewrite IH, get_dset. destruct (last_row x l); [reflexivity|]. destruct (str_eqb x k); reflexivity. }
  rewrite H. destruct (last_row x l); reflexivity.
Qed.
Lemma last_row_NoDup A (l : list (str * A)) k v : NoDup (map fst l) -> In (k, v) l -> last_row k l = Some v.
Proof.
  induction l as [|[k' v'] l IH]; intros Hn Hin; [destruct Hin|]. inversion_clear Hn as [|? ? Hk Hl]. cbn [last_row]. destruct Hin as [[= -> ->]|Hin].
  - assert (N : last_row k l = None).
    { clear IH Hl. induction l as [|[a b] l IH]; [reflexivity|]. cbn [last_row]. rewrite IH by (intros H; apply Hk; right; auto).
      destruct (str_eqb k a) eqn:E; auto. apply str_eqb_eq in E. destruct Hk. left. auto. }
    rewrite N, str_eqb_refl. reflexivity.
  - rewrite IH; auto.
Qed.
(** Enumerated names: the last position counts. *)
Lemma last_row_enum A (g : nat -> A) l x : forall k, last_row x (map (fun '(i, y) => (y, g i)) (combine (seq k (length l)) l)) = option_map g (last_index_from k x l).
Proof.
  induction l as [|y l IH]; intros k; [reflexivity|]. cbn [length seq combine map last_row last_index_from]. rewrite IH.
  destruct (last_index_from (S k) x l); [reflexivity|]. cbn [option_map]. destruct (str_eqb x y); reflexivity.
Qed.

(** * Counting *)
Fixpoint n_sel (x : str) (members : list bool) (col : list (option str)) : nat :=
  match members, col with
  | m :: ms, v :: r => (match v with Some y => if m && str_eqb y x then 1 else 0 | None => 0 end) + n_sel x ms r
  | _, _ => 0
  end.
Fixpoint n_sel_known (members : list bool) (col : list (option str)) : nat :=
  match members, col with
  | m :: ms, v :: r => (match v with Some _ => if m then 1 else 0 | None => 0 end) + n_sel_known ms r
  | _, _ => 0
  end.
Lemma nth_one_hot_b n i j : i < n -> nth j (one_hot n i) false = (j =? i).
Proof. intros H. destruct (j =? i) eqn:E; [apply Nat.eqb_eq in E; apply nth_one_hot; auto|]. destruct (nth j (one_hot n i) false) eqn:F; auto. apply nth_one_hot in F; auto. subst. rewrite Nat.eqb_refl in E. discriminate. Qed.
Lemma ext_inv l x i : ext_to_int l x = Some i -> nth_error l i = Some x.
Proof. intros H. destruct (last_index_from_spec H) as (j & -> & Hj). exact Hj. Qed.
Definition enc_row (n : nat) (s_ext : list str) (v : option str) : list bool :=
  match v with
  | Some x => match ext_to_int s_ext x with Some i => one_hot n i | None => repeat false n end
  | None => repeat false n
  end.
Lemma encode_feature_rows n st raw vals : encode_feature n st raw = Some vals ->
  vals = map (enc_row n (dropna st)) raw /\ forall x, In (Some x) raw -> In x (dropna st).
Proof.
  intros H. unfold encode_feature in H. destruct (forallb _ _) eqn:E; [|discriminate]. injection H as <-. split; [reflexivity|].
  intros x Hx. rewrite forallb_forall in E. apply mem_In, E, dropna_In, Hx.
Qed.
Section Column.
Variables (n : nat) (names : list str).
Hypothesis Hn : length names <= n.
Lemma enc_row_at x i v : ext_to_int names x = Some i -> (forall y, v = Some y -> In y names) ->
  nth i (enc_row n names v) false = match v with Some y => str_eqb y x | None => false end.
Proof.
  intros Hi Hv. destruct v as [y|]; cbn [enc_row]; [|apply nth_repeat_false].
  destruct (last_index_from_some 0 (Hv y eq_refl)) as (j & Hj). change (last_index_from 0 y names) with (ext_to_int names y) in Hj. rewrite Hj.
  pose proof (ext_inv Hi) as Ei. pose proof (ext_inv Hj) as Ej. assert (j < length names) by (apply nth_error_Some; congruence).
  rewrite nth_one_hot_b by lia. destruct (str_eqb y x) eqn:E.
  - apply str_eqb_eq in E as ->. rewrite Hi in Hj. injection Hj as ->. apply Nat.eqb_refl.
  - apply Nat.eqb_neq. intros ->. rewrite Ei in Ej. injection Ej as ->. rewrite str_eqb_refl in E. discriminate.
Qed.
Lemma count_at x i members raw : ext_to_int names x = Some i -> (forall y, In (Some y) raw -> In y names) ->
  length (filter (fun '(m, v) => m && nth i v false) (combine members (map (enc_row n names) raw))) = n_sel x members raw.
Proof.
  intros Hi. revert members. induction raw as [|v raw IH]; intros members Hr; [destruct members; reflexivity|].
  destruct members as [|m members]; [reflexivity|]. cbn [map combine filter n_sel].
  rewrite (enc_row_at Hi) by (intros y ->; apply Hr; left; auto).
  rewrite <- (IH members) by (intros y Hy; apply Hr; right; auto).
  destruct v as [y|]; [|rewrite Bool.andb_false_r; reflexivity]. destruct (m && str_eqb y x); reflexivity.
Qed.
Lemma nth_state_counts members vals s : s < n -> nth s (state_counts n members vals) 0%Q = Qn (length (filter (fun '(m, v) => m && nth s v false) (combine members vals))).
Proof.
  intros H. unfold state_counts.
  set (g := fun s => inject_Z (Z.of_nat (length (filter (fun '(m, v) => m && nth s v false) (combine members vals))))).
  rewrite (nth_indep _ 0%Q (g 0)) by (rewrite map_length, seq_length; auto). rewrite (map_nth g), seq_nth by auto. reflexivity.
Qed.
End Column.
Lemma list_sum_zero A (l : list A) g : (forall a, In a l -> g a = 0) -> list_sum (map g l) = 0.
Proof. induction l as [|a l IH]; intros H; [reflexivity|]. cbn [map list_sum fold_right]. rewrite (H a) by (left; auto). apply IH. intros; apply H; right; auto. Qed.
Lemma list_sum_one n i k : k <= i < k + n -> list_sum (map (fun j => if j =? i then 1 else 0) (seq k n)) = 1.
Proof.
  revert k. induction n as [|n IH]; intros k H; [lia|]. cbn [seq map list_sum fold_right]. destruct (k =? i) eqn:E.
  - apply Nat.eqb_eq in E as ->. change (1 + list_sum (map (fun j => if j =? i then 1 else 0) (seq (S i) n)) = 1). rewrite list_sum_zero; auto.
    intros a Ha. apply in_seq in Ha. destruct (a =? i) eqn:F; auto. apply Nat.eqb_eq in F. lia.
  - apply Nat.eqb_neq in E. apply IH. lia.
Qed.
Lemma Qsum_Qn A (l : list A) g : (Qsum (map (fun a => Qn (g a)) l) == Qn (list_sum (map g l)))%Q.
Proof.
  induction l as [|a l IH]; [reflexivity|]. change (Qn (g a) + Qsum (map (fun a => Qn (g a)) l) == Qn (g a + list_sum (map g l)))%Q.
  rewrite IH. unfold Qn. rewrite Nat2Z.inj_add, inject_Z_plus. reflexivity.
Qed.
Lemma list_sum_add A (l : list A) g h : list_sum (map (fun a => g a + h a) l) = list_sum (map g l) + list_sum (map h l).
Proof. induction l as [|a l IH]; [reflexivity|]. cbn [map list_sum fold_right]. unfold list_sum in IH. rewrite IH. lia. Qed.
Lemma total_at n names members raw : length names <= n -> (forall y, In (Some y) raw -> In y names) ->
  list_sum (map (fun s => length (filter (fun '(m, v) => m && nth s v false) (combine members (map (enc_row n names) raw)))) (seq 0 n)) = n_sel_known members raw.
Proof.
  intros Hn. revert members. induction raw as [|v raw IH]; intros members Hr.
  - destruct members; apply list_sum_zero; reflexivity.
  - destruct members as [|m members]; [apply list_sum_zero; reflexivity|]. cbn [map combine n_sel_known].
    rewrite <- (IH members) by (intros y Hy; apply Hr; right; auto).
    rewrite (map_ext _ (fun s => (if m && nth s (enc_row n names v) false then 1 else 0) + length (filter (fun '(m, v) => m && nth s v false) (combine members (map (enc_row n names) raw))))).
    2:{ intros s. cbn [filter]. destruct (m && nth s (enc_row n names v) false); reflexivity. }
    rewrite list_sum_add. f_equal. destruct v as [y|].
    + destruct (last_index_from_some 0 (Hr y (or_introl eq_refl))) as (j & Hj). change (last_index_from 0 y names) with (ext_to_int names y) in Hj.
      cbn [enc_row]. rewrite Hj. assert (j < length names) by (apply nth_error_Some; rewrite (ext_inv Hj); discriminate).
      destruct m; [|apply list_sum_zero; reflexivity]. transitivity (list_sum (map (fun k => if k =? j then 1 else 0) (seq 0 n))); [|apply list_sum_one; lia]. f_equal. apply map_ext. intros s. rewrite nth_one_hot_b by lia. reflexivity.
    + apply list_sum_zero. intros s _. cbn [enc_row]. rewrite nth_repeat_false, Bool.andb_false_r. reflexivity.
Qed.
Lemma n_sel_le x members raw : n_sel x members raw <= n_sel_known members raw.
Proof.
  revert members. induction raw as [|v raw IH]; intros [|m members]; cbn [n_sel n_sel_known]; auto. specialize (IH members).
  destruct v as [y|]; [|lia]. destruct m, (str_eqb y x); simpl; lia.
Qed.
Lemma Qn_le a b : (Qn a <= Qn b)%Q <-> a <= b.
Proof. unfold Qn. rewrite <- Zle_Qle. lia. Qed.
Lemma Qn_zero n : (Qn n == 0)%Q <-> n = 0.
Proof. unfold Qn, Qeq. simpl. lia. Qed.

(** * The scaled counts of one feature *)
Definition scaled_row (mx : option Q) (l : list Q) : list Q := match mx with None => l | Some m => scale_counts_row m l end.
Lemma scaled_rows mx l : scaled mx l = map (scaled_row mx) l.
Proof. destruct mx; simpl; [reflexivity|symmetry; apply map_id]. Qed.
Lemma nth_scaled_row mx l i t : (forall b, mx = Some b -> 0 <= b)%Q -> (Qsum l == Qn t)%Q -> (t = 0%nat -> nth i l 0 == 0)%Q ->
  (nth i (scaled_row mx l) 0 == nth i l 0 * shrink mx t)%Q.
Proof.
  intros Hb Ht Hz. destruct mx as [b|]; cbn [scaled_row shrink]; [|ring]. specialize (Hb b eq_refl). unfold scale_counts_row.
  set (s := if Qeq_bool (Qsum l) 0 then EPS else Qsum l). set (factor := (b / s)%Q). set (fa := if negb (Qle_bool 1 factor) then factor else 1%Q).
  assert (E : (nth i (map (fun c => c * fa) l) 0 == nth i l 0 * fa)%Q).
  { destruct (Nat.lt_ge_cases i (length l)) as [L|L].
    - rewrite (nth_indep _ 0%Q ((fun c => c * fa)%Q 0%Q)) by (rewrite map_length; auto). rewrite (map_nth (fun c => c * fa)%Q). reflexivity.
    - rewrite !nth_overflow by (rewrite ?map_length; auto). ring. }
  rewrite E. destruct (Nat.eq_dec t 0) as [->|Nt]; [rewrite Hz by auto; ring|].
  assert (P : (0 < Qn t)%Q). { unfold Qn. change 0%Q with (inject_Z 0). rewrite <- Zlt_Qlt. lia. }
  assert (Es : (s == Qn t)%Q). { unfold s. destruct (Qeq_bool (Qsum l) 0) eqn:F; [apply Qeq_bool_iff in F; lra|exact Ht]. }
  assert (Ef : (factor == b / Qn t)%Q). { unfold factor. rewrite Es. reflexivity. }
  apply Qmult_comp; [reflexivity|]. unfold fa. destruct (Qle_bool 1 factor) eqn:F; cbn [negb].
  - apply Qle_bool_iff in F. rewrite Ef in F. assert (Qn t <= b)%Q.
    { apply (Qmult_le_compat_r _ _ (Qn t)) in F; [|lra]. assert (b / Qn t * Qn t == b)%Q by (field; lra). lra. }
    rewrite (proj2 (Qle_bool_iff _ _) H). reflexivity.
  - destruct (Qle_bool (Qn t) b) eqn:G; [|exact Ef]. apply Qle_bool_iff in G. exfalso.
    assert (1 <= factor)%Q; [|apply Qle_bool_iff in H; congruence]. rewrite Ef. apply Qle_shift_div_l; auto. lra.
Qed.

(** * One table of counts *)
Lemma enum_nth A (l : list A) i x : nth_error l i = Some x -> In (i, x) (combine (seq 0 (length l)) l).
Proof.
  assert (H : forall k, nth_error l i = Some x -> In (k + i, x) (combine (seq k (length l)) l)).
  { revert i. induction l as [|a l IH]; intros [|i] k H; try discriminate; cbn [length seq combine].
    - injection H as ->. left. f_equal. lia.
    - right. replace (k + S i) with (S k + i) by lia. apply IH. exact H. }
  apply (H 0).
Qed.
Lemma map_snd_enum A (l : list A) : forall k, map snd (combine (seq k (length l)) l) = l.
Proof. induction l as [|a l IH]; intros k; [reflexivity|]. cbn [length seq combine map snd]. f_equal. apply IH. Qed.
Lemma counts_of_spec m n data fs enc c0 mx members f st raw s : table m data -> table n fs -> (forall b, mx = Some b -> 0 <= b)%Q ->
  encode_states n data fs = Some enc -> In (f, st) fs -> get_col data f = Some raw -> In (Some s) st ->
  exists q, lookup2 (counts_of n fs enc c0 mx members) f s = Some q /\
    (q == c0 + Qn (n_sel s members raw) * shrink mx (n_sel_known members raw))%Q.
Proof.
  intros [_ Hd] [Hfs Hlen] Hb He Hin Hraw Hs. apply In_nth_error in Hin as (i & Hi).
  destruct (encode_states_inv He) as (_ & Hnames & Hinv). destruct (Hinv i f st Hi) as (raw' & vals & Hr & Hv & Hn).
  rewrite Hraw in Hr. injection Hr as <-. destruct (encode_feature_rows Hv) as [-> Hsub].
  assert (Hst : length st = n). { rewrite Forall_forall in Hlen. apply (Hlen (f, st)). eapply nth_error_In; eauto. }
  assert (Hle : length (dropna st) <= n) by (rewrite <- Hst; apply dropna_length).
  apply dropna_In in Hs. destruct (last_index_from_some 0 Hs) as (j & Hj).
  assert (Hjn : j < n). { assert (j < length (dropna st)) by (apply nth_error_Some; rewrite (@ext_inv _ s j Hj); discriminate). lia. }
  unfold counts_of, counts_dict, lookup2. rewrite get_dict_of.
  set (counts := scaled mx (map (state_counts n members) (enc_values enc))).
  set (row := fun i_f => dict_of (map (fun '(i_s, state) => (state, (c0 + nth i_s (nth i_f counts []) 0)%Q)) (combine (seq 0 (length (nth i_f (enc_names enc) []))) (nth i_f (enc_names enc) [])))).
  rewrite (@last_row_NoDup _ _ f (row i)).
  2:{ rewrite map_map. rewrite (map_ext _ snd) by (intros [a b]; reflexivity). rewrite map_snd_enum. exact Hfs. }
  2:{ apply in_map_iff. exists (i, f). split; [reflexivity|]. apply enum_nth. rewrite nth_error_map, Hi. reflexivity. }
  unfold row. rewrite get_dict_of. assert (En : nth i (enc_names enc) [] = dropna st).
  { apply nth_error_nth. rewrite Hnames, nth_error_map, Hi. reflexivity. }
  rewrite En, (last_row_enum (fun i_s => (c0 + nth i_s (nth i counts []) 0)%Q)), Hj. cbn [option_map]. eexists. split; [reflexivity|].
  apply Qplus_comp; [reflexivity|].
  assert (Ec : nth i counts [] = scaled_row mx (state_counts n members (map (enc_row n (dropna st)) raw))).
  { apply nth_error_nth. unfold counts. rewrite scaled_rows, !nth_error_map, Hn. reflexivity. }
  assert (Ej : nth j (state_counts n members (map (enc_row n (dropna st)) raw)) 0%Q = Qn (n_sel s members raw)).
  { rewrite nth_state_counts by auto. f_equal. apply count_at; auto. }
  rewrite Ec, nth_scaled_row with (t := n_sel_known members raw); auto.
  - rewrite Ej. reflexivity.
  - unfold state_counts.
    rewrite (Qsum_Qn (seq 0 n) (fun s => length (filter (fun '(m, v) => m && nth s v false) (combine members (map (enc_row n (dropna st)) raw))))).
    rewrite total_at by auto. reflexivity.
  - intros E. rewrite Ej. apply Qn_zero. pose proof (n_sel_le s members raw). lia.
Qed.
Lemma n_sel_all m s raw : length raw = m -> n_sel s (repeat true m) raw = n_with s raw /\ n_sel_known (repeat true m) raw = n_known raw.
Proof.
  intros <-. unfold n_known. induction raw as [|v raw [IH1 IH2]]; [split; reflexivity|]. cbn [length repeat n_sel n_sel_known n_with dropna].
  rewrite IH1, IH2. destruct v; split; reflexivity.
Qed.
Lemma n_sel_family g s fam raw : let members := map (fun v => match v with Some x => str_eqb x g | None => false end) fam in
  n_sel s members raw = n_with_in g s fam raw /\ n_sel_known members raw = n_known_in g fam raw.
Proof.
  cbv zeta. revert raw. induction fam as [|v fam IH]; intros [|w raw]; try (split; reflexivity). cbn [map n_sel n_sel_known n_with_in n_known_in].
  destruct (IH raw) as [-> ->]. destruct v as [h|], w as [y|]; split; reflexivity.
Qed.
Lemma families_sum gs s fam raw : NoDup gs -> (forall g, In (Some g) fam -> In g gs) ->
  list_sum (map (fun g => n_with_in g s fam raw) gs) = n_with_any s fam raw.
Proof.
  intros Hg. revert raw. induction fam as [|v fam IH]; intros raw Hin; [apply list_sum_zero; reflexivity|].
  destruct raw as [|w raw]; [apply list_sum_zero; reflexivity|]. cbn [n_with_in n_with_any]. rewrite list_sum_add, IH by (intros; apply Hin; right; auto).
  f_equal. destruct v as [h|]; [|apply list_sum_zero; reflexivity]. destruct w as [y|]; [|apply list_sum_zero; reflexivity].
  destruct (str_eqb y s); [|apply list_sum_zero; intros; rewrite Bool.andb_false_r; reflexivity].
  specialize (Hin h (or_introl eq_refl)). clear IH. induction Hg as [|g gs Hg' Hgs IH]; [destruct Hin|]. cbn [map list_sum fold_right].
  destruct (str_eqb h g) eqn:E; cbn [andb].
  - apply str_eqb_eq in E as ->. change (1 + list_sum (map (fun g0 => if str_eqb g g0 && true then 1 else 0) gs) = 1). rewrite list_sum_zero; auto.
    intros a Ha. replace (str_eqb g a) with false; auto. symmetry. apply str_eqb_neq. intros ->. contradiction.
  - apply IH. destruct Hin as [->|Hin]; auto. rewrite str_eqb_refl in E. discriminate.
Qed.

(** * Reading *)
Lemma parse_iff ini names d : (exists c, parse_concentration_dict ini names d = Some c) <->
  forall f states s, In (f, states) names -> In s states -> lookup2 d f s <> None.
Proof.
  unfold parse_concentration_dict, lookup2. split.
  - intros (c & H) f states s Hf Hs. apply all_opt'_Forall2 in H. apply In_nth_error in Hf as (i & Hi).
    destruct (@L_data.Forall2_nth _ _ _ _ _ i _ H (map_nth_error _ _ _ Hi)) as (row & _ & Hrow). cbv beta iota in Hrow.
    apply all_opt'_Forall2 in Hrow. apply In_nth_error in Hs as (j & Hj).
    destruct (@L_data.Forall2_nth _ _ _ _ _ j _ Hrow (map_nth_error _ _ _ Hj)) as (q & _ & Hq). destruct (get_col d f); [|discriminate].
    intros E. rewrite E in Hq. discriminate.
  - intros H. apply all_opt'_some, Forall_map, Forall_forall. intros [f states] Hf.
    match goal with |- all_opt' ?l <> None => destruct (@all_opt'_some _ l) as (r & Hr) end; [|rewrite Hr; discriminate].
    apply Forall_map, Forall_forall. intros s Hs. specialize (H f states s Hf Hs). destruct (get_col d f); [|contradiction].
    destruct (get_col d0 s); [discriminate|contradiction].
Qed.
Lemma parse_values ini names d c : parse_concentration_dict ini names d = Some c -> length c = length names /\
  forall i f states, nth_error names i = Some (f, states) -> exists row, nth_error c i = Some row /\ length row = length states /\
    forall j s, nth_error states j = Some s -> exists q, lookup2 d f s = Some q /\ nth_error row j = Some (ini + q)%Q.
Proof.
  unfold parse_concentration_dict, lookup2. intros H. apply all_opt'_Forall2 in H. split.
  - assert (L : forall A B (R : A -> B -> Prop) l r, Forall2 R l r -> length l = length r) by (intros A B R l r F; induction F; simpl; auto).
    apply L in H. rewrite map_length in H. auto.
  - intros i f states Hi. destruct (@L_data.Forall2_nth _ _ _ _ _ i _ H (map_nth_error _ _ _ Hi)) as (row & Hrow & E). cbv beta iota in E.
    exists row. apply all_opt'_Forall2 in E. split; [exact Hrow|]. split.
    + assert (L : forall A B (R : A -> B -> Prop) l r, Forall2 R l r -> length l = length r) by (intros A B R l r F; induction F; simpl; auto).
      apply L in E. rewrite map_length in E. auto.
    + intros j s Hj. destruct (@L_data.Forall2_nth _ _ _ _ _ j _ E (map_nth_error _ _ _ Hj)) as (x & Hx & Ex). destruct (get_col d f) as [r|]; [|discriminate].
      destruct (get_col r s) as [q|]; [|discriminate]. injection Ex as <-. exists q. auto.
Qed.
Lemma convert_lookup cols rows f s : NoDup cols -> lookup2 (convert_csv cols rows) f s = cell cols rows f s.
Proof.
  intros Hc. unfold convert_csv, lookup2, cell. rewrite get_dict_of.
  set (g := fun cells : list (option Q) => dict_of (flat_map (fun '(k, v) => match v with Some q => [(k, q)] | None => [] end) (combine cols cells))).
  assert (E : last_row f (map (fun '(feature, cells) => (feature, g cells)) rows) = option_map g (last_row f rows)).
  { induction rows as [|[k c] rows IH]; [reflexivity|]. cbn [map last_row]. rewrite IH. destruct (last_row f rows); [reflexivity|]. cbn [option_map]. destruct (str_eqb f k); reflexivity. }
  change (match last_row f (map (fun '(feature, cells) => (feature, g cells)) rows) with Some row => get_col row s | None => None end =
    match last_row f rows with Some cells => match get_col (combine cols cells) s with Some (Some q) => Some q | _ => None end | None => None end).
  rewrite E. destruct (last_row f rows) as [cells|]; [|reflexivity]. cbn [option_map]. unfold g. rewrite get_dict_of. clear E g. revert cells.
  induction Hc as [|k cols Hk Hc IH]; intros [|v cells]; try reflexivity. cbn [combine flat_map get_col].
  assert (N : forall cells, ~ In s cols -> last_row s (flat_map (fun '(k, v) => match v with Some q => [(k, q)] | None => [] end) (combine cols cells)) = @None Q).
  { intros cs Hs. rewrite IH. destruct (get_col (combine cols cs) s) eqn:F; [|reflexivity]. apply get_col_In in F. destruct Hs. eapply in_combine_l; eauto. }
  destruct (str_eqb s k) eqn:E.
  - apply str_eqb_eq in E as ->. destruct v as [q|]; cbn [app last_row]; rewrite (N cells Hk); [rewrite str_eqb_refl|]; reflexivity.
  - rewrite <- IH. destruct v as [q|]; cbn [app last_row]; [|reflexivity]. rewrite E. destruct (last_row s _); reflexivity.
Qed.
