(** Lemmas on the parameter log and on the names read back from it. *)
From Verif Require Export L_loggers.
Set Implicit Arguments.
Unset Strict Implicit.

Lemma mapi_from_tab A B (f : nat -> A -> B) d l : forall k,
  mapi_from k f l = map (fun i => f (k + i) (nth i l d)) (seq 0 (length l)).
Proof.
  induction l as [|x l IH]; intros k; simpl; auto. rewrite IH. f_equal; [f_equal; lia|].
  rewrite <- seq_shift, map_map. apply map_ext. intros i. f_equal. lia.
Qed.
Lemma mapi_tab A B (f : nat -> A -> B) d l : mapi f l = map (fun i => f i (nth i l d)) (seq 0 (length l)).
Proof. unfold mapi. rewrite (mapi_from_tab _ d). reflexivity. Qed.
Lemma map_tab A B (f : A -> B) d l : map f l = map (fun i => f (nth i l d)) (seq 0 (length l)).
Proof. rewrite (list_tab d (eq_refl (length l))) at 1. rewrite map_map. reflexivity. Qed.
Lemma flat_map_tab A B (f : A -> list B) d l : flat_map f l = flat_map (fun i => f (nth i l d)) (seq 0 (length l)).
Proof. rewrite !flat_map_concat_map, (map_tab _ d). reflexivity. Qed.
Lemma flat_map_ext_in A B (f g : A -> list B) l : (forall x, In x l -> f x = g x) -> flat_map f l = flat_map g l.
Proof. intros H. rewrite !flat_map_concat_map. f_equal. apply map_ext_in. exact H. Qed.
Lemma map_flat_map A B C (g : B -> C) (f : A -> list B) l : map g (flat_map f l) = flat_map (fun x => map g (f x)) l.
Proof. induction l; simpl; auto. rewrite map_app. congruence. Qed.

Lemma feature_states_tab d : feature_states d = map (fun i => (feature d i, states d i)) (seq 0 (length (d_features d))).
Proof. unfold feature_states. rewrite (mapi_tab _ ([] : str)). reflexivity. Qed.
Lemma flat_map_map A B C (f : B -> list C) (g : A -> B) l : flat_map f (map g l) = flat_map (fun x => f (g x)) l.
Proof. rewrite !flat_map_concat_map, map_map. reflexivity. Qed.

Lemma column_names_spec d K : column_names d K = map (column_name d) (columns d K).
Proof.
  unfold column_names, columns. rewrite !map_app. f_equal.
  f_equal; [rewrite map_map; reflexivity|].
  f_equal.
  { rewrite map_flat_map. rewrite (flat_map_tab _ ([] : str)). apply flat_map_ext_in. intros f _. rewrite map_map.
    cbn [Nat.add seq map]. f_equal. rewrite <- seq_shift, map_map. rewrite (map_tab _ (([], []) : str * list str)). apply map_ext. intros c.
    unfold column_name, component_name, confounder. destruct (nth c (d_confs d) ([], [])). reflexivity. }
  f_equal.
  { rewrite map_flat_map. apply flat_map_ext_in. intros a _. rewrite map_flat_map, feature_states_tab, flat_map_map.
    apply flat_map_ext_in. intros f _. rewrite map_map. rewrite (map_tab _ ([] : str)). apply map_ext. intros x.
    unfold areal_name, column_name, state. cbn [join]. rewrite <- !app_assoc. reflexivity. }
  f_equal.
  { rewrite map_flat_map, (flat_map_tab _ (([], []) : str * list str)). apply flat_map_ext_in. intros c _. unfold groups.
    destruct (nth c (d_confs d) ([], [])) as (cn & gs) eqn:Ec. cbn [snd].
    rewrite map_flat_map, (flat_map_tab _ ([] : str)). apply flat_map_ext_in. intros g _.
    rewrite map_flat_map, feature_states_tab, flat_map_map.
    apply flat_map_ext_in. intros f _. rewrite map_map. rewrite (map_tab _ ([] : str)). apply map_ext. intros x.
    unfold conf_name, column_name, state, confounder, group, groups. rewrite Ec. reflexivity. }
  rewrite map_flat_map. reflexivity.
Qed.

Section Values.
Variable d : names.
Variable single_lh single_prior : list (list Q) -> list (list effect) -> list bool -> effect -> Q.
Notation value := (column_value single_lh single_prior).
Notation item s := (fun c => (column_name d c, value s c)).
(** The columns in the order of the assignments. *)
Definition assigned (K : nat) : list column :=
  let nf := length (d_features d) in
  let feature_states mk := flat_map (fun f => map (mk f) (seq 0 (length (states d f)))) (seq 0 nf) in
  [CSample; CPosterior; CLikelihood; CPrior] ++
  map CSize (seq 0 K) ++
  flat_map (fun f => map (CWeight f) (seq 0 (1 + length (d_confs d)))) (seq 0 nf) ++
  flat_map (fun a => feature_states (CAreal a)) (seq 0 K) ++
  flat_map (fun c => flat_map (fun g => feature_states (CConf c g)) (seq 0 (length (groups d c)))) (seq 0 (length (d_confs d))) ++
  flat_map (fun i => [CLhA i; CPriorA i; CPostA i]) (seq 0 K).
Lemma assigned_perm K : Permutation (assigned K) (columns d K).
Proof.
  unfold assigned, columns. repeat apply Permutation_app_head.
  induction (seq 0 K) as [|i l IH]; simpl; auto.
  transitivity (CLhA i :: CPostA i :: CPriorA i :: flat_map (fun i => [CPostA i; CLhA i; CPriorA i]) l).
  - constructor. transitivity (CPriorA i :: CPostA i :: flat_map (fun i => [CPostA i; CLhA i; CPriorA i]) l).
    + do 2 constructor. exact IH.
    + constructor.
  - constructor.
Qed.
Lemma count_true l : length (filter (fun b : bool => b) l) = count_occ Bool.bool_dec l true.
Proof. induction l as [|[|] l IH]; simpl; auto. Qed.
Lemma row_items_spec s : row_items d single_lh single_prior s (ls_clusters s) (ls_ce s) = map (item s) (assigned (length (ls_clusters s))).
Proof.
  unfold row_items, assigned. rewrite !map_app. f_equal.
  f_equal.
  { rewrite (mapi_tab _ []), map_map. apply map_ext. intros i. rewrite count_true. reflexivity. }
  f_equal.
  { rewrite map_flat_map, flat_map_concat_map. f_equal. rewrite (mapi_tab _ ([] : str)). apply map_ext. intros f. rewrite map_map.
    cbn [Nat.add seq map]. f_equal. rewrite <- seq_shift, map_map. rewrite (mapi_tab _ (([], []) : str * list str)). apply map_ext. intros c.
    unfold column_name, component_name, confounder. destruct (nth c (d_confs d) ([], [])). reflexivity. }
  f_equal.
  { rewrite map_flat_map. apply flat_map_ext_in. intros a _. rewrite map_flat_map, flat_map_concat_map. f_equal.
    rewrite (mapi_tab _ (([], []) : str * list str)), feature_states_tab, map_length, seq_length. apply map_ext_in. intros f Hf. apply in_seq in Hf.
    rewrite (nth_indep _ _ ((fun i => (feature d i, states d i)) 0)) by (rewrite map_length, seq_length; lia). rewrite (map_nth (fun i => (feature d i, states d i))), seq_nth by lia.
    cbn [Nat.add]. rewrite map_map. rewrite (mapi_tab _ ([] : str)). apply map_ext. intros x.
    unfold areal_name, column_name, state. cbn [join]. rewrite <- !app_assoc. reflexivity. }
  f_equal.
  { rewrite map_flat_map, flat_map_concat_map. f_equal. rewrite (mapi_tab _ (([], []) : str * list str)). apply map_ext_in. intros c _. unfold groups.
    destruct (nth c (d_confs d) ([], [])) as (cn & gs) eqn:Ec. cbn [snd].
    rewrite map_flat_map, flat_map_concat_map. f_equal. rewrite (mapi_tab _ ([] : str)). apply map_ext. intros g.
    rewrite map_flat_map, flat_map_concat_map. f_equal.
    rewrite (mapi_tab _ (([], []) : str * list str)), feature_states_tab, map_length, seq_length. apply map_ext_in. intros f Hf. apply in_seq in Hf.
    rewrite (nth_indep _ _ ((fun i => (feature d i, states d i)) 0)) by (rewrite map_length, seq_length; lia). rewrite (map_nth (fun i => (feature d i, states d i))), seq_nth by lia.
    cbn [Nat.add]. rewrite map_map. rewrite (mapi_tab _ ([] : str)). apply map_ext. intros x.
    unfold conf_name, column_name, state, confounder, group, groups. rewrite Ec. reflexivity. }
  rewrite map_flat_map. reflexivity.
Qed.
Lemma dict_get_some items k v : In (k, v) items -> (forall w, In (k, w) items -> w = v) -> dict_get items k = Some v.
Proof.
  induction items as [|(k', v') r IH]; intros Hin Hu; [destruct Hin|]. simpl.
  destruct (dict_get r k) as [w|] eqn:E.
  - f_equal. apply Hu. right. clear -E. revert w E. induction r as [|(k2, v2) r IH]; simpl; [discriminate|]. intros w E.
    destruct (dict_get r k) as [x|]; [right; apply IH; congruence|].
    destruct (str_eqb k k2) eqn:Ek; [|discriminate]. apply str_eqb_eq in Ek. left. congruence.
  - destruct Hin as [Hin|Hin].
    + assert (k' = k) by congruence; assert (v' = v) by congruence; subst. rewrite str_eqb_refl. reflexivity.
    + exfalso. clear -E Hin. induction r as [|(k2, v2) r IH]; [destruct Hin|]. simpl in E.
      destruct (dict_get r k) as [x|]; [discriminate|]. destruct (str_eqb k k2) eqn:Ek; [discriminate|].
      destruct Hin as [Hin|Hin]; auto. injection Hin as <- <-. rewrite str_eqb_refl in Ek. discriminate.
Qed.
Lemma dict_get_in items k v : In (k, v) items -> dict_get items k <> None.
Proof.
  induction items as [|(k', v') r IH]; intros Hin; [destruct Hin|]. simpl.
  destruct (dict_get r k) as [w|] eqn:E; [discriminate|]. destruct Hin as [Hin|Hin].
  - injection Hin as <- <-. rewrite str_eqb_refl. discriminate.
  - exfalso. apply IH; auto.
Qed.
Lemma row_complete s c : In c (columns d (length (ls_clusters s))) ->
  dict_get (row_items d single_lh single_prior s (ls_clusters s) (ls_ce s)) (column_name d c) <> None.
Proof.
  intros Hc. eapply dict_get_in. rewrite row_items_spec. apply in_map_iff. exists c. split; [reflexivity|].
  eapply Permutation_in; [symmetry; apply assigned_perm|exact Hc].
Qed.
Lemma row_values_spec s c : distinct_names d (length (ls_clusters s)) -> In c (columns d (length (ls_clusters s))) ->
  dict_get (row_items d single_lh single_prior s (ls_clusters s) (ls_ce s)) (column_name d c) = Some (value s c).
Proof.
  intros Hd Hc. rewrite row_items_spec. apply dict_get_some.
  - apply in_map_iff. exists c. split; [reflexivity|]. eapply Permutation_in; [symmetry; apply assigned_perm|exact Hc].
  - intros w Hw. apply in_map_iff in Hw. destruct Hw as (c' & E & Hc').
    assert (En : column_name d c' = column_name d c) by congruence.
    eapply Permutation_in in Hc'; [|apply assigned_perm]. apply Hd in En; auto. subst c'. congruence.
Qed.
End Values.

(** * Clean names are distinct *)
Definition pieces (d : names) (c : column) : list str :=
  match c with
  | CSample => [s_ "Sample"] | CPosterior => [s_ "posterior"] | CLikelihood => [s_ "likelihood"] | CPrior => [s_ "prior"]
  | CSize i => [s_ "size"; s_ "a" ++ str_nat i]
  | CWeight f c => [s_ "w"; component_name d c; feature d f]
  | CAreal i f s => [s_ "areal"; s_ "a" ++ str_nat (i + 1); feature d f; state d f s]
  | CConf c g f s => [confounder d c; group d c g; feature d f; state d f s]
  | CPostA i => [s_ "post"; s_ "a" ++ str_nat i]
  | CLhA i => [s_ "lh"; s_ "a" ++ str_nat i]
  | CPriorA i => [s_ "prior"; s_ "a" ++ str_nat i]
  end.
Lemma name_join d c : column_name d c = join [underscore] (pieces d c).
Proof. destruct c; reflexivity. Qed.
(** The parts of a column: its indices are in range. *)
Definition col_ok (d : names) (K : nat) (c : column) : Prop :=
  match c with
  | CSample | CPosterior | CLikelihood | CPrior => True
  | CSize i | CPostA i | CLhA i | CPriorA i => i < K
  | CWeight f c => f < length (d_features d) /\ c < 1 + length (d_confs d)
  | CAreal i f s => i < K /\ f < length (d_features d) /\ s < length (states d f)
  | CConf c g f s => c < length (d_confs d) /\ g < length (groups d c) /\ f < length (d_features d) /\ s < length (states d f)
  end.
Ltac in_cols := repeat match goal with
  | H : In _ (_ ++ _) |- _ => apply in_app_iff in H; destruct H as [H|H]
  | H : In _ (map _ _) |- _ => apply in_map_iff in H; let x := fresh in destruct H as (x & <- & H)
  | H : In _ (flat_map _ _) |- _ => apply in_flat_map in H; let x := fresh "i" in let E := fresh "Hi" in destruct H as (x & E & H)
  | H : In _ (seq _ _) |- _ => apply in_seq in H
  end.
Lemma columns_ok d K c : In c (columns d K) -> col_ok d K c.
Proof.
  unfold columns. intros H. in_cols; try (simpl; lia).
  - simpl in H. destruct H as [<-|[<-|[<-|[<-|[]]]]]; exact I.
  - simpl in H. destruct H as [<-|[<-|[<-|[]]]]; simpl; lia.
Qed.
Lemma nth_plain (l : list str) i : Forall plain l -> plain (nth i l []).
Proof.
  intros H. destruct (nth_in_or_default i l []) as [Hi|Hi].
  - rewrite Forall_forall in H. auto.
  - rewrite Hi. intros [].
Qed.
Lemma feature_plain d f : clean_names d -> plain (feature d f).
Proof. intros (_ & _ & H & _). apply nth_plain, H. Qed.
Lemma conf_clean d c : clean_names d -> plain (confounder d c) /\ NoDup (groups d c) /\ Forall plain (groups d c).
Proof.
  intros (_ & _ & _ & _ & _ & H). unfold confounder, groups. destruct (nth_in_or_default c (d_confs d) ([], [])) as [Hi|Hi].
  - rewrite Forall_forall in H. specialize (H _ Hi). destruct (nth c (d_confs d) ([], [])). tauto.
  - rewrite Hi. simpl. conj; [intros []|constructor|constructor].
Qed.
Lemma conf_not_areal d c : clean_names d -> confounder d c <> s_ "areal".
Proof.
  intros (_ & _ & _ & _ & _ & H). unfold confounder. destruct (nth_in_or_default c (d_confs d) ([], [])) as [Hi|Hi].
  - rewrite Forall_forall in H. specialize (H _ Hi). destruct (nth c (d_confs d) ([], [])). tauto.
  - rewrite Hi. discriminate.
Qed.
Lemma group_plain d c g : clean_names d -> plain (group d c g).
Proof. intros H. apply nth_plain. apply conf_clean, H. Qed.
Lemma component_plain d c : clean_names d -> plain (component_name d c).
Proof.
  intros H. destruct c as [|c]; [|apply conf_clean, H]. intros Hin. simpl in Hin. repeat destruct Hin as [Hin|Hin]; try discriminate; auto.
Qed.
Lemma a_plain i : plain (s_ "a" ++ str_nat i).
Proof.
  intros Hin. apply in_app_iff in Hin. destruct Hin as [[Hin|[]]|Hin]; [discriminate|].
  revert Hin. apply str_nat_no. intros H. unfold digit_char in H. simpl in H. repeat destruct H as [H|H]; try discriminate; auto.
Qed.
Lemma literal_plain x : existsb (Ascii.eqb underscore) (s_ x) = false -> plain (s_ x).
Proof.
  intros H Hin. assert (existsb (Ascii.eqb underscore) (s_ x) = true); [|congruence].
  apply existsb_exists. exists underscore. split; auto.
Qed.
Lemma pieces_plain d c : clean_names d -> Forall plain (removelast (pieces d c)) /\ (length (pieces d c) < 4 -> Forall plain (pieces d c)).
Proof.
  intros H. destruct c; cbn [removelast pieces length];
    (split; [|intros Hl; try lia]); repeat (apply Forall_cons); try apply Forall_nil;
    try (apply literal_plain; reflexivity); auto using a_plain, component_plain, feature_plain, group_plain; apply conf_clean; auto.
Qed.
Lemma split_max_join n c : forall l, l <> [] -> length l <= n + 1 -> Forall (fun x => ~ In c x) (removelast l) ->
  (length l < n + 1 -> Forall (fun x => ~ In c x) l) -> split_max n c (join [c] l) = l.
Proof.
  induction n as [|n IH]; intros l Hne Hl Hr Ha.
  - destruct l as [|x [|y l]]; [congruence|reflexivity|simpl in Hl; lia].
  - destruct l as [|x [|y l]]; [congruence| |].
    + simpl in *. assert (HF : Forall (fun x => ~ In c x) [x]) by (apply Ha; lia). inversion HF; subst. rewrite cut_none; auto.
    + change (join [c] (x :: y :: l)) with (x ++ c :: join [c] (y :: l)). cbn [split_max].
      cbn [removelast] in Hr. inversion Hr as [|? ? Hx Hr']; subst.
      rewrite cut_app by auto. f_equal. apply IH; auto.
      * discriminate.
      * simpl in *. lia.
      * intros Hlt. simpl in *. assert (HF : Forall (fun x => ~ In c x) (x :: y :: l)) by (apply Ha; lia). inversion HF; auto.
Qed.
Lemma split_name d c : clean_names d -> split_max 3 underscore (column_name d c) = pieces d c.
Proof.
  intros H. rewrite name_join. destruct (pieces_plain c H) as (H1 & H2). apply split_max_join; auto.
  - destruct c; discriminate.
  - destruct c; simpl; lia.
Qed.
Lemma NoDup_nth_str (l : list str) i j : NoDup l -> i < length l -> j < length l -> nth i l [] = nth j l [] -> i = j.
Proof. intros H. apply NoDup_nth. exact H. Qed.
Lemma feature_inj d i j : clean_names d -> i < length (d_features d) -> j < length (d_features d) -> feature d i = feature d j -> i = j.
Proof. intros (_ & H & _). apply NoDup_nth_str, H. Qed.
Lemma state_inj d f i j : clean_names d -> i < length (states d f) -> j < length (states d f) -> state d f i = state d f j -> i = j.
Proof.
  intros (_ & _ & _ & H & _). apply NoDup_nth_str. unfold states.
  destruct (nth_in_or_default f (d_states d) []) as [Hi|Hi]; [rewrite Forall_forall in H; auto|rewrite Hi; constructor].
Qed.
Lemma group_inj d c i j : clean_names d -> i < length (groups d c) -> j < length (groups d c) -> group d c i = group d c j -> i = j.
Proof. intros H. apply NoDup_nth_str. apply conf_clean, H. Qed.
Lemma conf_inj d i j : clean_names d -> i < length (d_confs d) -> j < length (d_confs d) -> confounder d i = confounder d j -> i = j.
Proof.
  intros (_ & _ & _ & _ & H & _) Hi Hj E. eapply (proj1 (NoDup_nth _ (fst (([], []) : str * list str))) H); rewrite ?map_length; auto.
  rewrite !(map_nth fst). exact E.
Qed.
Lemma component_inj d i j : clean_names d -> i < 1 + length (d_confs d) -> j < 1 + length (d_confs d) -> component_name d i = component_name d j -> i = j.
Proof.
  intros H Hi Hj E. destruct i as [|i], j as [|j]; auto.
  - exfalso. apply (@conf_not_areal d j H). symmetry. exact E.
  - exfalso. apply (@conf_not_areal d i H). exact E.
  - f_equal. apply (@conf_inj d); auto; lia.
Qed.
Lemma a_inj i j : s_ "a" ++ str_nat i = s_ "a" ++ str_nat j -> i = j.
Proof. intros H. apply app_inv_head in H. apply str_nat_inj, H. Qed.
Lemma clean_distinct d K : clean_names d -> distinct_names d K.
Proof.
  intros H c c' Hc Hc' E. apply columns_ok in Hc. apply columns_ok in Hc'.
  assert (Ep : pieces d c = pieces d c') by (rewrite <- !split_name by auto; rewrite E; reflexivity). clear E.
  destruct c, c'; cbn [pieces] in Ep; try (exfalso; discriminate Ep); auto; cbn [col_ok] in *.
  all: try (assert (cluster = cluster0) by (apply a_inj; congruence); subst; reflexivity).
  - assert (feature = feature0) by (apply (@feature_inj d); auto; try tauto; congruence). subst feature0.
    assert (component = component0) by (apply (@component_inj d); auto; try tauto; congruence). subst. reflexivity.
  - assert (feature = feature0) by (apply (@feature_inj d); auto; try tauto; congruence). subst feature0.
    assert (state = state0) by (apply (@state_inj d feature); auto; try tauto; congruence). subst.
    assert (cluster + 1 = cluster0 + 1) by (apply a_inj; congruence). f_equal. lia.
  - exfalso. apply (@conf_not_areal d confounder H). congruence.
  - exfalso. apply (@conf_not_areal d confounder H). congruence.
  - assert (feature = feature0) by (apply (@feature_inj d); auto; try tauto; congruence). subst feature0.
    assert (state = state0) by (apply (@state_inj d feature); auto; try tauto; congruence). subst state0.
    assert (confounder = confounder0) by (apply (@conf_inj d); auto; try tauto; congruence). subst confounder0.
    assert (group = group0) by (apply (@group_inj d confounder); auto; try tauto; congruence). subst. reflexivity.
Qed.
