(** Lemmas on the names that the results reader finds in the header of the parameter log. *)
From Verif Require Export L_params_log.
Set Implicit Arguments.
Unset Strict Implicit.

Definition add_new (acc : list str) (x : str) : list str := if mem x acc then acc else acc ++ [x].
Definition dedup (acc l : list str) : list str := fold_left add_new l acc.
Lemma mem_false x l : mem x l = false <-> ~ In x l.
Proof. rewrite <- mem_In. destruct (mem x l); split; congruence. Qed.
Lemma dedup_old l : forall acc, incl l acc -> dedup acc l = acc.
Proof.
  induction l as [|x l IH]; intros acc H; simpl; auto.
  unfold add_new at 1. rewrite (proj2 (mem_In x acc)) by (apply H; left; auto). apply IH. intros y Hy. apply H. right; auto.
Qed.
Lemma dedup_app l m acc : dedup acc (l ++ m) = dedup (dedup acc l) m.
Proof. apply fold_left_app. Qed.
Lemma dedup_new l : forall acc, NoDup (acc ++ l) -> dedup acc l = acc ++ l.
Proof.
  induction l as [|x l IH]; intros acc H; simpl; [rewrite app_nil_r; auto|].
  unfold add_new at 1. rewrite (proj2 (mem_false x acc)).
  - rewrite IH; rewrite <- app_assoc; auto.
  - apply NoDup_remove_2 in H. intros Hin. apply H. apply in_app_iff; auto.
Qed.
Lemma dedup_blocks A (L : A -> list str) (key : A -> str) (gs : list A) : forall acc,
  NoDup (acc ++ map key gs) -> (forall g, In g gs -> L g <> [] /\ Forall (eq (key g)) (L g)) ->
  dedup acc (flat_map L gs) = acc ++ map key gs.
Proof.
  induction gs as [|g gs IH]; intros acc HN HL; simpl; [rewrite app_nil_r; auto|].
  rewrite dedup_app. simpl in HN.
  replace (dedup acc (L g)) with (acc ++ [key g]).
  - rewrite IH; try (rewrite <- app_assoc; auto). intros g' Hg'. apply HL. right; auto.
  - destruct (HL g (or_introl eq_refl)) as (Hne & HF). destruct (L g) as [|x l]; [congruence|].
    inversion HF as [|? ? E HF']; subst. simpl. unfold add_new at 1. rewrite (proj2 (mem_false _ _)).
    + rewrite dedup_old; auto. intros y Hy. rewrite Forall_forall in HF'. rewrite <- (HF' y Hy). apply in_app_iff; simpl; auto.
    + apply NoDup_remove_2 in HN. intros Hin. apply HN. apply in_app_iff; auto.
Qed.
Lemma map_filter A B (f : A -> B) (p : B -> bool) (q : A -> bool) l : (forall x, In x l -> p (f x) = q x) ->
  filter p (map f l) = map f (filter q l).
Proof.
  induction l as [|x l IH]; intros H; simpl; auto. rewrite H by (left; auto). rewrite IH by (intros; apply H; right; auto).
  destruct (q x); reflexivity.
Qed.
Lemma filter_none A (p : A -> bool) l : (forall x, In x l -> p x = false) -> filter p l = [].
Proof. induction l as [|x l IH]; intros H; simpl; auto. rewrite H by (left; auto). apply IH. intros; apply H; right; auto. Qed.
Lemma filter_all A (p : A -> bool) l : (forall x, In x l -> p x = true) -> filter p l = l.
Proof. induction l as [|x l IH]; intros H; simpl; auto. rewrite H by (left; auto). f_equal. apply IH. intros; apply H; right; auto. Qed.
Lemma filter_flat_map A B (p : B -> bool) (f : A -> list B) l : filter p (flat_map f l) = flat_map (fun x => filter p (f x)) l.
Proof. induction l; simpl; auto. rewrite filter_app. congruence. Qed.
Lemma filter_map' A B (f : A -> B) (p : B -> bool) l : filter p (map f l) = map f (filter (fun x => p (f x)) l).
Proof. apply map_filter. auto. Qed.

(** Groups: the second parts of the matching columns, without repetitions. *)
Definition second (key : str) : str := nth 1 (split_max 2 underscore key) [].
Lemma find_groups_spec prefix cols : forall acc,
  (forall key, In key cols -> startswith prefix key = true -> length (split_max 2 underscore key) = 3) ->
  find_groups prefix cols acc = Some (dedup acc (map second (filter (startswith prefix) cols))).
Proof.
  induction cols as [|key cols IH]; intros acc H; [reflexivity|]. cbn [find_groups filter].
  destruct (startswith prefix key) eqn:E.
  - specialize (H key (or_introl eq_refl) E) as H3. cbn [map].
    replace (second key) with (nth 1 (split_max 2 underscore key) []) by reflexivity.
    destruct (split_max 2 underscore key) as [|a [|b [|c [|e r]]]]; simpl in H3; try lia. cbn [nth].
    rewrite IH by (intros; apply H; auto; right; auto). reflexivity.
  - apply IH. intros; apply H; auto; right; auto.
Qed.
Lemma find_confounders_spec cols : forall acc,
  (forall key, In key cols -> startswith (s_ "w_") key = true -> length (split_max 2 underscore key) = 3) ->
  find_confounders cols acc = Some (dedup acc (filter (fun c => negb (str_eqb c (s_ "areal"))) (map second (filter (startswith (s_ "w_")) cols)))).
Proof.
  induction cols as [|key cols IH]; intros acc H; [reflexivity|]. cbn [find_confounders filter].
  destruct (startswith (s_ "w_") key) eqn:E.
  - specialize (H key (or_introl eq_refl) E) as H3. cbn [map filter].
    replace (second key) with (nth 1 (split_max 2 underscore key) []) by reflexivity.
    destruct (split_max 2 underscore key) as [|a [|b [|c [|e r]]]]; simpl in H3; try lia. cbn [nth].
    destruct (str_eqb b (s_ "areal")); cbn [negb].
    + apply IH. intros; apply H; auto; right; auto.
    + change (dedup acc (b :: ?l)) with (dedup (add_new acc b) l).
      unfold add_new at 1. destruct (mem b acc); apply IH; intros; apply H; auto; right; auto.
  - apply IH. intros; apply H; auto; right; auto.
Qed.

(** Which columns start with [x_]? *)
Lemma starts_pieces d c x : clean_names d -> plain x ->
  startswith (x ++ [underscore]) (column_name d c) = match pieces d c with p :: _ :: _ => str_eqb x p | _ => false end.
Proof.
  intros H Hx. rewrite name_join. destruct (pieces_plain c H) as (H1 & H2).
  destruct (pieces d c) as [|p [|q l]] eqn:E.
  - simpl. destruct x; reflexivity.
  - destruct (startswith (x ++ [underscore]) (join [underscore] [p])) eqn:Es; auto.
    apply startswith_spec in Es. destruct Es as (r & Es). simpl in Es. exfalso.
    assert (Hp : Forall plain [p]) by (apply H2; simpl; lia). inversion Hp as [|? ? Hpl _]; subst. apply Hpl.
    rewrite <- app_assoc. apply in_app_iff. right. left. reflexivity.
  - cbn [removelast] in H1. inversion H1 as [|? ? Hp _]; subst.
    change (join [underscore] (p :: q :: l)) with (p ++ underscore :: join [underscore] (q :: l)).
    destruct (str_eqb x p) eqn:Ex.
    + apply str_eqb_eq in Ex. subst p.
      change (underscore :: join [underscore] (q :: l)) with ([underscore] ++ join [underscore] (q :: l)).
      rewrite app_assoc. apply startswith_app.
    + destruct (startswith (x ++ [underscore]) (p ++ underscore :: join [underscore] (q :: l))) eqn:Es; auto.
      apply startswith_sep in Es; auto. subst p. rewrite str_eqb_refl in Ex. discriminate.
Qed.
Lemma second_pieces d c p q r l : clean_names d -> pieces d c = p :: q :: r :: l ->
  split_max 2 underscore (column_name d c) = [p; q; join [underscore] (r :: l)].
Proof.
  intros H E. rewrite name_join, E. destruct (pieces_plain c H) as (H1 & H2). rewrite E in *.
  cbn [removelast] in H1. inversion H1 as [|? ? Hp Ht]; subst.
  assert (Hq : plain q).
  { destruct l as [|s l]; [assert (HF : Forall plain [p; q; r]) by (apply H2; simpl; lia); inversion HF as [|? ? _ HF']; inversion HF'; auto|]. inversion Ht; auto. }
  change (join [underscore] (p :: q :: r :: l)) with (p ++ underscore :: q ++ underscore :: join [underscore] (r :: l)).
  apply split2_app; auto.
Qed.

Section Reader.
Variable d : names.
Variable K : nat.
Hypothesis Hclean : clean_names d.
Hypothesis Hres : no_reserved d.
Hypothesis Hinh : inhabited_names d.

Definition sel (x : str) (c : column) : bool := match pieces d c with p :: _ :: _ => str_eqb x p | _ => false end.
Lemma filter_cols x : plain x -> filter (startswith (x ++ [underscore])) (column_names d K) = map (column_name d) (filter (sel x) (columns d K)).
Proof. intros Hx. rewrite column_names_spec. apply map_filter. intros c _. apply starts_pieces; auto. Qed.
Lemma not_reserved c : c < length (d_confs d) -> ~ In (confounder d c) (map s_ ["w"; "size"; "post"; "lh"; "prior"]%string).
Proof.
  intros Hc. unfold no_reserved in Hres. rewrite Forall_forall in Hres. unfold confounder.
  specialize (Hres (nth c (d_confs d) ([], [])) (nth_In _ _ Hc)). destruct (nth c (d_confs d) ([], [])). exact Hres.
Qed.
Lemma feature_inhabited : exists f, f < length (d_features d).
Proof. destruct Hinh as (H & _). destruct (d_features d); [congruence|]. exists 0. simpl. lia. Qed.
Lemma states_inhabited f : f < length (d_features d) -> 0 < length (states d f).
Proof.
  intros Hf. destruct Hinh as (_ & H). rewrite Forall_forall in H. destruct Hclean as (El & _).
  assert (Hin : In (states d f) (d_states d)) by (apply nth_In; lia). specialize (H _ Hin).
  destruct (states d f); [congruence|simpl; lia].
Qed.
Definition conf_cols (c : nat) : list column :=
  flat_map (fun g => flat_map (fun f => map (CConf c g f) (seq 0 (length (states d f)))) (seq 0 (length (d_features d)))) (seq 0 (length (groups d c))).
Definition areal_cols (a : nat) : list column :=
  flat_map (fun f => map (CAreal a f) (seq 0 (length (states d f)))) (seq 0 (length (d_features d))).
Lemma eqb_false (a b : str) : a <> b -> str_eqb a b = false.
Proof. intros H. destruct (str_eqb a b) eqn:E; auto. apply str_eqb_eq in E. contradiction. Qed.
Lemma filter_sel x : filter (sel x) (columns d K) =
  (if str_eqb x (s_ "size") then map CSize (seq 0 K) else []) ++
  (if str_eqb x (s_ "w") then flat_map (fun f => map (CWeight f) (seq 0 (1 + length (d_confs d)))) (seq 0 (length (d_features d))) else []) ++
  (if str_eqb x (s_ "areal") then flat_map areal_cols (seq 0 K) else []) ++
  flat_map (fun c => if str_eqb x (confounder d c) then conf_cols c else []) (seq 0 (length (d_confs d))) ++
  filter (sel x) (flat_map (fun i => [CPostA i; CLhA i; CPriorA i]) (seq 0 K)).
Proof.
  assert (Hif : forall (b : bool) l, (forall c, In c l -> sel x c = b) -> filter (sel x) l = if b then l else []).
  { intros [|] l H; [apply filter_all|apply filter_none]; exact H. }
  unfold columns. rewrite !filter_app. rewrite (@Hif false [CSample; CPosterior; CLikelihood; CPrior]).
  2:{ intros c [<-|[<-|[<-|[<-|[]]]]]; reflexivity. }
  cbn [app]. f_equal; [|f_equal; [|f_equal; [|f_equal]]].
  - apply Hif. intros c Hc. in_cols. reflexivity.
  - apply Hif. intros c Hc. in_cols. reflexivity.
  - apply Hif. intros c Hc. in_cols. unfold areal_cols in Hc. in_cols. reflexivity.
  - rewrite filter_flat_map. apply flat_map_ext_in. intros c _. apply Hif. intros c' Hc. unfold conf_cols in Hc. in_cols. reflexivity.
Qed.
Lemma filter_tail x : ~ In x (map s_ ["post"; "lh"; "prior"]%string) ->
  filter (sel x) (flat_map (fun i => [CPostA i; CLhA i; CPriorA i]) (seq 0 K)) = [].
Proof.
  intros Hx. apply filter_none. intros c Hc. in_cols.
  simpl map in Hx. destruct Hc as [<-|[<-|[<-|[]]]]; unfold sel; cbn [pieces]; apply eqb_false; intros ->; apply Hx; simpl; auto.
Qed.
Lemma areal_names : get_cluster_names (column_names d K) = Some (map (fun i => s_ "a" ++ str_nat (i + 1)) (seq 0 K)).
Proof.
  unfold get_cluster_names. change (s_ "areal_") with (s_ "areal" ++ [underscore]).
  assert (Hp : plain (s_ "areal")) by (apply literal_plain; reflexivity).
  assert (Ef : filter (startswith (s_ "areal" ++ [underscore])) (column_names d K) = map (column_name d) (flat_map areal_cols (seq 0 K))).
  { rewrite filter_cols by auto. f_equal. rewrite filter_sel. rewrite filter_tail by (simpl; intros [H|[H|[H|[]]]]; discriminate).
    change (str_eqb (s_ "areal") (s_ "size")) with false. change (str_eqb (s_ "areal") (s_ "w")) with false.
    rewrite str_eqb_refl. cbn [app]. rewrite app_nil_r.
    replace (flat_map _ (seq 0 (length (d_confs d)))) with (@nil column); [rewrite app_nil_r; reflexivity|].
    symmetry. induction (seq 0 (length (d_confs d))) as [|c l IH]; simpl; auto. rewrite eqb_false; auto.
    intros E. apply (@conf_not_areal d c Hclean). auto. }
  rewrite find_groups_spec.
  - f_equal. rewrite Ef. rewrite map_map, map_flat_map. apply dedup_blocks with (key := fun i => s_ "a" ++ str_nat (i + 1)).
    + simpl. apply FinFun.Injective_map_NoDup; [|apply seq_NoDup]. intros i j E. apply a_inj in E. lia.
    + intros a _. split.
      * destruct feature_inhabited as (f & Hf). assert (Hs := states_inhabited Hf).
        assert (Hin : In (CAreal a f 0) (areal_cols a)).
        { unfold areal_cols. apply in_flat_map. exists f. split; [apply in_seq; lia|]. apply in_map, in_seq. lia. }
        intros E. eapply in_map in Hin. rewrite E in Hin. destruct Hin.
      * apply Forall_map. apply Forall_forall. intros c Hc. unfold areal_cols in Hc. in_cols.
        unfold second. erewrite second_pieces; [|exact Hclean|reflexivity]. reflexivity.
  - intros key Hk Hs. assert (Hin : In key (filter (startswith (s_ "areal" ++ [underscore])) (column_names d K))) by (apply filter_In; auto).
    rewrite Ef in Hin. apply in_map_iff in Hin. destruct Hin as (c & <- & Hc). unfold areal_cols in Hc. in_cols.
    erewrite second_pieces; [|exact Hclean|reflexivity]. reflexivity.
Qed.
Lemma weights_filter : filter (startswith (s_ "w_")) (column_names d K) =
  map (column_name d) (flat_map (fun f => map (CWeight f) (seq 0 (1 + length (d_confs d)))) (seq 0 (length (d_features d)))).
Proof.
  change (s_ "w_") with (s_ "w" ++ [underscore]).
  assert (Hp : plain (s_ "w")) by (apply literal_plain; reflexivity).
  rewrite filter_cols by auto. f_equal. rewrite filter_sel. rewrite filter_tail by (simpl; intros [H|[H|[H|[]]]]; discriminate).
  change (str_eqb (s_ "w") (s_ "size")) with false. change (str_eqb (s_ "w") (s_ "areal")) with false.
  rewrite str_eqb_refl. cbn [app]. rewrite app_nil_r.
  replace (flat_map (fun c => if str_eqb (s_ "w") (confounder d c) then conf_cols c else []) (seq 0 (length (d_confs d)))) with (@nil column); [rewrite app_nil_r; reflexivity|].
  assert (Hall : forall c, In c (seq 0 (length (d_confs d))) -> c < length (d_confs d)) by (intros c Hc; apply in_seq in Hc; lia).
  induction (seq 0 (length (d_confs d))) as [|c l IH]; simpl; auto. rewrite eqb_false.
  - apply IH. intros; apply Hall; right; auto.
  - intros E. apply (@not_reserved c); [apply Hall; left; auto|]. rewrite <- E. left. reflexivity.
Qed.
Lemma confs_tab : map fst (d_confs d) = map (confounder d) (seq 0 (length (d_confs d))).
Proof. apply (map_tab fst (([], []) : str * list str)). Qed.
Lemma find_confs : find_confounders (column_names d K) [] = Some (map fst (d_confs d)).
Proof.
  assert (HN : NoDup (map fst (d_confs d))) by apply Hclean.
  rewrite find_confounders_spec.
  - f_equal. rewrite weights_filter. rewrite map_map, map_flat_map.
    rewrite filter_flat_map.
    rewrite (@flat_map_ext_in _ _ _ (fun _ => map fst (d_confs d))).
    + destruct feature_inhabited as (f & Hf). destruct (length (d_features d)) as [|nf]; [lia|].
      simpl. rewrite dedup_app. rewrite (@dedup_new (map fst (d_confs d)) []) by exact HN. cbn [app]. apply dedup_old.
      intros x Hx. apply in_flat_map in Hx. destruct Hx as (? & _ & Hx). exact Hx.
    + intros f _. rewrite map_map. cbn [Nat.add seq map filter].
      assert (E : forall c, second (column_name d (CWeight f c)) = component_name d c).
      { intros c. unfold second. erewrite second_pieces; [|exact Hclean|reflexivity]. reflexivity. }
      rewrite E. cbn [component_name]. rewrite str_eqb_refl. cbn [negb].
      rewrite <- seq_shift, map_map. rewrite (map_ext _ (confounder d)) by (intros c; apply E). rewrite <- confs_tab.
      apply filter_all. intros x Hx. rewrite confs_tab in Hx. apply in_map_iff in Hx. destruct Hx as (c & <- & _).
      rewrite eqb_false; auto. apply conf_not_areal, Hclean.
  - intros key Hk Hs. assert (Hin : In key (filter (startswith (s_ "w_")) (column_names d K))) by (apply filter_In; auto).
    rewrite weights_filter in Hin. apply in_map_iff in Hin. destruct Hin as (c & <- & Hc). in_cols.
    erewrite second_pieces; [|exact Hclean|reflexivity]. reflexivity.
Qed.
Lemma group_filter c : c < length (d_confs d) ->
  filter (startswith (confounder d c ++ [underscore])) (column_names d K) = map (column_name d) (conf_cols c).
Proof.
  intros Hc. assert (Hr := @not_reserved c Hc).
  rewrite filter_cols by apply (conf_clean c Hclean). f_equal. rewrite filter_sel.
  rewrite filter_tail by (intros H; apply Hr; simpl map in *; simpl In in *; tauto).
  rewrite !eqb_false by (try apply (conf_not_areal _ Hclean); intros E; apply Hr; rewrite E; simpl map; simpl In; tauto).
  rewrite (eqb_false (@conf_not_areal d c Hclean)).
  cbn [app]. rewrite app_nil_r.
  assert (Hseq : seq 0 (length (d_confs d)) = seq 0 c ++ c :: seq (S c) (length (d_confs d) - S c)).
  { replace (c :: seq (S c) (length (d_confs d) - S c)) with (seq (0 + c) (S (length (d_confs d) - S c))) by reflexivity.
    rewrite <- seq_app. f_equal. lia. }
  assert (Hout : forall l, (forall c', In c' l -> c' < length (d_confs d) /\ c' <> c) ->
    flat_map (fun c' => if str_eqb (confounder d c) (confounder d c') then conf_cols c' else []) l = []).
  { induction l as [|c' l IH]; intros H; simpl; auto. destruct (H c' (or_introl eq_refl)) as (Hl & Hn). rewrite eqb_false.
    - apply IH. intros; apply H; right; auto.
    - intros E. apply Hn. symmetry. apply (@conf_inj d); auto. }
  rewrite Hseq. rewrite flat_map_app. cbn [flat_map]. rewrite !Hout, str_eqb_refl.
  - rewrite app_nil_r. reflexivity.
  - intros c' H'. apply in_seq in H'. lia.
  - intros c' H'. apply in_seq in H'. lia.
Qed.
Lemma find_groups_conf c : c < length (d_confs d) ->
  find_groups (confounder d c ++ [underscore]) (column_names d K) [] = Some (groups d c).
Proof.
  intros Hc. rewrite find_groups_spec.
  - f_equal. rewrite group_filter by auto. rewrite map_map. unfold conf_cols. rewrite map_flat_map.
    rewrite (@dedup_blocks _ _ (group d c)).
    + simpl. unfold group. symmetry. apply list_tab. reflexivity.
    + simpl. unfold group. rewrite <- (list_tab ([] : str) (eq_refl (length (groups d c)))). apply (conf_clean c Hclean).
    + intros g _. split.
      * destruct feature_inhabited as (f & Hf). assert (Hs := states_inhabited Hf).
        match goal with |- map ?F ?L <> [] => assert (Hin : In (CConf c g f 0) L) end.
        { apply in_flat_map. exists f. split; [apply in_seq; lia|]. apply in_map, in_seq. lia. }
        intros E. eapply in_map in Hin. rewrite E in Hin. destruct Hin.
      * apply Forall_map. apply Forall_forall. intros x Hx. in_cols.
        unfold second. erewrite second_pieces; [|exact Hclean|reflexivity]. reflexivity.
  - intros key Hk Hs. assert (Hin : In key (filter (startswith (confounder d c ++ [underscore])) (column_names d K))) by (apply filter_In; auto).
    rewrite group_filter in Hin by auto. apply in_map_iff in Hin. destruct Hin as (x & <- & Hx). unfold conf_cols in Hx. in_cols.
    erewrite second_pieces; [|exact Hclean|reflexivity]. reflexivity.
Qed.
Lemma groups_by_confounder : get_groups_by_confounder (column_names d K) = Some (d_confs d).
Proof.
  unfold get_groups_by_confounder. rewrite find_confs. rewrite confs_tab, map_map.
  rewrite (@all_opt_map _ _ _ (fun c => (confounder d c, groups d c))).
  - f_equal. rewrite (list_tab (([], []) : str * list str) (eq_refl (length (d_confs d)))) at 2. apply map_ext. intros c.
    unfold confounder, groups. destruct (nth c (d_confs d) ([], [])); reflexivity.
  - intros c Hc. apply in_seq in Hc. rewrite find_groups_conf by lia. reflexivity.
Qed.

(** ** Features and states *)
Lemma add_state_last fs f ss s : ~ In f (map fst fs) -> add_state (fs ++ [(f, ss)]) f s = fs ++ [(f, ss ++ [s])].
Proof.
  intros H. unfold add_state. replace (existsb _ _) with true.
  - induction fs as [|(f', ss') fs IH]; simpl.
    + rewrite str_eqb_refl. reflexivity.
    + rewrite eqb_false by (intros ->; apply H; left; reflexivity). f_equal. apply IH. intros Hin. apply H. right; auto.
  - symmetry. apply existsb_exists. exists (f, ss). split; [apply in_app_iff; simpl; auto|apply str_eqb_refl].
Qed.
Lemma add_state_new fs f s : ~ In f (map fst fs) -> add_state fs f s = fs ++ [(f, [s])].
Proof.
  intros H. unfold add_state. replace (existsb _ _) with false; auto. symmetry.
  destruct (existsb _ fs) eqn:E; auto. apply existsb_exists in E. destruct E as ((f', ss') & Hin & E). apply str_eqb_eq in E. subst f'.
  exfalso. apply H. apply in_map_iff. exists (f, ss'). auto.
Qed.
Lemma add_states f : forall ss fs ss0, ~ In f (map fst fs) ->
  fold_left (fun acc s => add_state acc f s) ss (fs ++ [(f, ss0)]) = fs ++ [(f, ss0 ++ ss)].
Proof.
  induction ss as [|s ss IH]; intros fs ss0 H; simpl; [rewrite app_nil_r; auto|].
  rewrite add_state_last by auto. rewrite IH by auto. rewrite <- app_assoc. reflexivity.
Qed.
Lemma add_block f ss fs : ~ In f (map fst fs) -> ss <> [] -> fold_left (fun acc s => add_state acc f s) ss fs = fs ++ [(f, ss)].
Proof.
  intros H Hne. destruct ss as [|s ss]; [congruence|]. cbn [fold_left]. rewrite add_state_new by auto. rewrite add_states by auto. reflexivity.
Qed.
Lemma fold_flat_map A B C (F : C -> B -> C) (L : A -> list B) l : forall acc,
  fold_left F (flat_map L l) acc = fold_left (fun acc x => fold_left F (L x) acc) l acc.
Proof. induction l as [|x l IH]; intros acc; simpl; auto. rewrite fold_left_app. apply IH. Qed.
Lemma fold_left_map A B C (F : C -> B -> C) (g : A -> B) l : forall acc, fold_left F (map g l) acc = fold_left (fun acc x => F acc (g x)) l acc.
Proof. induction l as [|x l IH]; intros acc; simpl; auto. Qed.
Lemma add_blocks (fss : list (str * list str)) : forall fs, NoDup (map fst (fs ++ fss)) -> Forall (fun x => snd x <> []) fss ->
  fold_left (fun acc x => fold_left (fun acc s => add_state acc (fst x) s) (snd x) acc) fss fs = fs ++ fss.
Proof.
  induction fss as [|(f, ss) fss IH]; intros fs HN HF; simpl; [rewrite app_nil_r; auto|].
  inversion HF as [|? ? Hne HF']; subst. rewrite add_block; auto.
  - rewrite IH; auto; rewrite <- app_assoc; auto.
  - rewrite map_app in HN. simpl in HN. apply NoDup_remove_2 in HN. intros Hin. apply HN. apply in_app_iff; auto.
Qed.
Lemma fold_left_ext A B (F G : A -> B -> A) l : (forall a b, In b l -> F a b = G a b) -> forall acc, fold_left F l acc = fold_left G l acc.
Proof.
  induction l as [|x l IH]; intros H acc; simpl; auto. rewrite H by (left; auto). apply IH. intros; apply H; right; auto.
Qed.
Lemma areal_prefix a c : In c (columns d K) ->
  startswith ((s_ "areal" ++ underscore :: s_ "a" ++ str_nat (a + 1)) ++ [underscore]) (column_name d c) =
  match c with CAreal i _ _ => i =? a | _ => false end.
Proof.
  intros Hc. set (p := (s_ "areal" ++ underscore :: s_ "a" ++ str_nat (a + 1)) ++ [underscore]).
  assert (Hst : startswith p (column_name d c) = true -> sel (s_ "areal") c = true).
  { intros H. apply startswith_spec in H. destruct H as (r & H). unfold sel. rewrite <- starts_pieces; auto; [|apply literal_plain; reflexivity].
    rewrite H. unfold p. apply startswith_spec. eexists.
    change (underscore :: s_ "a" ++ str_nat (a + 1)) with ([underscore] ++ s_ "a" ++ str_nat (a + 1)). rewrite <- !app_assoc. reflexivity. }
  destruct c; try (destruct (startswith p _); auto; specialize (Hst eq_refl); discriminate Hst).
  - change (column_name d (CAreal cluster feature state)) with
      ((s_ "areal" ++ [underscore]) ++ (s_ "a" ++ str_nat (cluster + 1)) ++ underscore :: (S_loggers.feature d feature ++ [underscore] ++ S_loggers.state d feature state)).
    replace p with ((s_ "areal" ++ [underscore]) ++ (s_ "a" ++ str_nat (a + 1)) ++ [underscore]) by (unfold p; rewrite <- !app_assoc; reflexivity).
    assert (Hcut : forall x y z : str, startswith (x ++ y) (x ++ z) = startswith y z).
    { induction x as [|h x IH]; intros y z; simpl; auto. destruct (ascii_dec h h); [auto|congruence]. }
    rewrite Hcut. destruct (Nat.eqb_spec cluster a) as [->|Hn].
    + change (underscore :: ?l) with ([underscore] ++ l) at 2. rewrite app_assoc. apply startswith_app.
    + clear Hst. destruct (startswith _ _) eqn:E; auto. apply startswith_sep in E; try apply a_plain. apply a_inj in E. lia.
  - destruct (startswith p _); auto. specialize (Hst eq_refl). unfold sel in Hst. cbn [pieces] in Hst. apply str_eqb_eq in Hst.
    exfalso. apply (@conf_not_areal d confounder Hclean). auto.
Qed.
Lemma areal_filter a : a < K -> filter (fun c => match c with CAreal i _ _ => i =? a | _ => false end) (columns d K) = areal_cols a.
Proof.
  intros Ha. unfold columns. rewrite !filter_app.
  repeat match goal with |- context [filter ?p (map CSize ?l)] => rewrite (@filter_none _ p (map CSize l)) by (intros c Hc; in_cols; reflexivity) end.
  rewrite (@filter_none _ _ [CSample; CPosterior; CLikelihood; CPrior]) by (intros c [<-|[<-|[<-|[<-|[]]]]]; reflexivity).
  rewrite (@filter_none _ _ (flat_map (fun f => map (CWeight f) _) _)) by (intros c Hc; in_cols; reflexivity).
  rewrite (@filter_none _ _ (flat_map (fun c => flat_map (fun g => flat_map (fun f => map (CConf c g f) _) _) _) _)) by (intros c Hc; in_cols; reflexivity).
  rewrite (@filter_none _ _ (flat_map (fun i => [CPostA i; CLhA i; CPriorA i]) _)) by (intros c Hc; in_cols; destruct Hc as [<-|[<-|[<-|[]]]]; reflexivity).
  cbn [app]. rewrite !app_nil_r.
  replace (seq 0 K) with (seq 0 a ++ a :: seq (S a) (K - S a)).
  2:{ change (a :: seq (S a) (K - S a)) with (seq (0 + a) (S (K - S a))). rewrite <- seq_app. f_equal. lia. }
  rewrite flat_map_app. cbn [flat_map]. rewrite !filter_app.
  rewrite (@filter_none _ _ (flat_map _ (seq 0 a))) by (intros c Hc; in_cols; apply Nat.eqb_neq; lia).
  rewrite (@filter_none _ _ (flat_map _ (seq (S a) (K - S a)))) by (intros c Hc; in_cols; apply Nat.eqb_neq; lia).
  rewrite app_nil_r. cbn [app]. apply filter_all. intros c Hc. unfold areal_cols in Hc. in_cols. apply Nat.eqb_refl.
Qed.
Lemma features_states a : a < K ->
  extract_features_and_states (column_names d K) (s_ "areal_a" ++ str_nat (a + 1)) = combine (d_features d) (d_states d).
Proof.
  intros Ha. unfold extract_features_and_states. set (prefix := s_ "areal_a" ++ str_nat (a + 1)).
  rewrite column_names_spec.
  rewrite (@map_filter _ _ _ _ (fun c => match c with CAreal i _ _ => i =? a | _ => false end)).
  2:{ intros c Hc. change prefix with (s_ "areal" ++ underscore :: s_ "a" ++ str_nat (a + 1)). apply areal_prefix, Hc. }
  rewrite areal_filter by auto. rewrite fold_left_map. unfold areal_cols. rewrite fold_flat_map.
  transitivity (fold_left (fun acc x => fold_left (fun acc s => add_state acc (fst x) s) (snd x) acc)
    (map (fun f => (feature d f, states d f)) (seq 0 (length (d_features d)))) []).
  - rewrite fold_left_map. apply fold_left_ext. intros acc f _. rewrite fold_left_map. cbn [fst snd].
    rewrite (list_tab ([] : str) (eq_refl (length (states d f)))) at 2. rewrite fold_left_map. apply fold_left_ext. intros acc' x _.
    replace (skipn (length prefix + 1) (column_name d (CAreal a f x))) with (feature d f ++ underscore :: state d f x).
    + rewrite cut_app by apply (@feature_plain d f Hclean). reflexivity.
    + change (column_name d (CAreal a f x)) with (s_ "areal_a" ++ str_nat (a + 1) ++ underscore :: (feature d f ++ underscore :: state d f x)).
      rewrite app_assoc. fold prefix. rewrite skipn_app. rewrite skipn_all2 by lia.
      replace (length prefix + 1 - length prefix) with 1 by lia. reflexivity.
  - rewrite add_blocks.
    + simpl. destruct Hclean as (El & _). unfold feature, states. clear -El.
      revert El. generalize (d_states d). induction (d_features d) as [|f l IH]; intros [|x m] El; simpl in *; try lia; auto.
      f_equal. rewrite <- seq_shift, map_map. apply IH. lia.
    + simpl. rewrite map_map. cbn [fst]. unfold feature. rewrite <- (list_tab ([] : str) (eq_refl (length (d_features d)))). apply Hclean.
    + apply Forall_map. apply Forall_forall. intros f Hf. apply in_seq in Hf. cbn [snd]. assert (Hs := @states_inhabited f). intros E. rewrite E in Hs. simpl in Hs. lia.
Qed.
End Reader.

(** * Burn-in *)
Lemma burnin_index q n : (0 <= q)%Q -> (q <= 1)%Q ->
  exists i, Qtrunc (q * inject_Z (Z.of_nat n))%Q = Z.of_nat i /\ i <= n /\
    (inject_Z (Z.of_nat i) <= q * inject_Z (Z.of_nat n))%Q /\ (q * inject_Z (Z.of_nat n) < inject_Z (Z.of_nat i + 1))%Q.
Proof.
  intros H0 H1. unfold Qtrunc, Qle, Qlt in *. simpl in *. rewrite ?Z.mul_1_r in *. rewrite Pos.mul_1_r.
  set (a := (Qnum q * Z.of_nat n)%Z). set (b := Z.pos (Qden q)) in *. assert (Hb : (0 < b)%Z) by reflexivity.
  assert (Ha : (0 <= a)%Z) by (unfold a; nia).
  assert (Hq : Z.quot a b = (a / b)%Z) by (apply Z.quot_div_nonneg; auto).
  assert (Hle : (a <= b * Z.of_nat n)%Z) by (unfold a; nia).
  assert (Hd := Z.div_mod a b ltac:(lia)). assert (Hm := Z.mod_pos_bound a b Hb).
  assert (Hpos : (0 <= a / b)%Z) by (apply Z.div_pos; auto).
  exists (Z.to_nat (a / b)). rewrite Hq, Z2Nat.id by auto. conj; auto; nia.
Qed.
