(** Lemmas for C82: order of paths, sorting, names of models, dictionary of results. *)
From Coq Require Import Permutation.
From Verif Require Import M_plot2 S_plot2 L_text L_data L_config.
Set Implicit Arguments.
Unset Strict Implicit.
Close Scope Q_scope.
Open Scope nat_scope.

Lemma path_eq a : forall b, path_cmp a b = Eq <-> a = b.
Proof.
  induction a as [|x a IH]; intros [|y b]; simpl; split; intros H; try discriminate; auto.
  - destruct (str_cmp x y) eqn:E; try discriminate. apply cmp_eq in E. apply IH in H. congruence.
  - injection H as -> ->. rewrite (proj2 (cmp_eq y y) eq_refl). apply IH. reflexivity.
Qed.
Lemma path_antisym a : forall b, path_cmp a b = CompOpp (path_cmp b a).
Proof.
  induction a as [|x a IH]; intros [|y b]; simpl; auto. rewrite (cmp_antisym x y). destruct (str_cmp y x); simpl; auto.
Qed.
Lemma path_lt_trans a : forall b c, path_cmp a b = Lt -> path_cmp b c = Lt -> path_cmp a c = Lt.
Proof.
  induction a as [|x a IH]; intros [|y b] [|z c] H1 H2; simpl in *; try discriminate; auto.
  destruct (str_cmp x y) eqn:E1; try discriminate; destruct (str_cmp y z) eqn:E2; try discriminate.
  - apply cmp_eq in E1, E2. subst y z. rewrite (proj2 (cmp_eq x x) eq_refl). eapply IH; eauto.
  - apply cmp_eq in E1. subst y. rewrite E2. reflexivity.
  - apply cmp_eq in E2. subst y. rewrite E1. reflexivity.
  - rewrite (L_data.lt_trans E1 E2). reflexivity.
Qed.

Lemma insert_comm a b l : insert_path a (insert_path b l) = insert_path b (insert_path a l).
Proof.
  induction l as [|q r IH]; simpl.
  - rewrite (path_antisym b a). destruct (path_cmp a b) eqn:E; simpl; auto. apply path_eq in E. subst. reflexivity.
  - destruct (path_cmp b q) eqn:Eb, (path_cmp a q) eqn:Ea; simpl; rewrite ?Ea, ?Eb;
      try (rewrite IH; reflexivity);
      try (rewrite (path_antisym b a); destruct (path_cmp a b) eqn:E; simpl; rewrite ?Ea, ?Eb; auto;
           apply path_eq in E; subst; reflexivity).
    + assert (E : path_cmp a b = Gt) by (apply path_eq in Eb; subst; auto). rewrite E. reflexivity.
    + assert (E : path_cmp a b = Gt). { rewrite path_antisym in Ea. rewrite path_antisym. destruct (path_cmp q a) eqn:E; try discriminate.
        rewrite (path_lt_trans Eb E). reflexivity. }
      rewrite E. reflexivity.
    + assert (E : path_cmp b a = Gt) by (apply path_eq in Ea; subst; auto). rewrite E. reflexivity.
    + assert (E : path_cmp b a = Gt). { rewrite path_antisym in Eb. rewrite path_antisym. destruct (path_cmp q b) eqn:E; try discriminate.
        rewrite (path_lt_trans Ea E). reflexivity. }
      rewrite E. reflexivity.
Qed.
Lemma sort_perm l l' : Permutation l l' -> sort_paths l = sort_paths l'.
Proof.
  induction 1; simpl; auto; try congruence. apply insert_comm.
Qed.

(** Sorting two lists of files by the same order of their models. *)
Fixpoint ins {A} (c : A -> A -> comparison) (p : A) (l : list A) : list A :=
  match l with [] => [p] | q :: r => match c p q with Gt => q :: ins c p r | _ => p :: q :: r end end.
Lemma ins_perm A (c : A -> A -> comparison) p l : Permutation (ins c p l) (p :: l).
Proof.
  induction l as [|q r IH]; simpl; auto. destruct (c p q); auto. transitivity (q :: p :: r); [constructor; auto|constructor].
Qed.
Lemma isort_perm A (c : A -> A -> comparison) l : Permutation (fold_right (ins c) [] l) l.
Proof. induction l as [|x l IH]; simpl; auto. rewrite ins_perm. constructor. auto. Qed.
Lemma insert_map A (f : A -> path) a l : insert_path (f a) (map f l) = map f (ins (fun x y => path_cmp (f x) (f y)) a l).
Proof. induction l as [|q r IH]; simpl; auto. destruct (path_cmp (f a) (f q)); simpl; auto. rewrite IH. reflexivity. Qed.
Lemma sort_map A (f : A -> path) l : sort_paths (map f l) = map f (fold_right (ins (fun x y => path_cmp (f x) (f y))) [] l).
Proof. induction l as [|x l IH]; simpl; auto. unfold sort_paths in *. rewrite IH. apply insert_map. Qed.
Lemma ins_ext A (c c' : A -> A -> comparison) p l : (forall q, In q l -> c p q = c' p q) -> ins c p l = ins c' p l.
Proof.
  induction l as [|q r IH]; simpl; intros H; auto. rewrite (H q) by auto. rewrite IH by auto. reflexivity.
Qed.
Lemma isort_ext A (c c' : A -> A -> comparison) l : (forall p q, In p l -> In q l -> c p q = c' p q) -> fold_right (ins c) [] l = fold_right (ins c') [] l.
Proof.
  induction l as [|x l IH]; simpl; intros H; auto. rewrite IH by auto. apply ins_ext. intros q Hq.
  apply H; auto. right. eapply Permutation_in; [apply isort_perm|exact Hq].
Qed.
Lemma combine_map2 A B C (f : A -> B) (g : A -> C) l : combine (map f l) (map g l) = map (fun x => (f x, g x)) l.
Proof. induction l; simpl; auto. rewrite IHl. reflexivity. Qed.
Lemma pairing A (f g : A -> path) l cs ss : Permutation cs (map f l) -> Permutation ss (map g l) ->
  (forall p q, In p l -> In q l -> path_cmp (f p) (f q) = path_cmp (g p) (g q)) ->
  exists l', Permutation l' l /\ combine (sort_paths cs) (sort_paths ss) = map (fun x => (f x, g x)) l'.
Proof.
  intros Hc Hs H. rewrite (sort_perm Hc), (sort_perm Hs), !sort_map. rewrite <- (@isort_ext _ _ _ _ H).
  eexists. conj; [apply isort_perm|]. apply combine_map2.
Qed.

Lemma cmp_common p a b : str_cmp (p ++ a) (p ++ b) = str_cmp a b.
Proof. induction p as [|x p IH]; simpl; auto. rewrite N.compare_refl. exact IH. Qed.
Lemma outside_cmp k x y : outside k -> str_cmp (s_ "clusters_" ++ x) k = str_cmp (s_ "stats_" ++ y) k.
Proof.
  intros H. destruct k as [|c k]; [reflexivity|]. specialize (H c k eq_refl).
  change (s_ "clusters_" ++ x) with ("c"%char :: s_ "lusters_" ++ x). change (s_ "stats_" ++ y) with ("s"%char :: s_ "tats_" ++ y).
  cbn [str_cmp]. assert (Hcs : (N_of_ascii "c" < N_of_ascii "s")%N) by reflexivity. destruct H as [H|H].
  - rewrite (proj2 (N.compare_gt_iff _ _) H). rewrite (proj2 (N.compare_gt_iff (N_of_ascii "s") (N_of_ascii c))); auto. eapply N.lt_trans; eauto.
  - rewrite (proj2 (N.compare_lt_iff _ _) H). rewrite (proj2 (N.compare_lt_iff (N_of_ascii "c") (N_of_ascii c))); auto. eapply N.lt_trans; eauto.
Qed.
Lemma names_cmp x y : forall d d', apart d d' -> apart d' d ->
  path_cmp (d ++ [s_ "clusters_" ++ x]) (d' ++ [s_ "clusters_" ++ y]) = path_cmp (d ++ [s_ "stats_" ++ x]) (d' ++ [s_ "stats_" ++ y]).
Proof.
  induction d as [|k d IH]; intros [|k' d'] H H'.
  - cbn [app path_cmp]. rewrite !cmp_common. reflexivity.
  - cbn [app path_cmp]. rewrite (@outside_cmp k' x x) by (apply (H k' d'); reflexivity).
    destruct (str_cmp (s_ "stats_" ++ x) k') eqn:E; auto. apply cmp_eq in E. destruct (H k' d' eq_refl "s"%char (s_ "tats_" ++ x)) as [C|C]; [|discriminate C|discriminate C].
    rewrite <- E. reflexivity.
  - cbn [app path_cmp]. rewrite (cmp_antisym k (s_ "clusters_" ++ y)), (cmp_antisym k (s_ "stats_" ++ y)). rewrite (@outside_cmp k y y) by (apply (H' k d); reflexivity).
    destruct (str_cmp (s_ "stats_" ++ y) k) eqn:E; auto. apply cmp_eq in E. destruct (H' k d eq_refl "s"%char (s_ "tats_" ++ y)) as [C|C]; [|discriminate C|discriminate C].
    rewrite <- E. reflexivity.
  - cbn [app path_cmp]. destruct (str_cmp k k') eqn:E; auto. apply cmp_eq in E. subst k'. apply IH.
    + intros q e ->. apply (H q e). reflexivity.
    + intros q e ->. apply (H' q e). reflexivity.
Qed.

(** Names. *)
Lemma last_dot_none l : forall i f, ~ In dot l -> last_dot l i f = f.
Proof.
  induction l as [|x l IH]; intros i f H; simpl; auto. destruct (ascii_dec x dot) as [E|E]; [exfalso; apply H; left; auto|].
  apply IH. intros C. apply H. right. auto.
Qed.
Lemma last_dot_at l : forall r i f, ~ In dot r -> last_dot (l ++ dot :: r) i f = Some (i + length l).
Proof.
  induction l as [|x l IH]; intros r i f H; cbn [app last_dot].
  - destruct (ascii_dec dot dot) as [_|C]; [|congruence]. rewrite last_dot_none by auto. cbn [length]. f_equal. lia.
  - rewrite IH by auto. cbn [length]. f_equal. lia.
Qed.
Lemma name_of d p x : ~ In underscore p -> model_name (d ++ [(p ++ [underscore]) ++ x ++ s_ ".txt"]) = x.
Proof.
  intros Hp. unfold model_name, stem. rewrite last_last.
  replace ((p ++ [underscore]) ++ x ++ s_ ".txt") with ((p ++ underscore :: x) ++ dot :: s_ "txt") by (rewrite <- !app_assoc; reflexivity).
  rewrite last_dot_at by (vm_compute; intuition discriminate). cbn [Nat.add].
  rewrite (proj2 (Nat.ltb_lt _ _)) by (rewrite app_length; cbn [length]; lia).
  rewrite (proj2 (Nat.ltb_lt _ _)) by (rewrite !app_length; cbn [length s_]; vm_compute (length (s_ "txt")); lia).
  cbn [andb]. rewrite firstn_app, firstn_all, Nat.sub_diag. cbn [firstn]. rewrite app_nil_r. rewrite cut_app by auto. reflexivity.
Qed.

(** The dictionary. *)
Lemma set_key_in A (k k' : str) (v v' : A) d : NoDup (map fst d) ->
  (In (k', v') (set_key k v d) <-> (k' = k /\ v' = v) \/ (k' <> k /\ In (k', v') d)) /\ NoDup (map fst (set_key k v d)).
Proof.
  intros Hn. unfold set_key. destruct (existsb (fun e => str_eqb k (fst e)) d) eqn:E.
  - apply existsb_exists in E as ((k0 & v0) & Hin & E). apply str_eqb_eq in E. cbn [fst] in E. subst k0. split.
    + rewrite in_map_iff. split.
      * intros ((k1 & v1) & E & H1). cbn [fst] in E. destruct (str_eqb k k1) eqn:E1.
        -- apply str_eqb_eq in E1. left. split; congruence.
        -- right. injection E as -> ->. split; auto. intros ->. rewrite (proj2 (str_eqb_eq k k) eq_refl) in E1. discriminate.
      * intros [[-> ->]|[N H1]].
        -- exists (k, v0). cbn [fst]. rewrite (proj2 (str_eqb_eq k k) eq_refl). auto.
        -- exists (k', v'). cbn [fst]. destruct (str_eqb k k') eqn:E1; auto. apply str_eqb_eq in E1. congruence.
    + rewrite map_map. erewrite map_ext; [exact Hn|]. intros (k1 & v1). cbn [fst]. destruct (str_eqb k k1); reflexivity.
  - assert (F : forall v1, ~ In (k, v1) d).
    { intros v1 H. apply Bool.not_true_iff_false in E. apply E. apply existsb_exists. exists (k, v1). split; auto. apply str_eqb_eq. reflexivity. }
    split.
    + rewrite in_app_iff. simpl. split.
      * intros [H|[H|[]]]; [right|left; split; congruence]. split; auto. intros ->. exact (F _ H).
      * intros [[-> ->]|[_ H]]; auto.
    + rewrite map_app. simpl. apply (Permutation_NoDup (Permutation_cons_append (map fst d) k)). constructor; auto. rewrite in_map_iff. intros ((k1 & v1) & E1 & H). cbn [fst] in E1. subst k1. exact (F _ H).
Qed.
Lemma results_spec A (ms : list (str * A)) : NoDup (map fst (results_dict ms)) /\ forall k v, In (k, v) (results_dict ms) <-> last_entry ms k v.
Proof.
  induction ms as [|(k0 & v0) ms (IN & IH)] using rev_ind.
  - split; [constructor|]. intros k v. split; [intros []|]. intros (b & a & E & _). destruct b; discriminate.
  - unfold results_dict. rewrite fold_left_app. cbn [fold_left fst snd]. change (fold_left _ ms []) with (results_dict ms).
    split; [apply (set_key_in k0 k0 v0 v0 IN)|]. intros k v. rewrite (proj1 (set_key_in k0 k v0 v IN)). rewrite IH. unfold last_entry. split.
    + intros [[-> ->]|[N (b & a & -> & H)]].
      * exists ms, []. auto.
      * exists b, (a ++ [(k0, v0)]). rewrite <- app_assoc. split; auto. rewrite map_app, in_app_iff. simpl. intuition.
    + intros (b & a & E & H). destruct a as [|e a] using rev_ind.
      * left. apply app_inj_tail in E as [_ E]. injection E as -> ->. auto.
      * clear IHa. right. change (b ++ (k, v) :: a ++ [e]) with (b ++ ((k, v) :: a) ++ [e]) in E. rewrite app_assoc in E. apply app_inj_tail in E as [-> <-].
        rewrite map_app, in_app_iff in H. simpl in H. split; [intuition|]. exists b, a. split; auto.
Qed.
Lemma results_nodup A (ms : list (str * A)) : NoDup (map fst ms) -> results_dict ms = ms.
Proof.
  induction ms as [|(k0 & v0) ms IH] using rev_ind; auto. intros H. rewrite map_app in H. simpl in H.
  unfold results_dict. rewrite fold_left_app. cbn [fold_left fst snd]. change (fold_left _ ms []) with (results_dict ms).
  assert (H1 := H). apply NoDup_remove in H1 as [Hn Hi]. rewrite app_nil_r in Hn, Hi. rewrite IH by auto. unfold set_key.
  destruct (existsb (fun e => str_eqb k0 (fst e)) ms) eqn:E; auto. exfalso. apply existsb_exists in E as ((k & v) & Hin & E). apply str_eqb_eq in E.
  apply Hi. apply in_map_iff. exists (k, v). auto.
Qed.
