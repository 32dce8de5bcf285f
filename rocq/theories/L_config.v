(** Specifications and lemmas for configurations and runs. *)
From Verif Require Export M_config L_text.
Set Implicit Arguments.
Unset Strict Implicit.

Section Trees.
Variable Setting : Type.
Notation tree := (tree Setting).
Notation dict := (dict Setting).

(** * Specification: what is found at the end of a path of keys *)
Fixpoint lookup (p : list str) (t : tree) : option tree :=
  match p with
  | [] => Some t
  | k :: p => match t with
              | Dict d => match get k d with Some v => lookup p v | None => None end
              | Leaf _ => None
              end
  end.
(** The setting at path [p]. *)
Definition setting_at (d : dict) (p : list str) (x : Setting) : Prop := lookup p (Dict d) = Some (Leaf x).
(** Some prefix of the path is already a setting. *)
Definition blocked (d : dict) (p : list str) : Prop := exists q r x, p = q ++ r /\ setting_at d q x.
(** Dictionaries have distinct keys, at all levels. *)
Inductive wf : tree -> Prop :=
| wf_leaf x : wf (Leaf x)
| wf_dict items : NoDup (map fst items) -> (forall k v, In (k, v) items -> wf v) -> wf (Dict items).

(** * Dictionaries *)
Lemma get_In k (d : dict) v : get k d = Some v -> In (k, v) d.
Proof.
  induction d as [|(m, x) r IH]; simpl; [discriminate|]. destruct (str_eqb k m) eqn:E; intros H.
  - apply str_eqb_eq in E. left. congruence.
  - right. auto.
Qed.
Lemma get_NoDup k (d : dict) v : NoDup (map fst d) -> In (k, v) d -> get k d = Some v.
Proof.
  induction d as [|(m, x) r IH]; simpl; intros HN Hin; [destruct Hin|]. inversion HN as [|? ? Hm HN']; subst. destruct Hin as [E|Hin].
  - injection E as -> ->. rewrite str_eqb_refl. reflexivity.
  - destruct (str_eqb k m) eqn:E; auto. apply str_eqb_eq in E. subst m. exfalso. apply Hm. apply in_map_iff. exists (k, v). auto.
Qed.
Lemma get_none k (d : dict) : ~ In k (map fst d) -> get k d = None.
Proof.
  induction d as [|(m, x) r IH]; simpl; auto. intros H. destruct (str_eqb k m) eqn:E; [apply str_eqb_eq in E; subst; tauto|]. apply IH. tauto.
Qed.
Lemma str_eqb_neq a b : a <> b -> str_eqb a b = false.
Proof. intros H. destruct (str_eqb a b) eqn:E; auto. apply str_eqb_eq in E. contradiction. Qed.
Lemma get_put k k' v (d : dict) : get k (put k' v d) = if str_eqb k k' then Some v else get k d.
Proof.
  induction d as [|(m, x) r IH]; simpl.
  - destruct (str_eqb k k'); reflexivity.
  - destruct (str_eqb k' m) eqn:E; simpl.
    + apply str_eqb_eq in E. subst m. destruct (str_eqb k k'); reflexivity.
    + rewrite IH. destruct (str_eqb k m) eqn:E2; auto. apply str_eqb_eq in E2. subst m.
      destruct (str_eqb k k') eqn:E3; auto. apply str_eqb_eq in E3. subst k'. rewrite str_eqb_refl in E. discriminate.
Qed.
Lemma put_get k v (d : dict) : get k d = Some v -> put k v d = d.
Proof.
  induction d as [|(m, x) r IH]; simpl; [discriminate|]. destruct (str_eqb k m); intros H; [congruence|]. rewrite IH; auto.
Qed.

(** * One level of the recursive functions *)
Definition sd_step (k : str) (v : tree) (cfg : dict) : dict :=
  match get k cfg with
  | None => put k v cfg
  | Some (Dict c) => if is_dict v then put k (Dict (set_defaults_in v c)) cfg else cfg
  | Some (Leaf _) => cfg
  end.
Fixpoint sd_loop (items : list (str * tree)) (cfg : dict) : dict :=
  match items with [] => cfg | (k, v) :: r => sd_loop r (sd_step k v cfg) end.
Lemma sd_unfold items cfg : set_defaults_in (Dict items) cfg = sd_loop items cfg.
Proof. simpl. revert cfg. induction items as [|(k, v) r IH]; intros cfg; simpl; auto. Qed.
Definition sd_merge (a b : option tree) : option tree :=
  match a, b with
  | None, v => v
  | Some (Dict c), Some (Dict d) => Some (Dict (set_defaults c d))
  | Some v, _ => Some v
  end.
Lemma sd_step_get k k' v cfg : get k (sd_step k' v cfg) = if str_eqb k k' then sd_merge (get k cfg) (Some v) else get k cfg.
Proof.
  unfold sd_step. destruct (str_eqb k k') eqn:E.
  - apply str_eqb_eq in E. subst k'. destruct (get k cfg) as [[x|c]|] eqn:G; simpl; auto.
    + destruct v as [y|d]; simpl; auto. rewrite get_put, str_eqb_refl. reflexivity.
    + rewrite get_put, str_eqb_refl. reflexivity.
  - destruct (get k' cfg) as [[x|c]|]; auto; [destruct (is_dict v); auto|]; rewrite get_put, E; reflexivity.
Qed.
Lemma sd_get k : forall items cfg, NoDup (map fst items) -> get k (sd_loop items cfg) = sd_merge (get k cfg) (get k items).
Proof.
  induction items as [|(k', v) r IH]; intros cfg HN; simpl.
  - destruct (get k cfg) as [[x|c]|]; reflexivity.
  - inversion HN as [|? ? Hk HN']; subst. rewrite IH, sd_step_get by auto. destruct (str_eqb k k') eqn:E; auto.
    apply str_eqb_eq in E. subst k'. rewrite (get_none Hk). destruct (get k cfg) as [[x|c]|]; simpl; auto.
    + destruct v; reflexivity.
    + destruct v; reflexivity.
Qed.
Lemma set_defaults_get k cfg d : NoDup (map fst d) -> get k (set_defaults cfg d) = sd_merge (get k cfg) (get k d).
Proof. intros H. unfold set_defaults. rewrite sd_unfold. apply sd_get, H. Qed.

Definition up_step (k : str) (v : tree) (cfg : dict) : dict :=
  match get k cfg with
  | Some (Dict c) => if is_dict v then put k (Dict (update_in v c)) cfg else put k v cfg
  | _ => put k v cfg
  end.
Fixpoint up_loop (items : list (str * tree)) (cfg : dict) : dict :=
  match items with [] => cfg | (k, v) :: r => up_loop r (up_step k v cfg) end.
Lemma up_unfold items cfg : update_in (Dict items) cfg = up_loop items cfg.
Proof. simpl. revert cfg. induction items as [|(k, v) r IH]; intros cfg; simpl; auto. Qed.
Definition up_merge (a b : option tree) : option tree :=
  match a, b with
  | v, None => v
  | Some (Dict c), Some (Dict d) => Some (Dict (update_recursive c d))
  | _, Some v => Some v
  end.
Lemma up_step_get k k' v cfg : get k (up_step k' v cfg) = if str_eqb k k' then up_merge (get k cfg) (Some v) else get k cfg.
Proof.
  unfold up_step. destruct (str_eqb k k') eqn:E.
  - apply str_eqb_eq in E. subst k'. destruct (get k cfg) as [[x|c]|]; simpl.
    + rewrite get_put, str_eqb_refl. destruct v; reflexivity.
    + destruct v as [y|d]; simpl; rewrite get_put, str_eqb_refl; reflexivity.
    + rewrite get_put, str_eqb_refl. destruct v; reflexivity.
  - destruct (get k' cfg) as [[x|c]|]; [|destruct (is_dict v)|]; rewrite get_put, E; reflexivity.
Qed.
Lemma up_get k : forall items cfg, NoDup (map fst items) -> get k (up_loop items cfg) = up_merge (get k cfg) (get k items).
Proof.
  induction items as [|(k', v) r IH]; intros cfg HN; simpl.
  - destruct (get k cfg) as [[x|c]|]; reflexivity.
  - inversion HN as [|? ? Hk HN']; subst. rewrite IH, up_step_get by auto. destruct (str_eqb k k') eqn:E; auto.
    apply str_eqb_eq in E. subst k'. rewrite (get_none Hk). destruct (get k cfg) as [[x|c]|]; simpl; destruct v; reflexivity.
Qed.
Lemma update_get k cfg d : NoDup (map fst d) -> get k (update_recursive cfg d) = up_merge (get k cfg) (get k d).
Proof. intros H. unfold update_recursive. rewrite up_unfold. apply up_get, H. Qed.

(** * Paths *)
Lemma wf_NoDup d : wf (Dict d) -> NoDup (map fst d). Proof. intros H. inversion H; auto. Qed.
Lemma wf_get d k v : wf (Dict d) -> get k d = Some v -> wf v.
Proof. intros H G. inversion H as [|? _ Hw]; subst. eapply Hw, get_In; eauto. Qed.
Lemma lookup_cons k p d : lookup (k :: p) (Dict d) = match get k d with Some v => lookup p v | None => None end.
Proof. reflexivity. Qed.
Lemma lookup_leaf_some p x y : lookup p (Leaf x) = Some y -> p = [] /\ y = Leaf x.
Proof. destruct p; simpl; intros H; [split; congruence|discriminate]. Qed.
Lemma blocked_cons k p d c : get k d = Some (Dict c) -> blocked c p -> blocked d (k :: p).
Proof. intros G (q & r & x & -> & H). exists (k :: q), r, x. split; auto. unfold setting_at. rewrite lookup_cons, G. exact H. Qed.
Lemma blocked_leaf k p d x : get k d = Some (Leaf x) -> blocked d (k :: p).
Proof. intros G. exists [k], p, x. split; auto. unfold setting_at. rewrite lookup_cons, G. reflexivity. Qed.

Lemma set_defaults_keeps p : forall cfg d t, wf (Dict d) -> lookup p (Dict cfg) = Some t ->
  exists t', lookup p (Dict (set_defaults cfg d)) = Some t' /\ match t with Leaf x => t' = Leaf x | Dict _ => exists c, t' = Dict c end.
Proof.
  induction p as [|k p IH]; intros cfg d t Hw H.
  - simpl in *. eexists. split; eauto. injection H as <-. eauto.
  - rewrite lookup_cons in *. rewrite set_defaults_get by (apply wf_NoDup, Hw). destruct (get k cfg) as [[x|c]|] eqn:G; [| |discriminate].
    + simpl. exists t. split; [exact H|]. destruct t; auto. eauto.
    + destruct (get k d) as [[y|e]|] eqn:Gd; simpl.
      * exists t. split; [exact H|]. destruct t; auto. eauto.
      * apply IH; auto. eapply wf_get; eauto.
      * exists t. split; [exact H|]. destruct t; auto. eauto.
Qed.
Lemma set_defaults_adds p : forall cfg d t, wf (Dict d) -> lookup p (Dict d) = Some t -> lookup p (Dict cfg) = None -> ~ blocked cfg p ->
  lookup p (Dict (set_defaults cfg d)) = Some t.
Proof.
  induction p as [|k p IH]; intros cfg d t Hw H Hn Hb; [discriminate|]. rewrite lookup_cons in *. rewrite set_defaults_get by (apply wf_NoDup, Hw).
  destruct (get k d) as [v|] eqn:Gd; [|discriminate]. destruct (get k cfg) as [[x|c]|] eqn:G.
  - exfalso. apply Hb. eapply blocked_leaf; eauto.
  - destruct v as [y|e]; simpl.
    + apply lookup_leaf_some in H. destruct H as (-> & ->). discriminate.
    + apply IH; auto; [eapply wf_get; eauto|]. intros Hc. apply Hb. eapply blocked_cons; eauto.
  - simpl. exact H.
Qed.
Lemma set_defaults_only p : forall cfg d x, wf (Dict d) -> setting_at (set_defaults cfg d) p x ->
  setting_at cfg p x \/ (setting_at d p x /\ lookup p (Dict cfg) = None).
Proof.
  unfold setting_at. induction p as [|k p IH]; intros cfg d x Hw H; [discriminate|]. rewrite lookup_cons in *.
  rewrite set_defaults_get in H by (apply wf_NoDup, Hw). rewrite (lookup_cons k p d). destruct (get k cfg) as [[y|c]|] eqn:G.
  - simpl in H. auto.
  - destruct (get k d) as [[y|e]|] eqn:Gd; simpl in H; auto. apply IH; auto. eapply wf_get; eauto.
  - simpl in H. destruct (get k d) as [v|] eqn:Gd; [|discriminate]. right. auto.
Qed.

Lemma update_sets p : forall cfg d t, wf (Dict d) -> lookup p (Dict d) = Some t ->
  exists t', lookup p (Dict (update_recursive cfg d)) = Some t' /\ match t with Leaf x => t' = Leaf x | Dict _ => exists c, t' = Dict c end.
Proof.
  induction p as [|k p IH]; intros cfg d t Hw H.
  - simpl in *. eexists. split; eauto. injection H as <-. eauto.
  - rewrite lookup_cons in *. rewrite update_get by (apply wf_NoDup, Hw). destruct (get k d) as [v|] eqn:Gd; [|discriminate].
    assert (Hd : exists t' : tree, lookup p v = Some t' /\ match t with Leaf x => t' = Leaf x | Dict _ => exists c, t' = Dict c end).
    { exists t. split; auto. destruct t; eauto. }
    destruct (get k cfg) as [[x|c]|] eqn:G; simpl.
    + destruct v; exact Hd.
    + destruct v as [y|e]; [exact Hd|]. apply IH; auto. eapply wf_get; eauto.
    + destruct v; exact Hd.
Qed.
Lemma update_keeps p : forall cfg d t, wf (Dict d) -> lookup p (Dict cfg) = Some t -> lookup p (Dict d) = None -> ~ blocked d p ->
  lookup p (Dict (update_recursive cfg d)) = Some t.
Proof.
  induction p as [|k p IH]; intros cfg d t Hw H Hn Hb; [discriminate|]. rewrite lookup_cons in *. rewrite update_get by (apply wf_NoDup, Hw).
  destruct (get k cfg) as [v|] eqn:G; [|discriminate]. destruct (get k d) as [[x|e]|] eqn:Gd.
  - exfalso. apply Hb. eapply blocked_leaf; eauto.
  - destruct v as [y|c]; simpl.
    + apply lookup_leaf_some in H. destruct H as (-> & ->). discriminate.
    + apply IH; auto; [eapply wf_get; eauto|]. intros Hc. apply Hb. eapply blocked_cons; eauto.
  - simpl. destruct v; exact H.
Qed.
Lemma update_only p : forall cfg d x, wf (Dict d) -> setting_at (update_recursive cfg d) p x ->
  setting_at d p x \/ (setting_at cfg p x /\ lookup p (Dict d) = None).
Proof.
  unfold setting_at. induction p as [|k p IH]; intros cfg d x Hw H; [discriminate|]. rewrite lookup_cons in *.
  rewrite update_get in H by (apply wf_NoDup, Hw). rewrite (lookup_cons k p cfg). destruct (get k d) as [v|] eqn:Gd.
  - destruct (get k cfg) as [[y|c]|] eqn:G; simpl in H.
    + left. destruct v; exact H.
    + destruct v as [y|e]; [auto|]. apply IH; auto. eapply wf_get; eauto.
    + left. destruct v; exact H.
  - right. split; auto. destruct (get k cfg) as [[y|c]|]; exact H.
Qed.

(** * Idempotence *)
Lemma tree_ind' (P : tree -> Prop) : (forall x, P (Leaf x)) -> (forall items, (forall k v, In (k, v) items -> P v) -> P (Dict items)) -> forall t, P t.
Proof.
  intros HL HD. fix self 1. intros [x|items]; [apply HL|]. apply HD.
  induction items as [|(k, v) r IH]; intros k' v' Hin; [destruct Hin|]. destruct Hin as [E|Hin].
  - specialize (self v). congruence.
  - eapply IH; eauto.
Qed.
Lemma sd_complete : forall items c, (forall k v, In (k, v) items -> exists w, get k c = Some w /\ match v, w with Dict d, Dict e => set_defaults e d = e | _, _ => True end) ->
  sd_loop items c = c.
Proof.
  induction items as [|(k, v) r IH]; intros c H; simpl; auto.
  assert (E : sd_step k v c = c).
  { destruct (H k v (or_introl eq_refl)) as (w & G & Hw). unfold sd_step. rewrite G. destruct w as [x|e]; auto.
    destruct v as [y|d]; simpl; auto. apply put_get. rewrite G. do 2 f_equal. symmetry. exact Hw. }
  rewrite E. apply IH. intros k' v' Hin. apply H. right. exact Hin.
Qed.
Lemma set_defaults_self d : wf (Dict d) -> set_defaults d d = d.
Proof.
  remember (Dict d) as t eqn:E. revert d E. induction t as [x|items IH] using tree_ind'; intros d E Hw; [discriminate|].
  injection E as <-. unfold set_defaults. rewrite sd_unfold. apply sd_complete. intros k v Hin.
  exists v. split; [apply get_NoDup; auto; apply wf_NoDup, Hw|]. destruct v as [y|e]; auto. apply (IH k (Dict e) Hin e eq_refl).
  inversion Hw as [|? _ Hv]; subst. eapply Hv; eauto.
Qed.
Lemma set_defaults_idem : forall t d, t = Dict d -> wf t -> forall c, set_defaults (set_defaults c d) d = set_defaults c d.
Proof.
  induction t as [x|items IH] using tree_ind'; intros d E Hw c; [discriminate|]. injection E as <-.
  assert (HN := wf_NoDup Hw). unfold set_defaults at 1. rewrite sd_unfold. apply sd_complete. intros k v Hin.
  rewrite set_defaults_get by auto. rewrite (get_NoDup HN Hin). assert (Hv : wf v) by (eapply wf_get; eauto using get_NoDup).
  destruct (get k c) as [[x|e]|] eqn:G; destruct v as [y|d]; simpl; eexists; split; eauto; simpl; auto.
  - apply (IH k (Dict d) Hin d eq_refl Hv).
  - apply set_defaults_self, Hv.
Qed.

(** * Iteration *)
Fixpoint it_loop (items : list (str * tree)) (loc : list str) : list (str * Setting * list str) :=
  match items with
  | [] => []
  | (k, v) :: r => match v with Dict _ => items_in v (loc ++ [k]) | Leaf x => [(k, x, loc)] end ++ it_loop r loc
  end.
Lemma it_unfold items loc : items_in (Dict items) loc = it_loop items loc.
Proof. simpl. induction items as [|(k, v) r IH]; simpl; auto. rewrite IH. reflexivity. Qed.
Lemma it_loop_In items loc k x l : In (k, x, l) (it_loop items loc) <->
  exists k' v, In (k', v) items /\ match v with Dict _ => In (k, x, l) (items_in v (loc ++ [k'])) | Leaf y => (k, x, l) = (k', y, loc) end.
Proof.
  induction items as [|(m, w) r IH]; [simpl; split; [tauto|intros (? & ? & [] & _)]|].
  cbn [it_loop]. rewrite in_app_iff, IH. split.
  - intros [H|(k' & v & Hin & H)].
    + exists m, w. split; [left; auto|]. destruct w as [y|e]; [|exact H]. destruct H as [H|[]]. auto.
    + exists k', v. split; [right; auto|exact H].
  - intros (k' & v & [E|Hin] & H).
    + injection E as -> ->. left. destruct v as [y|e]; [left; auto|exact H].
    + right. eauto.
Qed.
Lemma items_spec : forall t d, t = Dict d -> wf t -> forall loc k x l,
  In (k, x, l) (items_in t loc) <-> exists p, l = loc ++ p /\ lookup (p ++ [k]) t = Some (Leaf x).
Proof.
  induction t as [y|items IH] using tree_ind'; intros d E Hw loc k x l; [discriminate|]. clear d E.
  assert (HN := wf_NoDup Hw). rewrite it_unfold, it_loop_In. split.
  - intros (k' & v & Hin & H). assert (G := get_NoDup HN Hin). destruct v as [y|e].
    + injection H as -> -> ->. exists []. rewrite app_nil_r. split; auto. simpl. rewrite G. reflexivity.
    + apply (IH k' (Dict e) Hin e eq_refl) in H; [|eapply wf_get; eauto]. destruct H as (p & -> & H). exists (k' :: p).
      split; [rewrite <- app_assoc; reflexivity|]. cbn [app]. rewrite lookup_cons, G. exact H.
  - intros (p & -> & H). destruct p as [|k' p].
    + cbn [app] in H. rewrite lookup_cons in H. destruct (get k items) as [v|] eqn:G; [|discriminate]. simpl in H.
      exists k, v. split; [apply get_In, G|]. injection H as ->. rewrite app_nil_r. reflexivity.
    + cbn [app] in H. rewrite lookup_cons in H. destruct (get k' items) as [v|] eqn:G; [|discriminate]. assert (Hin := get_In G).
      exists k', v. split; auto. destruct v as [y|e].
      * apply lookup_leaf_some in H. destruct H as (H & _). destruct p; discriminate.
      * apply (IH k' (Dict e) Hin e eq_refl); [eapply wf_get; eauto|]. exists p. split; [rewrite <- app_assoc; reflexivity|exact H].
Qed.
Lemma NoDup_app' A (l r : list A) : NoDup l -> NoDup r -> (forall x, In x l -> ~ In x r) -> NoDup (l ++ r).
Proof.
  induction 1 as [|x l Hx Hl IH]; simpl; auto. intros Hr H. constructor.
  - rewrite in_app_iff. intros [Hin|Hin]; [auto|]. apply (H x (or_introl eq_refl) Hin).
  - apply IH; [exact Hr|]. intros y Hy. apply H. right. exact Hy.
Qed.
Lemma items_NoDup : forall t d, t = Dict d -> wf t -> forall loc, NoDup (map (fun '(k, _, l) => (k, l)) (items_in t loc)).
Proof.
  induction t as [y|items IH] using tree_ind'; intros d E Hw loc; [discriminate|]. clear d E. rewrite it_unfold.
  assert (HN := wf_NoDup Hw). assert (Hsub : forall k v, In (k, v) items -> wf v) by (inversion Hw; auto). clear Hw.
  induction items as [|(k, v) r IHr]; simpl; [constructor|]. inversion HN as [|? ? Hk HN']; subst.
  rewrite map_app. apply NoDup_app'.
  - destruct v as [y|e]; [simpl; constructor; [auto|constructor]|]. apply (IH k (Dict e) (or_introl eq_refl) e eq_refl). apply (Hsub k). left; auto.
  - apply IHr; auto; [intros k' v' Hin; apply (IH k'); right; auto|intros k' v' Hin; apply (Hsub k'); right; auto].
  - assert (Hfirst : forall l' m, In (m, l') (map (fun '(k, _, l) => (k, l)) match v with Dict _ => items_in v (loc ++ [k]) | Leaf x => [(k, x, loc)] end) ->
        exists p, l' ++ [m] = loc ++ k :: p).
    { intros l' m Hin. apply in_map_iff in Hin. destruct Hin as (((m', x), l'') & E & Hin). injection E as -> ->. destruct v as [y|e].
      - destruct Hin as [E|[]]. injection E as -> _ ->. exists []. reflexivity.
      - assert (Hwe : wf (Dict e)) by (apply (Hsub k); left; auto).
        apply (@items_spec (Dict e) e eq_refl Hwe) in Hin. destruct Hin as (p & -> & _). exists (p ++ [m]). rewrite <- !app_assoc. reflexivity. }
    intros (m, l') Hin Hin'. destruct (Hfirst _ _ Hin) as (p & Hp).
    apply in_map_iff in Hin'. destruct Hin' as (((m', x), l'') & E & Hin'). injection E as -> ->.
    apply it_loop_In in Hin'. destruct Hin' as (k' & v' & Hv' & H).
    assert (Hk' : exists p', l' ++ [m] = loc ++ k' :: p').
    { destruct v' as [y|e].
      - injection H as -> -> ->. exists []. reflexivity.
      - assert (Hwe : wf (Dict e)) by (apply (Hsub k'); right; auto).
        apply (@items_spec (Dict e) e eq_refl Hwe) in H. destruct H as (p' & -> & _). exists (p' ++ [m]). rewrite <- !app_assoc. reflexivity. }
    destruct Hk' as (p' & Hp'). rewrite Hp in Hp'. apply app_inv_head in Hp'. injection Hp' as -> _.
    apply Hk. apply in_map_iff. exists (k', v'). auto.
Qed.
End Trees.

(** * Runs and files *)
(** All interleavings of a list of sequences. *)
Inductive interleaving A : list (list A) -> list A -> Prop :=
| il_nil ls : Forall (eq []) ls -> interleaving ls []
| il_cons l1 x t l2 r : interleaving (l1 ++ t :: l2) r -> interleaving (l1 ++ (x :: t) :: l2) (x :: r).
Lemma interleaving_filter A (P : A -> bool) ls r j : interleaving ls r ->
  (forall i, i <> j -> filter P (nth i ls []) = []) -> filter P r = filter P (nth j ls []).
Proof.
  induction 1 as [ls H|l1 x t l2 r H IH]; intros Ho.
  - simpl. destruct (nth_in_or_default j ls []) as [Hin|E]; [|rewrite E; auto]. rewrite Forall_forall in H. rewrite <- (H _ Hin). reflexivity.
  - assert (Hnth : forall i, nth i (l1 ++ (x :: t) :: l2) [] = if i =? length l1 then x :: t else nth i (l1 ++ t :: l2) []).
    { intros i. destruct (Nat.eqb_spec i (length l1)) as [->|Hne].
      - rewrite app_nth2 by lia. rewrite Nat.sub_diag. reflexivity.
      - destruct (Nat.lt_ge_cases i (length l1)); [rewrite !app_nth1 by auto; reflexivity|].
        rewrite !app_nth2 by lia. destruct (i - length l1) eqn:E; [lia|]. reflexivity. }
    assert (Ht : nth (length l1) (l1 ++ t :: l2) [] = t) by (rewrite app_nth2 by lia; rewrite Nat.sub_diag; reflexivity).
    destruct (Nat.eq_dec j (length l1)) as [->|Hne].
    + rewrite Hnth, Nat.eqb_refl. simpl. rewrite IH, Ht; auto. intros i Hi. specialize (Ho i Hi). rewrite Hnth in Ho.
      apply Nat.eqb_neq in Hi. rewrite Hi in Ho. exact Ho.
    + assert (Hx : filter P (x :: t) = []). { specialize (Ho (length l1) (not_eq_sym Hne)). rewrite Hnth, Nat.eqb_refl in Ho. exact Ho. }
      simpl in Hx. rewrite Hnth. rewrite (proj2 (Nat.eqb_neq j (length l1)) Hne). simpl. destruct (P x); [discriminate|].
      apply IH. intros i Hi. destruct (Nat.eq_dec i (length l1)) as [->|Hi']; [rewrite Ht; exact Hx|].
      specialize (Ho i Hi). rewrite Hnth, (proj2 (Nat.eqb_neq i (length l1)) Hi') in Ho. exact Ho.
Qed.
Lemma path_eqb_eq a b : path_eqb a b = true <-> a = b.
Proof. unfold path_eqb. destruct (list_eq_dec (list_eq_dec ascii_dec) a b); split; congruence. Qed.
Definition on_path (q : path) (o : path * file_op) : bool := path_eqb q (fst o).
Lemma exec_filter q ops : forall s, exec ops s q = fold_left (fun c o => apply_op (snd o) c) (filter (on_path q) ops) (s q).
Proof.
  induction ops as [|(p, o) ops IH]; intros s; simpl; auto. rewrite IH. unfold on_path at 2. simpl. destruct (path_eqb q p); reflexivity.
Qed.

(** The separator "_" splits the name of a results file. *)
Lemma path_inj cn cn' k run k' run' f f' : f <> FLog -> f <> FConfig -> file_path cn k run f = file_path cn' k' run' f' -> k = k' /\ run = run' /\ f = f'.
Proof.
  intros Hf1 Hf2 H.
  assert (Hdir : forall k k' (x y : path), run_dir k :: x = run_dir k' :: y -> k = k' /\ x = y).
  { intros a b x y E. injection E as E ->. split; auto. apply str_nat_inj, E. }
  assert (Hnum : forall k r r' (e e' : str), (str_nat k ++ "_"%char :: str_nat r) ++ "."%char :: e = (str_nat k ++ "_"%char :: str_nat r') ++ "."%char :: e' -> r = r').
  { intros a r r' e e' E. rewrite <- !app_assoc in E. apply app_inv_head in E. injection E as E.
    apply (@cut_inj "."%char) in E; [|apply str_nat_no; vm_compute; intuition discriminate|apply str_nat_no; vm_compute; intuition discriminate].
    apply str_nat_inj, E. }
  destruct f; try congruence; destruct f'; cbn [file_path] in H; try discriminate H;
    apply Hdir in H; destruct H as (-> & H); injection H as H; try discriminate H; conj; auto; eapply Hnum; exact H.
Qed.
