(** C60: loading a configuration leaves the defaults for later ones unchanged. *)
From Verif Require Import M_alias L_config.
Set Implicit Arguments.
Unset Strict Implicit.

Section Objects.
Variable Setting : Type.
Notation obj := (obj Setting).
Lemma obj_ind' (P : obj -> Prop) : (forall x, P (OLeaf x)) -> (forall a items, (forall k v, In (k, v) items -> P v) -> P (ODict a items)) -> forall t, P t.
Proof.
  intros HL HD. fix self 1. intros [x|a items]; [apply HL|]. apply HD.
  induction items as [|(k, v) r IH]; intros k' v' Hin; [destruct Hin|]. destruct Hin as [E|Hin].
  - specialize (self v). congruence.
  - eapply IH; eauto.
Qed.
Lemma store_other (a : nat) k x (t : obj) : ~ In a (ids t) -> o_store a k x t = t.
Proof.
  induction t as [y|b items IH] using obj_ind'; intros H; auto. cbn [o_store ids] in *.
  assert (E : map (fun '(k', v) => (k', o_store a k x v)) items = items).
  { rewrite <- (map_id items) at 2. apply map_ext_in. intros (k', v) Hin. rewrite (IH k' v Hin); auto.
    intros Ha. apply H. right. apply in_flat_map. exists (k', v). auto. }
  rewrite E. destruct (Nat.eqb_spec a b) as [->|_]; auto. destruct H. left; auto.
Qed.
Lemma oget_oput k k' v (d : list (str * obj)) : oget k (oput k' v d) = if str_eqb k k' then Some v else oget k d.
Proof.
  induction d as [|(m, x) r IH]; simpl.
  - destruct (str_eqb k k'); reflexivity.
  - destruct (str_eqb k' m) eqn:E; simpl.
    + apply str_eqb_eq in E. subst m. destruct (str_eqb k k'); reflexivity.
    + rewrite IH. destruct (str_eqb k m) eqn:E2; auto. apply str_eqb_eq in E2. subst m.
      destruct (str_eqb k k') eqn:E3; auto. apply str_eqb_eq in E3. subst k'. rewrite str_eqb_refl in E. discriminate.
Qed.
(** Dictionaries of the user keep their identity. *)
Lemma oget_loop k w : forall items c, oget k c = Some w -> exists w', 
  oget k ((fix loop (items : list (str * obj)) (c : list (str * obj)) {struct items} : list (str * obj) :=
         match items with
         | [] => c
         | (k, v) :: r =>
             loop r (match oget k c with
                     | None => oput k v c
                     | Some w => if o_is_dict v && o_is_dict w then oput k (o_set_defaults v w) c else c
                     end)
         end) items c) = Some w' /\ (w' = w \/ exists vs, w' = fold_left (fun w v => o_set_defaults v w) vs w).
Proof.
  assert (Hgen : forall items c vs w0, oget k c = Some (fold_left (fun w v => o_set_defaults v w) vs w0) -> exists vs',
    oget k ((fix loop (items : list (str * obj)) (c : list (str * obj)) {struct items} : list (str * obj) :=
         match items with
         | [] => c
         | (k, v) :: r =>
             loop r (match oget k c with
                     | None => oput k v c
                     | Some w => if o_is_dict v && o_is_dict w then oput k (o_set_defaults v w) c else c
                     end)
         end) items c) = Some (fold_left (fun w v => o_set_defaults v w) vs' w0)).
  { induction items as [|(m, v) r IH]; intros c vs w0 H; [eauto|]. destruct (str_eqb k m) eqn:E.
    - apply str_eqb_eq in E. subst m. rewrite H. destruct (o_is_dict v && _) eqn:Ed.
      + apply (IH _ (vs ++ [v])). rewrite oget_oput, str_eqb_refl, fold_left_app. reflexivity.
      + apply (IH _ vs). exact H.
    - apply (IH _ vs). destruct (oget m c) as [w1|] eqn:Em; [destruct (o_is_dict v && _)|]; rewrite ?oget_oput, ?E; exact H. }
  intros items c H. destruct (Hgen items c [] w H) as (vs & Hv). eexists. split; [exact Hv|]. right. eauto.
Qed.
Lemma set_defaults_id a items (d : obj) : exists items', o_set_defaults d (ODict a items) = ODict a items'.
Proof. destruct d as [x|b l]; simpl; eauto. Qed.
Lemma set_defaults_path p : forall (d cfg : obj) a items, o_lookup p cfg = Some (ODict a items) ->
  exists items', o_lookup p (o_set_defaults d cfg) = Some (ODict a items').
Proof.
  assert (Hfold : forall vs (w : obj) p a items, (forall (d c : obj) a items, o_lookup p c = Some (ODict a items) -> exists items', o_lookup p (o_set_defaults d c) = Some (ODict a items')) ->
    o_lookup p w = Some (ODict a items) -> exists items', o_lookup p (fold_left (fun w v => o_set_defaults v w) vs w) = Some (ODict a items')).
  { induction vs as [|v vs IH]; intros w q a items Hd H; simpl; [eauto|]. destruct (Hd v w a items H) as (i' & Hi'). eapply IH; eauto. }
  induction p as [|k p IH]; intros d cfg a items H.
  - injection H as ->. destruct (set_defaults_id a items d) as (i' & ->). simpl. eauto.
  - destruct cfg as [x|b c]; [discriminate|]. simpl in H. destruct (oget k c) as [w|] eqn:G; [|discriminate].
    destruct d as [x|e l]; [simpl; rewrite G; eauto|]. cbn [o_set_defaults o_lookup].
    destruct (@oget_loop k w l c G) as (w' & Hw' & Hcase). rewrite Hw'.
    destruct Hcase as [->|(vs & ->)]; [eauto|]. eapply Hfold; eauto.
Qed.

Lemma lookup_ids p : forall (t : obj) a items, o_lookup p t = Some (ODict a items) -> In a (ids t).
Proof.
  assert (HG : forall k (d : list (str * obj)) v, oget k d = Some v -> exists k', In (k', v) d).
  { induction d as [|(m, y) r IH]; simpl; [discriminate|]. intros v H. destruct (str_eqb k m); [exists m; left; congruence|].
    destruct (IH v H) as (k' & Hk'). eauto. }
  induction p as [|k p IH]; intros t a items H.
  - injection H as ->. left. reflexivity.
  - destruct t as [y|b d]; [discriminate|]. simpl in H. destruct (oget k d) as [v|] eqn:G; [|discriminate].
    destruct (HG k d v G) as (k' & Hin). simpl. right. apply in_flat_map. exists (k', v). split; eauto.
Qed.

(** An assignment into the configuration leaves the defaults alone if the user's own file contains the
    dictionary that is assigned to.  Missing for the full statement: dictionaries taken from the defaults, for
    which it is false. *)
Theorem C60_defaults_kept_partial (cfg default : obj) p k x cfg' default' a items :
  (forall b, In b (ids cfg) -> ~ In b (ids default)) ->
  o_lookup p cfg = Some (ODict a items) ->
  assign p k x (o_set_defaults default cfg) default = Some (cfg', default') -> default' = default.
Proof.
  intros Hdis Hl H. assert (Ha := lookup_ids Hl). destruct (set_defaults_path default Hl) as (items' & Hl'). unfold assign in H. rewrite Hl' in H.
  injection H as _ <-. apply store_other. auto.
Qed.
End Objects.
Print Assumptions C60_defaults_kept_partial.

(** simulation.py:114 -- the only assignment of the simulation goes to the top level of the user's own
    configuration, so the simulation never changes its defaults. *)
Theorem C60_simulation (cfg default : obj str) k x cfg' default' :
  (forall b, In b (ids cfg) -> ~ In b (ids default)) ->
  assign [] k x (o_set_defaults default cfg) default = Some (cfg', default') -> default' = default.
Proof.
  intros Hdis H. destruct cfg as [y|a items].
  - unfold assign in H. simpl in H. destruct default; discriminate.
  - apply (@C60_defaults_kept_partial str (ODict a items) default [] k x cfg' default' a items Hdis); auto.
Qed.
Print Assumptions C60_simulation.

(** plot.py: a density map changes the default legend for all later maps. *)
Definition demo_defaults : obj str :=
  ODict 100 [(s_ "map", ODict 101 [(s_ "content", ODict 102 [(s_ "type", OLeaf (s_ "consensus_map"))]);
                                   (s_ "legend", ODict 103 [(s_ "correspondence", ODict 104 [(s_ "color_labels", OLeaf (s_ "true"))])])])].
Definition demo_density : obj str := ODict 0 [(s_ "map", ODict 1 [(s_ "content", ODict 2 [(s_ "type", OLeaf (s_ "density_map"))])])].
Definition demo_plain : obj str := ODict 10 [].
Theorem C60_defaults_kept_refuted : exists cfg default cfg' default' cfg2 r1 r2,
  (forall b, In b (ids cfg) -> ~ In b (ids default)) /\
  load_config cfg default = Some (cfg', default') /\ default' <> default /\
  option_map fst (load_config cfg2 default) = Some r1 /\ option_map fst (load_config cfg2 default') = Some r2 /\
  o_lookup (map s_ ["map"; "legend"; "correspondence"; "color_labels"]%string) r1 = Some (OLeaf (s_ "true")) /\
  o_lookup (map s_ ["map"; "legend"; "correspondence"; "color_labels"]%string) r2 = Some (OLeaf (s_ "false")).
Proof.
  exists demo_density, demo_defaults. eexists. eexists. exists demo_plain. eexists. eexists. conj; try (vm_compute; reflexivity).
  - intros b Hb Hb'. simpl in Hb, Hb'. lia.
  - intros H. vm_compute in H. discriminate.
Qed.
Print Assumptions C60_defaults_kept_refuted.

(** The same map with a legend of its own leaves the defaults alone. *)
Definition demo_own : obj str :=
  ODict 0 [(s_ "map", ODict 1 [(s_ "content", ODict 2 [(s_ "type", OLeaf (s_ "density_map"))]);
                               (s_ "legend", ODict 3 [(s_ "correspondence", ODict 4 [])])])].
Example C60_demo : exists cfg', load_config demo_own demo_defaults = Some (cfg', demo_defaults) /\
  o_lookup (map s_ ["map"; "legend"; "correspondence"]%string) demo_own = Some (ODict 4 []) /\
  (forall b, In b (ids demo_own) -> ~ In b (ids demo_defaults)).
Proof.
  eexists. conj; try (vm_compute; reflexivity).
  intros b Hb Hb'. simpl in Hb, Hb'. lia.
Qed.
