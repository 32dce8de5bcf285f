(** C70: the operator statistics file. *)
From Verif Require Import L_mcmc S_opstats L_opstats P_mcmc.
Set Implicit Arguments.
Unset Strict Implicit.
Open Scope nat_scope.

Lemma classes_clean src confs : Forall clean_name (operator_classes src confs).
Proof.
  assert (G : forall n, In n (operator_classes src confs) -> In n (map s_ ["AlterClusterGibbsish"; "AlterClusterGibbsish2";
    "GibbsSampleSource"; "GibbsSampleWeights"; "GibbsSampleClusterEffect"; "GibbsSampleConfoundingEffects"; "AlterCluster"; "AlterWeights";
    "AlterClusterEffect"; "AlterConfoundingEffects"]%string)).
  { intros n. unfold operator_classes. destruct src; rewrite in_app_iff; intros [H|H];
      try (apply in_map_iff in H as (x & <- & _)); cbn [In map] in *; tauto. }
  apply Forall_forall. intros n H. apply G in H. cbn [In map] in H.
  repeat (destruct H as [H|H]; [subst n; repeat split; vm_compute; intuition discriminate|]). destruct H.
Qed.

(** Full statement: after a run the file shows every operator of the sampler, identified by its name, with
    the accepted and rejected proposals of the whole run.  This is false (below).  Proved: whatever was in
    the file before, it can be read back as one entry per operator, in the order of the operators, with the
    true numbers of accepted and rejected proposals up to and including the step of the last logged sample
    and their rate up to rounding.  Missing: the steps after the last logged sample, the names, runs of a
    single step (they crash, C20), uniform draws that are exactly zero (C16), floating point errors of the rate. *)
Theorem C70_file_partial : forall S ll pr fp src confs (ss : list S) draws steps samples disk,
  valid_spacing steps samples -> 1 < steps -> positive_draws draws ->
  let names := operator_classes src confs in ops_below (length names) draws ->
  let tally_logged := tally ll pr fp draws (init_sampler ll pr fp (length names) ss)
                        (Datatypes.S ((samples - 1) * (steps / samples))) (length ss) in
  exists sm text es, stats_run ll pr fp names ss steps samples draws disk = Ok (sm, Some text) /\
    read_stats text = Some (map s_ ["OPERATOR"; "ACCEPTS"; "REJECTS"; "TOTAL"; "ACC. RATE"]%string, es) /\
    length es = length names /\
    forall k name e, nth_error names k = Some name -> nth_error es k = Some e ->
      shows name (tally_logged k true) (tally_logged k false) e.
Proof.
  intros S ll pr fp src confs ss draws steps samples disk Hv Hs Hp names Hb tl.
  destruct (run_stats_file ll pr fp names ss disk Hv Hs Hp) as (sm & sm' & H1 & H2 & H3).
  exists sm, (stats_text names sm'). unfold stats_text in *.
  assert (Hl : length (op_ops (statistics sm')) = length names).
  { destruct (@after_ops S ll pr fp draws (length names) ss _ sm' 0 Hb H2) as [Hl _].
    destruct (C18_counts _ _ _ _ _ _ _ _ _ Hb H2) as (_ & _ & E). rewrite E. exact Hl. }
  assert (Hc : forall k, nth k (op_ops (statistics sm')) (0, 0) = (tl k true, tl k false)).
  { intros k. apply (C18_per_operator _ _ _ _ _ _ _ _ _ k Hb H2). }
  set (cs := op_ops (statistics sm')) in *. clearbody cs.
  assert (Hn : forall k n, nth_error names k = Some n ->
    nth_error (operators_of names cs) k = Some {| op_name := n; op_accepts := tl k true; op_rejects := tl k false |}).
  { intros k n Hk. unfold operators_of. pose proof (Hc k) as Hck.
    assert (Hkc : nth_error cs k = Some (tl k true, tl k false)).
    { rewrite <- Hck. apply nth_error_nth'. rewrite Hl. apply nth_error_Some. congruence. }
    clear -Hk Hkc. revert cs k Hk Hkc. generalize (tl) as t. intros t.
    assert (G : forall (a b : nat) ns cs k, nth_error ns k = Some n -> nth_error cs k = Some (a, b) ->
      nth_error (map2 (fun n '(a, r) => {| op_name := n; op_accepts := a; op_rejects := r |}) ns cs) k = Some {| op_name := n; op_accepts := a; op_rejects := b |}).
    { intros a b ns. induction ns as [|x ns IH]; intros cs [|k]; simpl; try discriminate; destruct cs as [|[u v] cs]; simpl; try discriminate.
      - intros [= ->] [= -> ->]. reflexivity.
      - apply IH. }
    intros cs k. apply G. }
  assert (Hlo : length (operators_of names cs) = length names).
  { unfold operators_of. clear -Hl. revert cs Hl. induction names as [|n ns IH]; intros [|[a b] cs]; simpl; auto; discriminate. }
  assert (Hclean : Forall (fun o => clean_name (op_name o)) (operators_of names cs)).
  { apply Forall_forall. intros o Ho. apply In_nth_error in Ho as (k & Hk).
    assert (Hk' : k < length names) by (rewrite <- Hlo; apply nth_error_Some; congruence).
    destruct (nth_error names k) as [n|] eqn:En; [|apply nth_error_None in En; lia].
    rewrite (Hn k n En) in Hk. injection Hk as <-. simpl.
    pose proof (classes_clean src confs) as C. rewrite Forall_forall in C. apply C. eapply nth_error_In; eauto. }
  destruct (read_written Hclean) as (es & E1 & E2). exists es. split; [exact H3|]. split; [exact E1|].
  assert (E3 : length (operators_of names cs) = length es) by (clear -E2; induction E2; simpl; auto). split; [congruence|].
  intros k name e Hk He. pose proof (Hn k name Hk) as Ho.
  revert Ho. generalize (tl k true) (tl k false). intros a b Ho. clear -E2 He Ho. revert k He Ho. induction E2 as [|o e' os es' H E2 IH]; intros [|k]; simpl; try discriminate.
  - intros [= ->] [= ->]. exact H.
  - apply IH.
Qed.
Print Assumptions C70_file_partial.

(** A run of four steps with two logged samples; steps 0 and 3 use operator 0, which is always accepted in
    step 0 and rejected in step 3, steps 1 and 2 use operator 3. *)
Definition stats_draws (i c : nat) : draw nat :=
  match i with
  | 0 => {| d_op := 0; d_prop := fun s => RGibbs (Datatypes.S s); d_u := (1/2)%R |}
  | 1 => {| d_op := 3; d_prop := fun _ => RReject nat; d_u := (1/2)%R |}
  | 2 => {| d_op := 3; d_prop := fun s => RGibbs (s * 2); d_u := (1/2)%R |}
  | _ => {| d_op := 0; d_prop := fun _ => RReject nat; d_u := (1/2)%R |}
  end.
Definition stats_confs : list str := [s_ "universal"; s_ "family"].
Lemma stats_positive : positive_draws stats_draws.
Proof. intros i c. unfold stats_draws. destruct i as [|[|[|i]]]; simpl; Lra.lra. Qed.
Lemma stats_below : ops_below (length (operator_classes false stats_confs)) stats_draws.
Proof. intros i c. unfold stats_draws. destruct i as [|[|[|i]]]; simpl; lia. Qed.
Definition stats_final : str := write_to (operators_of (operator_classes false stats_confs) [(1, 0); (0, 0); (0, 0); (1, 1); (0, 0)]).
Lemma stats_run_case ll pr disk : exists sm, stats_run ll pr false (operator_classes false stats_confs) [7] 4 2 stats_draws disk = Ok (sm, Some stats_final) /\
  op_ops (statistics sm) = [(1, 1); (0, 0); (0, 0); (1, 1); (0, 0)].
Proof. eexists. split; reflexivity. Qed.
Example C70_case : valid_spacing 4 2 /\ positive_draws stats_draws /\ ops_below (length (operator_classes false stats_confs)) stats_draws /\
  read_stats stats_final = Some (map s_ ["OPERATOR"; "ACCEPTS"; "REJECTS"; "TOTAL"; "ACC. RATE"]%string,
    [{| e_name := s_ "AlterCluster"; e_stats := Some (1, 0, 1, (100 + 0 / 100)%Q) |};
     {| e_name := s_ "AlterWeights"; e_stats := None |};
     {| e_name := s_ "AlterClusterEffect"; e_stats := None |};
     {| e_name := s_ "AlterConfoundingEffects"; e_stats := Some (1, 1, 2, (50 + 0 / 100)%Q) |};
     {| e_name := s_ "AlterConfoundingEffects"; e_stats := None |}]).
Proof.
  split; [repeat split; lia|]. split; [apply stats_positive|]. split; [apply stats_below|]. vm_compute. reflexivity.
Qed.

(** The file need not show the statistics of the whole run: it is not written again after the last logged
    sample. *)
Theorem C70_final_refuted : exists S ll pr src confs (ss : list S) draws steps samples sm text h es k name e,
  valid_spacing steps samples /\ positive_draws draws /\ ops_below (length (operator_classes src confs)) draws /\
  stats_run ll pr false (operator_classes src confs) ss steps samples draws None = Ok (sm, Some text) /\
  read_stats text = Some (h, es) /\ nth_error (operator_classes src confs) k = Some name /\ nth_error es k = Some e /\
  let tally_run := tally ll pr false draws (init_sampler ll pr false (length (operator_classes src confs)) ss) steps (length ss) in
  ~ shows name (tally_run k true) (tally_run k false) e.
Proof.
  destruct (stats_run_case (fun _ => Fin 0) (fun _ => Fin 0) None) as (sm & H & _).
  destruct C70_case as (H1 & H2 & H3 & H4).
  eexists nat, (fun _ => Fin 0), (fun _ => Fin 0), false, stats_confs, [7], stats_draws, 4, 2, sm, stats_final, _, _, 0, _, _.
  split; [exact H1|]. split; [exact H2|]. split; [exact H3|]. split; [exact H|]. split; [exact H4|]. split; [reflexivity|]. split; [reflexivity|].
  cbv zeta. intros [_ (_ & E & _)]. vm_compute in E. discriminate.
Qed.
Print Assumptions C70_final_refuted.

(** The name does not identify the operator as soon as there are two confounders ... *)
Theorem C70_names_refuted : exists src confs, NoDup confs /\ ~ NoDup (operator_classes src confs).
Proof.
  exists true, stats_confs. split.
  - constructor; [simpl; intuition discriminate|]. constructor; [auto|constructor].
  - intros H. apply NoDup_remove_2 with (l := operator_classes true [s_ "family"]) (l' := []) in H. apply H. simpl. tauto.
Qed.
Print Assumptions C70_names_refuted.
(** ... and only then. *)
Theorem C70_names : forall src confs, NoDup (operator_classes src confs) <-> length confs <= 1.
Proof.
  intros src confs. destruct confs as [|a [|b confs]].
  1, 2: split; [simpl; lia|intros _; destruct src; repeat constructor; simpl; intuition discriminate].
  split; [|simpl; lia]. intros H. exfalso. unfold operator_classes in H. destruct src; cbn [map] in H;
    apply NoDup_remove_2 in H; apply H; apply in_or_app; right; simpl; auto.
Qed.
Print Assumptions C70_names.
