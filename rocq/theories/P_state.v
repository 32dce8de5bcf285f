(** Property theorems C01, C02, C05 (sampling/state.py parameters). *)
From Verif Require Import Base M_state S_state L_state.

(** A history used as the concrete case: two parameters, two copies, edits on all of them. *)
Definition demo_ops : list (sop nat) :=
  [SNew [[1; 2]; [7]]; SCopy 0; SParam 1 0 (EditGroup 1 (fun _ => 5)); SCopy 1;
   SParam 0 0 (Edit (map S)); SParam 2 1 (SetItems 0 (fun x => x + 1)); SParam 2 0 (AbortEdit (map S));
   SParam 0 1 (SetItemsBadKey (fun l => l)); SParam 1 0 (AbortEditGroup 0 (fun _ => 9));
   SCopy 2; SParam 3 0 (RawAssign [6])].
Definition demo_ops_sv : list (sop nat) := demo_ops ++ [SParam 1 1 (SetValue [0])].

(** C01. After any history of constructions, copies and (completed or failing) modifications, every
    value and version number readable from any sample is the one a deep-copying implementation
    would give. *)
Theorem C01_samples_isolated : forall (A : Type) (ops : list (sop A)),
  observe_values (run ops) = spec_values (spec_run ops).
Proof. exact samples_isolated. Qed.
Print Assumptions C01_samples_isolated.

Example C01_case :
  spec_values (spec_run demo_ops_sv) =
  [[Some ([2; 3], 1%Z); Some ([7], 1%Z)]; [Some ([9; 5], 1%Z); Some ([0], 1%Z)];
   [Some ([2; 6], 1%Z); Some ([8], 1%Z)]; [Some ([6], 1%Z); Some ([8], 1%Z)]].
Proof. reflexivity. Qed.

(** C02. The same including the per-group change marks, for histories that do not replace a whole
    array with [set_value]. *)
Theorem C02_tracking_isolated_partial : forall (A : Type) (ops : list (sop A)),
  forallb (fun o => negb (is_set_value o)) ops = true ->
  observe (run ops) = map (map Some) (spec_run ops).
Proof. exact tracking_isolated. Qed.
Print Assumptions C02_tracking_isolated_partial.

Example C02_case : forallb (fun o => negb (is_set_value o)) demo_ops = true /\
  nth_error (spec_run demo_ops) 2 =
  Some [{| v_value := [2; 6]; v_version := 1; v_gv := [0; 1]%Z |};
        {| v_value := [8]; v_version := 1; v_gv := [1]%Z |}].
Proof. split; reflexivity. Qed.

(** C02 is false with [set_value]: there is a history after which an edit of sample 1 changes the
    change marks read from sample 0. *)
Theorem C02_tracking_isolated_refuted : exists (ops : list (sop nat)) (o : pop nat),
  nth_error (observe (run (ops ++ [SParam 1 0 o]))) 0 <> nth_error (observe (run ops)) 0.
Proof.
  exists [SNew [[1; 2]]; SCopy 0; SParam 1 0 (SetValue [3; 4])], (EditGroup 0 (fun x => x)).
  vm_compute. discriminate.
Qed.
Print Assumptions C02_tracking_isolated_refuted.

(** C05 is false: an edit whose body raises leaves a changed value behind under the old version. *)
Theorem C05_failing_edit_noticed_refuted : exists (ops : list (sop nat)) (f : list nat -> list nat) v v' n g g',
  observe (run ops) = [[Some {| v_value := v; v_version := n; v_gv := g |}]] /\
  observe (run (ops ++ [SParam 0 0 (AbortEdit f)])) = [[Some {| v_value := v'; v_version := n; v_gv := g' |}]] /\
  v <> v'.
Proof.
  exists [SNew [[1; 2]]], (map S), [1; 2], [2; 3], 0%Z, [0%Z; 0%Z], [0%Z; 0%Z].
  split; [reflexivity|split; [reflexivity|discriminate]].
Qed.
Print Assumptions C05_failing_edit_noticed_refuted.

(** C05, the part that holds: whenever an operation other than a raising edit body (or an assignment to [_value] by the
    logger, C88) changes a value
    of a sample, the version of that parameter is larger afterwards; and a raising body touches no
    other parameter (C01 covers this). *)
Theorem C05_completed_edit_noticed_partial : forall (A : Type) (ops : list (sop A)) (o : sop A) s k v n v' n',
  (forall s' k' f, o <> SParam s' k' (AbortEdit f)) ->
  (forall s' k' g f, o <> SParam s' k' (AbortEditGroup g f)) ->
  (forall s' k' v, o <> SParam s' k' (RawAssign v)) ->
  slot (observe_values (run ops)) s k = Some (v, n) ->
  slot (observe_values (run (ops ++ [o]))) s k = Some (v', n') ->
  (v' = v /\ n' = n) \/ (n < n')%Z.
Proof. exact completed_edit_noticed. Qed.
Print Assumptions C05_completed_edit_noticed_partial.

Example C05_case :
  slot (observe_values (run demo_ops)) 0 0 = Some ([2; 3], 1%Z) /\
  slot (observe_values (run (demo_ops ++ [SParam 0 0 (EditGroup 0 (fun x => 4))]))) 0 0 = Some ([4; 3], 2%Z).
Proof. split; reflexivity. Qed.
