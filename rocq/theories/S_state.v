(** Specification for C01/C02: samples as pure values, [copy] duplicates everything (deep copy). *)
From Verif Require Import Base M_state.

Set Implicit Arguments.

Section Spec.
Variable A : Type.

(** What can be observed of a parameter: its value, version number and group versions. *)
Record pval := { v_value : list A; v_version : Z; v_gv : list Z }.

(** Effect of an operation on a privately owned parameter. *)
Definition spec_pop (o : pop A) (x : pval) : pval :=
  match o with
  | SetValue v => {| v_value := v; v_version := v_version x + 1; v_gv := v_gv x |}
  | Edit f | SetItemsBadKey f =>
      {| v_value := f (v_value x); v_version := v_version x + 1; v_gv := v_gv x |}
  | EditGroup g f | SetItems g f =>
      if (g <? length (v_value x))%nat then
        {| v_value := upd g f (v_value x); v_version := v_version x + 1;
           v_gv := upd g (fun _ => v_version x + 1)%Z (v_gv x) |}
      else x
  | AbortEdit f => {| v_value := f (v_value x); v_version := v_version x; v_gv := v_gv x |}
  | AbortEditGroup g f =>
      if (g <? length (v_value x))%nat then
        {| v_value := upd g f (v_value x); v_version := v_version x; v_gv := v_gv x |}
      else x
  | RawAssign v => {| v_value := v; v_version := v_version x; v_gv := v_gv x |}
  end%Z.

(** Deep-copy semantics on a list of samples (each a list of parameters). *)
Definition spec_sop (ss : list (list pval)) (o : sop A) : list (list pval) :=
  match o with
  | SNew vs => ss ++ [map (fun v => {| v_value := v; v_version := 0;
                                       v_gv := repeat 0%Z (length v) |}) vs]
  | SCopy s => match nth_error ss s with Some x => ss ++ [x] | None => ss end
  | SParam s k o => upd s (upd k (spec_pop o)) ss
  end.

Definition spec_run (ops : list (sop A)) : list (list pval) := fold_left spec_sop ops [].

(** Everything that can be read from a running system. *)
Definition observe (y : sys A) : list (list (option pval)) :=
  map (map (fun i => match nth_error (params (sys_w y)) i with
                     | None => None
                     | Some p => Some {| v_value := read_value (sys_w y) p;
                                         v_version := p_version p;
                                         v_gv := read_gv (sys_w y) p |}
                     end)) (sys_samples y).

(** As [observe] but without the group versions. *)
Definition observe_values (y : sys A) : list (list (option (list A * Z))) :=
  map (map (option_map (fun x => (v_value x, v_version x)))) (observe y).

Definition spec_values (ss : list (list pval)) : list (list (option (list A * Z))) :=
  map (map (fun x => Some (v_value x, v_version x))) ss.

Definition is_set_value (o : sop A) : bool :=
  match o with SParam _ _ (SetValue _) => true | _ => false end.

(** Value and version number read from parameter [k] of sample [s]. *)
Definition slot (obs : list (list (option (list A * Z)))) (s k : nat) : option (list A * Z) :=
  match nth_error obs s with
  | None => None
  | Some l => match nth_error l k with Some (Some x) => Some x | _ => None end
  end.

End Spec.
