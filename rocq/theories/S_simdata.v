(** What is expected of the files of a simulation, read as the data of an analysis. *)
From Verif Require Import M_simdata L_data.
Set Implicit Arguments.
Unset Strict Implicit.

(** Text that is written without quotes and not taken for quoted text. *)
Definition plain (x : str) : Prop :=
  ~ In comma x /\ ~ In bar x /\ ~ In newline x /\ ~ In carriage x /\ (forall r, x <> quote :: r).
(** Cells that are not changed by reading: not missing, no spaces at the ends. *)
Definition solid (na : str -> bool) (x : str) : Prop := plain x /\ na x = false /\ strip x = x.

(** A simulation of [nf] features at the sites [si], with the columns of the canvas. *)
Record simulated (si : sites) (nf : nat) (features : list (list nat)) : Prop := {
  some_features : 1 <= nf;
  rows_of_features : length features = length (si_id si) /\ Forall (fun r => length r = nf) features;
  coordinates : length (si_x si) = length (si_id si) /\ length (si_y si) = length (si_id si);
  labels : Forall (fun c => length (snd c) = length (si_id si)) (si_confounders si);
  confounder_names : NoDup (map fst (si_confounders si)) /\
    Forall (fun c => ~ In (fst c) (map s_ ["id"; "x"; "y"; "name"]%string) /\ forall k, fst c <> s_ "f" ++ str_nat k) (si_confounders si) }.
(** All texts are safe to write and read. *)
Record readable (na : str -> bool) (show : Q -> str) (parse : str -> option Q) (si : sites) : Prop := {
  empty_is_missing : na [] = true;
  ids_solid : Forall (solid na) (si_id si);
  names_plain : Forall (fun c => plain (fst c)) (si_confounders si);
  labels_solid : Forall (fun c => Forall (solid na) (snd c)) (si_confounders si);
  numbers_solid : forall k, na (str_nat k) = false;
  floats_solid : Forall (fun q => solid na (show q) /\ parse (show q) = Some q) (si_x si ++ si_y si) }.
(** Any way of listing a set. *)
Definition lists_sets (list_set : list nat -> list nat) : Prop :=
  forall l, NoDup (list_set l) /\ forall x, In x (list_set l) <-> In x l.
(** The configuration of the analysis names the groups of the confounders. *)
Definition names_groups (si : sites) (gs : list (str * list str)) : Prop :=
  Forall (fun '(c, g) => exists ls, In (c, ls) (si_confounders si) /\ forall x, In x g <-> In x ls) gs.

(** The loaded data are the simulated ones. *)
Record same_data (si : sites) (nf : nat) (features : list (list nat)) (gs : list (str * list str)) (d : loaded) : Prop := {
  same_ids : ob_id (ld_objects d) = map Some (si_id si);
  same_names : ob_names (ld_objects d) = map Some (si_id si);
  same_locations : ob_x (ld_objects d) = map Some (si_x si) /\ ob_y (ld_objects d) = map Some (si_y si);
  same_features : length (enc_values (ld_features d)) = nf;
  (** every observation is its simulated state *)
  same_states : forall f o row, f < nf -> nth_error features o = Some row -> exists j,
    hot_at (nth o (nth f (enc_values (ld_features d)) []) []) j /\
    nth_error (nth f (enc_names (ld_features d)) []) j = Some (str_nat (nth f row 0)) /\
    nth j (nth f (enc_states (ld_features d)) []) false = true;
  (** the applicable states are different, and they are those that were observed *)
  observed_states : forall f, f < nf -> NoDup (nth f (enc_names (ld_features d)) []) /\
    forall j, nth j (nth f (enc_states (ld_features d)) []) false = true ->
    exists o row, nth_error features o = Some row /\ nth_error (nth f (enc_names (ld_features d)) []) j = Some (str_nat (nth f row 0));
  nothing_missing : enc_na (ld_features d) = 0;
  same_confounders : map fst (ld_confounders d) = map fst gs /\
    forall c cd, In (c, cd) (ld_confounders d) -> exists ls g, In (c, ls) (si_confounders si) /\ In (c, g) gs /\
      cd_groups cd = g /\ forall k o x l, nth_error g k = Some x -> nth_error ls o = Some l ->
        (nth o (nth k (cd_assignment cd) []) false = true <-> l = x) }.

(** The canvas: a header and rows of cells; an empty cell stands for "0". *)
Definition filled (v : str) : str := match v with [] => s_ "0" | _ => v end.
Definition column_of (header : list str) (body : list (list str)) (name : str) (col : list str) : Prop :=
  exists j, nth_error header j = Some name /\ Forall2 (fun row v => v = filled (nth j row [])) body col.
