(** What is expected of the tool that extracts the states of the features, on the text of the files. *)
From Verif Require Import M_extract L_data.
Set Implicit Arguments.
Unset Strict Implicit.

(** A file of data without traps: column names are different and not blank; cells that are not missing do not become
    missing by stripping; no carriage returns within cells. *)
Record tidy (na : str -> bool) (f : csv) : Prop := {
  names_differ : NoDup (map fst f);
  names_visible : Forall (fun n => ~ In carriage n /\ exists c, In c n /\ c <> " "%char /\ c <> tab) (map fst f);
  cells_stay : forall n cells c, In (n, cells) f -> In c cells -> na c = false -> na (strip c) = false;
  cells_in_line : forall n cells c, In (n, cells) f -> In c cells -> ~ In carriage c }.

(** [x] is observed for the feature in one of the files. *)
Definition observed (na : str -> bool) (texts : list str) (name x : str) : Prop :=
  exists text n data raw, In text texts /\ read_data_csv na text = Some (n, data) /\ get_col data name = Some raw /\ In (Some x) raw.
(** The configuration of the analysis names the groups of the confounders, which are columns of the data. *)
Definition groups_match (data : frame) (gs : list (str * list str)) : Prop :=
  Forall (fun '(c, g) => exists ls, get_col data c = Some ls /\ forall x, In x g <-> In (Some x) ls) gs.

(** The loaded features are those of the data file, with the states of all files. *)
Record represents (na : str -> bool) (texts : list str) (data : frame) (d : loaded) : Prop := {
  rep_features : NoDup (ld_feature_names d) /\
    forall name, In name (ld_feature_names d) <-> In name (map fst data) /\ ~ In name metadata;
  rep_states : forall f name, nth_error (ld_feature_names d) f = Some name ->
    NoDup (nth f (enc_names (ld_features d)) []) /\
    (forall x, In x (nth f (enc_names (ld_features d)) []) <-> observed na texts name x) /\
    forall j, nth j (nth f (enc_states (ld_features d)) []) false = true <-> j < length (nth f (enc_names (ld_features d)) []);
  rep_values : forall f name raw, nth_error (ld_feature_names d) f = Some name -> get_col data name = Some raw ->
    length (nth f (enc_values (ld_features d)) []) = length raw /\
    forall o v, nth_error raw o = Some v ->
      match v with
      | None => forall j, nth j (nth o (nth f (enc_values (ld_features d)) []) []) false = false
      | Some x => exists j, hot_at (nth o (nth f (enc_values (ld_features d)) []) []) j /\
                            nth_error (nth f (enc_names (ld_features d)) []) j = Some x
      end }.
