(** Model of tools/extract_feature_states.py on the text of the files: the tables are read with pandas' [read_csv] (line 43)
    and the states are written with [to_csv] (line 134).  The model of the tool on tables is in M_data.v. *)
From Verif Require Export M_simdata.
Set Implicit Arguments.
Unset Strict Implicit.

(** Line 43: [pd.read_csv(features_path, sep=',', dtype=str)], as a table of cells. *)
Definition read_cells (text : str) : option csv :=
  match tokenize text with
  | None => None
  | Some records => option_map columns (make_table records)
  end.
(** Line 134: [to_csv(output_path, index=False)] of a table of columns of the same length: double quotes where they are
    needed, lines end in a newline (as on Linux), missing values are written as empty cells. *)
Definition to_csv (f : csv) : str := write_rows quote [newline] (map fst f :: zip_columns (map snd f)).

Section Tool.
Variable na : str -> bool.
(** Lines 65-134 -- [main] with the paths given as arguments; [None]: an exception. *)
Definition extract_feature_states_main (texts : list str) : option str :=
  match all_opt' (map read_cells texts) with
  | None => None
  | Some files => option_map to_csv (extract_feature_states na files)
  end.
End Tool.
