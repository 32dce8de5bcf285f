(** Specifications for the rest of the plots (C82-C86), independent of the plotting code. *)
From Coq Require Import QArith.
From Verif Require Import M_model M_text.
Set Implicit Arguments.
Unset Strict Implicit.
Close Scope Q_scope.
Open Scope nat_scope.

(** * C82 *)
(** A model: its directory (the parts of the path) and the name of the model. *)
Definition model := (list str * str)%type.
Definition clusters_txt (m : model) : list str := fst m ++ [s_ "clusters_" ++ snd m ++ s_ ".txt"].
Definition stats_txt (m : model) : list str := fst m ++ [s_ "stats_" ++ snd m ++ s_ ".txt"].
(** Directories inside the directory of a model do not have names from 'c' to 's' (e.g. the program's own
    directories K2, K3; also true without directories inside other directories). *)
Definition outside (k : str) : Prop := forall c r, k = c :: r -> (N_of_ascii c < N_of_ascii "c")%N \/ (N_of_ascii "s" < N_of_ascii c)%N.
Definition apart (d d' : list str) : Prop := forall k e, d' = d ++ k :: e -> outside k.
Definition well_placed (ms : list model) : Prop := forall m m', In m ms -> In m' ms -> apart (fst m) (fst m').
(** The last entry of a key. *)
Definition last_entry {A} (ms : list (str * A)) (k : str) (v : A) : Prop :=
  exists before after, ms = before ++ (k, v) :: after /\ ~ In k (map fst after).

(** * C83 *)
(** No object is in two lists. *)
Definition disjoint (ls : list (list nat)) : Prop := forall o i j, In o (nth i ls []) -> In o (nth j ls []) -> i = j.

(** * C84 *)
(** Decreasing (not necessarily strictly). *)
Definition decreasing (l : list Q) : Prop := forall i j, i < j -> j < length l -> (nth j l 0 <= nth i l 0)%Q.
Definition average (l : list Q) : Q := (fold_right Qplus 0 l / inject_Z (Z.of_nat (length l)))%Q.
