(** Configuration dictionaries with identities: [set_defaults] (util.py:1240-1263) stores references to the
    dictionaries of the defaults, and later assignments change dictionaries in place.  Every dictionary carries
    the identity of the Python object; two places holding the same identity hold the same object. *)
From Verif Require Export M_config.
Set Implicit Arguments.
Unset Strict Implicit.

Section Objects.
Variable Setting : Type.
Inductive obj := OLeaf (x : Setting) | ODict (id : nat) (items : list (str * obj)).
Fixpoint oget (k : str) (d : list (str * obj)) : option obj :=
  match d with [] => None | (k', v) :: r => if str_eqb k k' then Some v else oget k r end.
Fixpoint oput (k : str) (v : obj) (d : list (str * obj)) : list (str * obj) :=
  match d with
  | [] => [(k, v)]
  | (k', v') :: r => if str_eqb k k' then (k', v) :: r else (k', v') :: oput k v r
  end.
Definition o_is_dict (t : obj) : bool := match t with ODict _ _ => true | OLeaf _ => false end.
(** util.py:1240-1263: the dictionary [cfg] keeps its identity, the inserted values keep theirs.  (As long as
    user and default dictionaries are different objects and trees, only dictionaries of [cfg] are changed.) *)
Fixpoint o_set_defaults (default cfg : obj) {struct default} : obj :=
  match default, cfg with
  | ODict _ items, ODict a c =>
      ODict a ((fix loop (items : list (str * obj)) (c : list (str * obj)) {struct items} : list (str * obj) :=
         match items with
         | [] => c
         | (k, v) :: r =>
             loop r (match oget k c with
                     | None => oput k v c
                     | Some w => if o_is_dict v && o_is_dict w then oput k (o_set_defaults v w) c else c
                     end)
         end) items c)
  | _, _ => cfg
  end.
(** The object found at the end of a path. *)
Fixpoint o_lookup (p : list str) (t : obj) : option obj :=
  match p with
  | [] => Some t
  | k :: p => match t with ODict _ d => match oget k d with Some v => o_lookup p v | None => None end | OLeaf _ => None end
  end.
(** [d[k] = x] for the dictionary with identity [a], as seen from a tree: all places holding it. *)
Fixpoint o_store (a : nat) (k : str) (x : Setting) (t : obj) : obj :=
  match t with
  | OLeaf y => OLeaf y
  | ODict b items =>
      let items := map (fun '(k', v) => (k', o_store a k x v)) items in
      ODict b (if a =? b then oput k (OLeaf x) items else items)
  end.
(** [cfg[p1][p2]...[k] = x]: the configuration and the defaults afterwards; [None]: KeyError or TypeError. *)
Definition assign (p : list str) (k : str) (x : Setting) (cfg default : obj) : option (obj * obj) :=
  match o_lookup p cfg with
  | Some (ODict a _) => Some (o_store a k x cfg, o_store a k x default)
  | _ => None
  end.
(** All identities in a tree. *)
Fixpoint ids (t : obj) : list nat :=
  match t with OLeaf _ => [] | ODict a items => a :: flat_map (fun '(_, v) => ids v) items end.
End Objects.
Arguments OLeaf {Setting} x. Arguments ODict {Setting} id items.

(** plot.py:102-124 -- [load_config], up to the assignments: returns the configuration and the (module-wide)
    defaults.  Settings are strings; conversion of lists to tuples and paths are not modelled. *)
Definition load_config (cfg default : obj str) : option (obj str * obj str) :=
  let c := o_set_defaults default cfg in
  match o_lookup (map s_ ["map"; "content"; "type"]%string) c with
  | Some (OLeaf t) =>
      if str_eqb t (s_ "density_map")
      then assign (map s_ ["map"; "legend"; "correspondence"]%string) (s_ "color_labels") (s_ "false") c default
      else Some (c, default)
  | _ => None
  end.
