(** Model of the parameter objects of [sbayes/sampling/state.py] with explicit sharing.

    numpy arrays live in a heap ([arrs] for parameter values, [gvs] for group-version arrays) and
    parameter objects hold references to them.  An array is a list of rows ("groups"), the element
    type [A] of rows is arbitrary.  Plain [ArrayParameter]s are modelled as grouped ones whose
    group versions nobody reads.

    Simplifications: numpy's write-protection flags are not modelled (nothing in the code relies on
    catching a write error); shapes are not enforced on the edit functions (an over-approximation:
    [f] may be any function); negative and fancy indices are not modelled. *)
From Verif Require Import Base.

Set Implicit Arguments.

Section State.
Variable A : Type.

(** state.py:20-43, 82-88 -- attributes [_value], [version], [shared], [group_versions]. *)
Record param := { p_ref : nat; p_version : Z; p_shared : bool; p_gref : nat }.

(** The heap together with all parameter objects created so far. *)
Record world := { arrs : list (list A); gvs : list (list Z); params : list param }.

(** state.py:30-31 -- reading [value]. *)
Definition read_value (w : world) (p : param) : list A := nth (p_ref p) (arrs w) [].
(** state.py:84 -- reading [group_versions]. *)
Definition read_gv (w : world) (p : param) : list Z := nth (p_gref p) (gvs w) [].

Definition set_param (w : world) (i : nat) (f : param -> param) : world :=
  {| arrs := arrs w; gvs := gvs w; params := upd i f (params w) |}.

(** state.py:77-79 and 121-123 -- [resolve_sharing] of [GroupedParameters]: copies the group
    versions and the value, clears [shared]. *)
Definition resolve_sharing (w : world) (i : nat) (p : param) : world :=
  {| arrs := arrs w ++ [read_value w p];
     gvs := gvs w ++ [read_gv w p];
     params := upd i (fun _ => {| p_ref := length (arrs w); p_version := p_version p;
                                  p_shared := false; p_gref := length (gvs w) |}) (params w) |}.

(** state.py:55-56, 65-66, 112-113 -- "if self.shared: self.resolve_sharing()". *)
Definition resolve_if_shared (w : world) (i : nat) (p : param) : world :=
  if p_shared p then resolve_sharing w i p else w.

(** In-place modification of the array of parameter object [i]. *)
Definition write_value (w : world) (i : nat) (f : list A -> list A) : world :=
  match nth_error (params w) i with
  | None => w
  | Some p => {| arrs := upd (p_ref p) f (arrs w); gvs := gvs w; params := params w |}
  end.

(** "self.version += 1" *)
Definition bump (p : param) : param :=
  {| p_ref := p_ref p; p_version := (p_version p + 1)%Z; p_shared := p_shared p; p_gref := p_gref p |}.

(** "self.group_versions[g] = self.version" (state.py:95, 97, 119). *)
Definition write_gv (w : world) (i g : nat) : world :=
  match nth_error (params w) i with
  | None => w
  | Some p => {| arrs := arrs w; gvs := upd (p_gref p) (upd g (fun _ => p_version p)) (gvs w);
                 params := params w |}
  end.

(** The operations of the public interface on one parameter object. *)
Inductive pop :=
| SetValue (v : list A)                          (* set_value with an array owned by nobody else *)
| Edit (f : list A -> list A)                    (* with p.edit() as v: v[...] = f(v) *)
| EditGroup (g : nat) (f : A -> A)               (* with p.edit_group(g) as r: r[...] = f(r); also
                                                    set_group, add_object, remove_object *)
| SetItems (g : nat) (f : A -> A)                (* p.set_items(g or (g, ...), values) *)
| SetItemsBadKey (f : list A -> list A)          (* p.set_items(<slice, list, np.int64>, values) *)
| AbortEdit (f : list A -> list A)               (* body of edit() raises after doing f *)
| AbortEditGroup (g : nat) (f : A -> A)          (* body of edit_group(g) raises after doing f *)
| RawAssign (v : list A).                        (* p._value = v with an array owned by nobody else,
                                                    bypassing the interface (loggers.py:204-205) *)

(** state.py:49-52 -- [ArrayParameter.set_value]: new array, version + 1, [shared] cleared;
    [group_versions] is not touched. *)
Definition do_set_value (w : world) (i : nat) (v : list A) : world :=
  {| arrs := arrs w ++ [v]; gvs := gvs w;
     params := upd i (fun p => {| p_ref := length (arrs w); p_version := (p_version p + 1)%Z;
                                  p_shared := false; p_gref := p_gref p |}) (params w) |}.

(** loggers.py:204-205 -- assignment to the attribute [_value] (state.py:20): a new array, while
    [version], [shared] and [group_versions] stay as they are. *)
Definition do_raw_assign (w : world) (i : nat) (v : list A) : world :=
  {| arrs := arrs w ++ [v]; gvs := gvs w;
     params := upd i (fun p => {| p_ref := length (arrs w); p_version := p_version p;
                                  p_shared := p_shared p; p_gref := p_gref p |}) (params w) |}.

(** state.py:63-71 -- [ArrayParameter.edit] with a body that performs [f] and terminates. *)
Definition do_edit (w : world) (i : nat) (p : param) (f : list A -> list A) : world :=
  let w1 := resolve_if_shared w i p in
  let w2 := write_value w1 i f in
  set_param w2 i bump.

(** state.py:63-71 -- [edit] whose body raises after performing [f]: no try/finally, the code after
    the [yield] is skipped. *)
Definition do_abort_edit (w : world) (i : nat) (p : param) (f : list A -> list A) : world :=
  write_value (resolve_if_shared w i p) i f.

(** state.py:110-119 -- [edit_group]; an index out of range raises IndexError at the [yield], after
    the sharing was resolved. *)
Definition do_edit_group (w : world) (i : nat) (p : param) (g : nat) (f : A -> A) : world :=
  let w1 := resolve_if_shared w i p in
  if g <? length (read_value w p) then
    let w2 := write_value w1 i (upd g f) in
    let w3 := set_param w2 i bump in
    write_gv w3 i g
  else w1.

(** state.py:90-100 and 54-61 -- [GroupedParameters.set_items] with an int or tuple key. *)
Definition do_set_items (w : world) (i : nat) (p : param) (g : nat) (f : A -> A) : world :=
  let w1 := resolve_if_shared w i p in
  if g <? length (read_value w p) then
    let w2 := write_value w1 i (upd g f) in
    let w3 := set_param w2 i bump in
    write_gv w3 i g
  else w1.

(** One operation on parameter object [i]; unknown objects do not exist in Python (no-op here).
    [SetItemsBadKey]: state.py:91 has already modified the value and bumped the version when
    state.py:99 raises, exactly as for [edit]. *)
Definition do_pop (w : world) (i : nat) (o : pop) : world :=
  match nth_error (params w) i with
  | None => w
  | Some p =>
      match o with
      | SetValue v => do_set_value w i v
      | Edit f => do_edit w i p f
      | EditGroup g f => do_edit_group w i p g f
      | SetItems g f => do_set_items w i p g f
      | SetItemsBadKey f => do_edit w i p f
      | AbortEdit f => do_abort_edit w i p f
      | AbortEditGroup g f =>
          if g <? length (read_value w p) then do_abort_edit w i p (upd g f)
          else resolve_if_shared w i p
      | RawAssign v => do_raw_assign w i v
      end
  end.

(** state.py:73-75 -- [copy]: marks the original as shared and returns a shallow copy (which is
    therefore marked as well). The new object gets the next free object number. *)
Definition do_copy (w : world) (i : nat) : world :=
  match nth_error (params w) i with
  | None => w
  | Some p =>
      let p' := {| p_ref := p_ref p; p_version := p_version p; p_shared := true; p_gref := p_gref p |} in
      {| arrs := arrs w; gvs := gvs w; params := upd i (fun _ => p') (params w) ++ [p'] |}
  end.

(** state.py:38-43, 86-88 -- constructing a parameter from an array. *)
Definition do_new (w : world) (v : list A) : world :=
  {| arrs := arrs w ++ [v]; gvs := gvs w ++ [repeat 0%Z (length v)];
     params := params w ++ [{| p_ref := length (arrs w); p_version := 0; p_shared := false;
                               p_gref := length (gvs w) |}] |}.

(** A sample is the list of (the numbers of) its parameter objects: clusters, weights, cluster
    effect, confounding effects, source (state.py:383-401). *)
Record sys := { sys_w : world; sys_samples : list (list nat) }.

(** state.py:440-459 -- [Sample.copy] copies every parameter object. *)
Fixpoint copy_all (w : world) (ps : list nat) : world * list nat :=
  match ps with
  | [] => (w, [])
  | i :: r =>
      let w1 := do_copy w i in
      let (w2, r') := copy_all w1 r in
      (w2, length (params w) :: r')
  end.

(** state.py:419-438 -- [Sample.from_numpy_arrays]. *)
Fixpoint new_all (w : world) (vs : list (list A)) : world * list nat :=
  match vs with
  | [] => (w, [])
  | v :: r =>
      let w1 := do_new w v in
      let (w2, r') := new_all w1 r in
      (w2, length (params w) :: r')
  end.

Inductive sop :=
| SNew (vs : list (list A))            (* Sample.from_numpy_arrays *)
| SCopy (s : nat)                      (* samples[s].copy() *)
| SParam (s k : nat) (o : pop).        (* an operation on parameter k of samples[s] *)

Definition do_sop (y : sys) (o : sop) : sys :=
  match o with
  | SNew vs =>
      let (w, ps) := new_all (sys_w y) vs in
      {| sys_w := w; sys_samples := sys_samples y ++ [ps] |}
  | SCopy s =>
      match nth_error (sys_samples y) s with
      | None => y
      | Some ps =>
          let (w, ps') := copy_all (sys_w y) ps in
          {| sys_w := w; sys_samples := sys_samples y ++ [ps'] |}
      end
  | SParam s k o =>
      match nth_error (sys_samples y) s with
      | None => y
      | Some ps =>
          match nth_error ps k with
          | None => y
          | Some i => {| sys_w := do_pop (sys_w y) i o; sys_samples := sys_samples y |}
          end
      end
  end.

Definition run (ops : list sop) : sys :=
  fold_left do_sop ops {| sys_w := {| arrs := []; gvs := []; params := [] |}; sys_samples := [] |}.

End State.

Arguments SetValue {A}. Arguments Edit {A}. Arguments EditGroup {A}. Arguments SetItems {A}.
Arguments SetItemsBadKey {A}. Arguments AbortEdit {A}. Arguments AbortEditGroup {A}.
Arguments RawAssign {A}.
Arguments SNew {A}. Arguments SCopy {A}. Arguments SParam {A}.
