(** Model of the numerical core of [sbayes/model/likelihood.py] over exact rationals.

    Arrays are nested lists.  The array of component likelihoods, in numpy of shape
    (objects, features, components), is stored here as a list over components of
    (objects x features) matrices, because the code only ever accesses it as [..., i]. *)
From Coq Require Export QArith.
From Verif Require Export Base.
Open Scope Q_scope.

Definition bmat := list (list bool).             (* groups x objects *)
Definition effect := list (list Q).              (* features x states: the effect of one group *)
Definition cube := list (list (list bool)).      (* objects x features x states (or components) *)
Definition lhmat := list (list Q).               (* objects x features *)

Definition Qsum (l : list Q) : Q := fold_right Qplus 0 l.

(** likelihood.py:44 -- [na_features = (sum(features, axis=-1) == 0)]. *)
Definition na_row (f_o : list (list bool)) : list bool := map (forallb negb) f_o.

(** likelihood.py:158 -- one object of [np.einsum('ijk,jk->ij', f_g, p_g)]. *)
Definition einsum_row (f_o : list (list bool)) (p : effect) : list Q :=
  map2 (fun f_of p_f => Qsum (map2 (fun (b : bool) q => if b then q else 0) f_of p_f)) f_o p.

(** likelihood.py:153 -- [groups.any(axis=0)] at object [o]. *)
Definition any_group (groups : bmat) (o : nat) : bool := existsb (fun g => nth o g false) groups.

(** likelihood.py:154-158 -- body of the loop for one changed group.  [groups[i]]/[probs[i]] out of
    range would raise IndexError; the shapes of both arrays agree in all callers (no-op here). *)
Definition update_group (features : cube) (probs : list effect) (groups : bmat)
    (out : lhmat) (i : nat) : lhmat :=
  match nth_error groups i, nth_error probs i with
  | Some g, Some p =>
      mapi (fun o row => if nth o g false then einsum_row (nth o features []) p else row) out
  | _, _ => out
  end.

(** likelihood.py:146-159 -- [compute_component_likelihood].  The set [changed] is given as a list. *)
Definition compute_component_likelihood (n_features : nat) (features : cube) (probs : list effect)
    (groups : bmat) (changed : list nat) (out : lhmat) : lhmat :=
  fold_left (update_group features probs groups) changed
    (mapi (fun o row => if any_group groups o then row else repeat 0 n_features) out).

(** likelihood.py:139 -- [component_likelihood[self.na_features] = 1.] for one component. *)
Definition set_na (features : cube) (out : lhmat) : lhmat :=
  map2 (fun f_o row => map2 (fun (na : bool) v => if na then 1 else v) (na_row f_o) row) features out.

(** state.py:139-140, 276-278, 289 and load_data.py (Confounder.any_group) -- the has_components
    array: for every object whether it is in some cluster and in some group of each confounder. *)
Definition has_components (clusters : bmat) (conf_groups : list bmat) (n_objects : nat) : list (list bool) :=
  map (fun o => map (fun gs => any_group gs o) (clusters :: conf_groups)) (seq 0 n_objects).

(** likelihood.py:180-198 -- [normalize_weights] for one object and one feature.  The division 0/0
    (an object without any component, giving NaN in numpy) is [None]. *)
Definition normalize_row (w : list Q) (has : list bool) : option (list Q) :=
  let masked := map2 (fun q (b : bool) => if b then q else 0) w has in
  let s := Qsum masked in
  if Qeq_bool s 0 then None else Some (map (fun q => q / s) masked).

(** likelihood.py:180-198 -- [normalize_weights]. *)
Definition normalize_weights (weights : list (list Q)) (has : list (list bool))
    : list (list (option (list Q))) :=
  map (fun has_o => map (fun w_f => normalize_row w_f has_o) weights) has.

(** The likelihood of component [c] for object [o] and feature [f]. *)
Definition lh_at (lhs : list lhmat) (o f c : nat) : Q := nth f (nth o (nth c lhs []) []) 0.

(** likelihood.py:77 -- [np.sum(weights * all_lh, axis=2).ravel()]; NaN weights give [None]. *)
Definition mixture_lhs (lhs : list lhmat) (weights : list (list (option (list Q)))) : list (option Q) :=
  concat (mapi (fun o w_o => mapi (fun f w_of =>
    match w_of with
    | None => None
    | Some w => Some (Qsum (mapi (fun c q => q * lh_at lhs o f c) w))
    end) w_o) weights).

(** The positions (object, feature, component) of [np.where(source.ravel())], in order. *)
Definition source_positions (source : cube) : list (nat * nat * nat) :=
  concat (mapi (fun o s_o => concat (mapi (fun f s_of => concat (mapi (fun c (b : bool) =>
    if b then [(o, f, c)] else []) s_of)) s_o)) source).

(** likelihood.py:79-80 -- the likelihood of each observation under its source. *)
Definition source_lhs (lhs : list lhmat) (source : cube) : list (option Q) :=
  map (fun '(o, f, c) => Some (lh_at lhs o f c)) (source_positions source).

(** likelihood.py:69-80 -- [get_observation_lhs]. *)
Definition get_observation_lhs (lhs : list lhmat) (weights : list (list (option (list Q))))
    (source : option cube) : list (option Q) :=
  match source with
  | None => mixture_lhs lhs weights
  | Some s => source_lhs lhs s
  end.

(** prior.py:359-361 -- the weights of the sources of all observations. *)
Definition source_weights (weights : list (list (option (list Q)))) (source : cube) : list (option Q) :=
  map (fun '(o, f, c) => match nth f (nth o weights []) None with
                         | None => None
                         | Some w => Some (nth c w 0)
                         end) (source_positions source).
