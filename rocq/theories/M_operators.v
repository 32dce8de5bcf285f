(** Model of the cluster operators of [sbayes/sampling/operators.py] (553-1102) as finite
    distributions over proposals.

    Simplifications: probabilities are exact rationals and the operators return [q] instead of
    [log q] ([None] = NaN); effects, weights and data are fixed during one proposal and are part of the
    environment; the component likelihoods and normalized weights are the from-scratch values
    (property C03 shows that the cached values the code reads are these). *)
From Verif Require Export M_dist.
Set Implicit Arguments.
Unset Strict Implicit.
Open Scope Q_scope.

(** Everything a cluster operator reads besides clusters and source. *)
Record env := {
  e_features : cube;              (* objects x features x states *)
  e_nf : nat;
  e_conf : list bmat;             (* group assignment of every confounder *)
  e_weights : list (list Q);      (* features x components *)
  e_ce : list effect;             (* cluster effects *)
  e_cf : list (list effect);      (* confounding effects *)
  e_adj : bmat;                   (* adjacency matrix of the network *)
  e_pconn : Q;                    (* p_grow_connected *)
  e_min : nat; e_max : nat;       (* model.min_size, model.max_size *)
  e_resample : bool;              (* resample_source *)
  e_from_prior : bool }.          (* sample_from_prior *)

(** The part of the sample that cluster operators change. *)
Record cstate := { x_clusters : bmat; x_source : option cube }.

(** Result of [_propose]: the direct rejection [return sample, 0, -np.inf] (operators.py:37-39), a new
    sample with forward and backward probability ([None] = NaN), or an exception. *)
Inductive outcome := Reject | Propose (y : cstate) (q q_back : option Q) | Fail.

Definition omult (a b : option Q) : option Q :=
  match a, b with Some x, Some y => Some (x * y) | _, _ => None end.

(** [np.count_nonzero] of a boolean array. *)
Definition size (c : list bool) : nat := length (filter (fun b : bool => b) c).
(** [np.nonzero(...)[0]]. *)
Definition nonzero (c : list bool) : list nat := filter (fun o => nth o c false) (seq 0 (length c)).
(** state.py:139-140 -- [any_cluster()] for all objects. *)
Definition any_cluster (n : nat) (cl : bmat) : list bool := map (any_group cl) (seq 0 n).
(** Logical not of a boolean array. *)
Definition bnot (l : list bool) : list bool := map negb l.
(** state.py:142-148 -- [add_object] / [remove_object] (index errors do not occur: [z] and [o] are
    drawn from the ranges of the array). *)
Definition add_object (cl : bmat) (z o : nat) : bmat := upd z (upd o (fun _ => true)) cl.
Definition remove_object (cl : bmat) (z o : nat) : bmat := upd z (upd o (fun _ => false)) cl.

(** util.py:103-119 -- [get_neighbours]. *)
Definition get_neighbours (cluster occupied : list bool) (adj : bmat) : list bool :=
  map2 (fun row (occ : bool) => existsb (fun b => b) (map2 andb row cluster) && negb occ) adj occupied.

(** [np.random.choice(xs)] raises ValueError on an empty range. *)
Definition choose (l : list nat) (f : nat -> dist outcome) : dist outcome :=
  match l with [] => ret Fail | _ => bind (uniform l) f end.

(** util.py:984-1002 -- [normalize] of one vector; 0/0 is [None] (NaN). *)
Definition normalize (v : list Q) : option (list Q) :=
  let s := Qsum v in if Qeq_bool s 0 then None else Some (map (fun q => q / s) v).

Section Op.
Variable e : env.
Definition n_objects : nat := length (e_features e).
Definition n_comps : nat := S (length (e_conf e)).

(** likelihood.py:82-143 with [caching=False] -- all component likelihoods computed from scratch. *)
Definition component (probs : list effect) (groups : bmat) : lhmat :=
  set_na (e_features e) (compute_component_likelihood (e_nf e) (e_features e) probs groups
    (seq 0 (length groups)) (repeat (repeat 0 (e_nf e)) n_objects)).
Definition component_lhs (cl : bmat) : list lhmat :=
  component (e_ce e) cl :: map2 (fun g p => component p g) (e_conf e) (e_cf e).
(** state.py:268-291 -- [has_components] of one object. *)
Definition has_row (cl : bmat) (o : nat) : list bool := map (fun gs => any_group gs o) (cl :: e_conf e).

(** operators.py:668-683 (and 313-323) -- source posterior of one observation. *)
Definition source_posterior (cl : bmat) (o f : nat) : option (list Q) :=
  match normalize_row (nth f (e_weights e) []) (has_row cl o) with
  | None => None
  | Some w => normalize (mapi (fun c q => lh_at (component_lhs cl) o f c * q) w)
  end.
(** operators.py:650-656 -- probabilities the sources of object [o] are drawn from. *)
Definition source_probs (cl : bmat) (o : nat) : list (option (list Q)) :=
  map (fun f => if e_from_prior e then normalize_row (nth f (e_weights e) []) (has_row cl o)
                else source_posterior cl o f) (seq 0 (e_nf e)).

(** preprocessing.py:213-241 -- [sample_categorical(p, binary_encoding=True)] for one observation:
    component [c] with probability [p_c] (see C28); with NaN probabilities [argmax] of an all-false
    array is component 0. *)
Definition one_hot_row (c : nat) : list bool := map (Nat.eqb c) (seq 0 n_comps).
Definition sample_obs (p : option (list Q)) : dist (list bool) :=
  match p with
  | None => ret (one_hot_row 0)
  | Some l => mapi (fun c q => (one_hot_row c, q)) l
  end.

(** The factors [p[source]] of one observation, of one object and of several objects. *)
Definition obs_prob (p : option (list Q)) (v : list bool) : option Q :=
  fold_right omult (Some 1)
    (mapi (fun c (b : bool) => if b then option_map (fun l => nth c l 0) p else Some 1) v).
Definition row_prob (ps : list (option (list Q))) (row : list (list bool)) : option Q :=
  fold_right omult (Some 1) (map2 obs_prob ps row).
Definition rows_prob (cl : bmat) (objs : list nat) (src : cube) : option Q :=
  fold_right omult (Some 1) (map (fun o => row_prob (source_probs cl o) (nth o src [])) objs).

(** operators.py:659-660 -- [s[object_subset] = ...]. *)
Fixpoint set_rows (src : cube) (objs : list nat) (rows : list (list (list bool))) : cube :=
  match objs, rows with
  | o :: objs', r :: rows' => set_rows (upd o (fun _ => r) src) objs' rows'
  | _, _ => src
  end.

(** operators.py:600-666 -- [propose_new_sources] in mode "gibbs"; [must] is the assertion
    [sample.source is not None] of [AlterCluster] (1046, 1094), the Gibbs-ish operators skip the
    resampling instead (804, 848, 899). *)
Definition finish (must : bool) (x : cstate) (cl' : bmat) (objs : list nat) (q q_back : option Q) : dist outcome :=
  if e_resample e then
    match x_source x with
    | None => ret (if must then Fail else Propose {| x_clusters := cl'; x_source := None |} q q_back)
    | Some src =>
        bind (prod_dist (map (fun o => prod_dist (map sample_obs (source_probs cl' o))) objs)) (fun rows =>
          let src' := set_rows src objs rows in
          ret (Propose {| x_clusters := cl'; x_source := Some src' |}
                 (omult q (rows_prob cl' objs src')) (omult q_back (rows_prob (x_clusters x) objs src))))
    end
  else ret (Propose {| x_clusters := cl'; x_source := x_source x |} q q_back).

Definition inv_nat (n : nat) : Q := 1 / inject_Z (Z.of_nat n).

(** The clusters that can be chosen: [range(n_clusters)]. *)
Definition ids (x : cstate) : list nat := seq 0 (length (x_clusters x)).

(** operators.py:999-1054 -- [AlterCluster.grow_cluster]. *)
Definition grow_at (x : cstate) (z : nat) : dist outcome :=
  let cl := x_clusters x in
  let occupied := any_cluster n_objects cl in
  let current := nth z cl [] in
  if (e_max e <=? size current)%nat then ret Reject else
  let neighbours := get_neighbours current occupied (e_adj e) in
  bind (flip (e_pconn e)) (fun connected =>
    let candidates := if connected : bool then neighbours else bnot occupied in
    if negb (existsb (fun b => b) candidates) then ret Reject else
    choose (nonzero candidates) (fun a =>
      let q := (1 - e_pconn e) * inv_nat (size (bnot occupied)) +
               (if nth a neighbours false then e_pconn e * inv_nat (size neighbours) else 0) in
      finish true x (add_object cl z a) [a] (Some q) (Some (inv_nat (size current + 1))))).
Definition grow (x : cstate) : dist outcome := choose (ids x) (grow_at x).

(** operators.py:1056-1102 -- [AlterCluster.shrink_cluster]. *)
Definition shrink_at (x : cstate) (z : nat) : dist outcome :=
  let cl := x_clusters x in
  let current := nth z cl [] in
  if (size current <=? e_min e)%nat then ret Reject else
  choose (nonzero current) (fun a =>
    let cl' := remove_object cl z a in
    let occupied' := any_cluster n_objects cl' in
    let back := get_neighbours (nth z cl' []) occupied' (e_adj e) in
    let q_back := (1 - e_pconn e) * inv_nat (size (bnot occupied')) +
                  (if nth a back false then e_pconn e * inv_nat (size back) else 0) in
    finish true x cl' [a] (Some (inv_nat (length (nonzero current)))) (Some q_back)).
Definition shrink (x : cstate) : dist outcome := choose (ids x) (shrink_at x).

(** operators.py:568-572 -- [_propose]: shrink or grow with probability 1/2. *)
Definition alter_cluster (x : cstate) : dist outcome :=
  bind (flip (1#2)) (fun b => if b : bool then shrink x else grow x).

(** operators.py:744-760 -- normalized weights of an object with (1) and without (0) cluster. *)
Definition weights_z01 (cl : bmat) (o f : nat) : option (list Q) * option (list Q) :=
  let has := has_row cl o in
  let w := nth f (e_weights e) [] in
  let current := normalize_row w has in
  let flipped_has := match has with b :: r => negb b :: r | [] => [] end in
  let flipped := normalize_row w flipped_has in
  if match flipped_has with b :: _ => b | [] => false end then (current, flipped) else (flipped, current).

(** operators.py:710-736 -- likelihood of all features of an object under the given weights. *)
Definition cluster_lh (i o : nat) : list Q := einsum_row (nth o (e_features e) []) (nth i (e_ce e) []).
Definition all_lh (cl : bmat) (i o f c : nat) : Q :=
  match c with
  | 0%nat => nth f (cluster_lh i o) 0
  | _ => lh_at (component_lhs cl) o f c
  end.
Definition marginal_lh (cl : bmat) (i o : nat) (wt : nat -> option (list Q)) : option Q :=
  fold_right omult (Some 1)
    (map (fun f => option_map (fun w => Qsum (mapi (fun c q => all_lh cl i o f c * q) w)) (wt f)) (seq 0 (e_nf e))).

(** operators.py:698-742 -- [compute_cluster_posterior] for one object; [None] is NaN. *)
Definition cluster_posterior (cl : bmat) (i o : nat) : option Q :=
  if e_from_prior e then Some (1#2) else
  match marginal_lh cl i o (fun f => fst (weights_z01 cl o f)), marginal_lh cl i o (fun f => snd (weights_z01 cl o f)) with
  | Some m0, Some m1 => if Qeq_bool (m0 + m1) 0 then None else Some (m1 / (m0 + m1))
  | _, _ => None
  end.

(** All values defined (no NaN), otherwise [None]. *)
Fixpoint all_def (l : list (option Q)) : option (list Q) :=
  match l with
  | [] => Some []
  | None :: _ => None
  | Some x :: r => option_map (cons x) (all_def r)
  end.

Definition bmask (v : list Q) (m : list bool) : list Q := map2 (fun q (b : bool) => if b then q else 0) v m.
(** [normalize(p * candidates)] for all objects. *)
Definition p_add (post : list Q) (candidates : list bool) : option (list Q) := normalize (bmask post candidates).
Definition p_remove (post : list Q) (candidates : list bool) : option (list Q) :=
  normalize (bmask (map (fun q => 1 - q) post) candidates).

(** [np.random.choice(n, p=p)]: raises ValueError for NaN probabilities. *)
Definition choose_p (p : option (list Q)) (f : nat -> dist outcome) : dist outcome :=
  match p with
  | None => ret Fail
  | Some l => bind (mapi (fun o q => (o, q)) l) f
  end.

Definition posteriors (cl : bmat) (i : nat) : option (list Q) :=
  all_def (map (cluster_posterior cl i) (seq 0 n_objects)).

(** operators.py:770-815 -- [AlterClusterGibbsish.grow_cluster]. *)
Definition gibbsish_grow_at (x : cstate) (i : nat) : dist outcome :=
  let cl := x_clusters x in
  let candidates := bnot (any_cluster n_objects cl) in
  if negb (existsb (fun b => b) candidates) then ret Reject else
  if (size (nth i cl []) =? e_max e)%nat then ret Reject else
  match posteriors cl i with
  | None => ret Fail
  | Some post =>
      choose_p (p_add post candidates) (fun a =>
        let cl' := add_object cl i a in
        finish false x cl' [a]
          (option_map (fun l => nth a l 0) (p_add post candidates))
          (option_map (fun l => nth a l 0) (p_remove post (nth i cl' []))))
  end.
Definition gibbsish_grow (x : cstate) : dist outcome := choose (ids x) (gibbsish_grow_at x).

(** operators.py:817-859 -- [AlterClusterGibbsish.shrink_cluster]. *)
Definition gibbsish_shrink_at (x : cstate) (i : nat) : dist outcome :=
  let cl := x_clusters x in
  if (size (nth i cl []) =? e_min e)%nat then ret Reject else
  match posteriors cl i with
  | None => ret Fail
  | Some post =>
      choose_p (p_remove post (nth i cl [])) (fun a =>
        let cl' := remove_object cl i a in
        finish false x cl' [a]
          (option_map (fun l => nth a l 0) (p_remove post (nth i cl [])))
          (option_map (fun l => nth a l 0) (p_add post (bnot (any_cluster n_objects cl')))))
  end.
Definition gibbsish_shrink (x : cstate) : dist outcome := choose (ids x) (gibbsish_shrink_at x).

Definition gibbsish (x : cstate) : dist outcome :=
  bind (flip (1#2)) (fun b => if b : bool then gibbsish_shrink x else gibbsish_grow x).

(** operators.py:582-584 -- [available]. *)
Definition available (cl : bmat) (i : nat) : list bool :=
  map2 (fun (occ own : bool) => negb occ || own) (any_cluster n_objects cl) (nth i cl []).

(** operators.py:881 -- one membership draw [np.random.random() < p] ([False] for NaN). *)
Definition draw_member (p : option Q) : dist bool := match p with None => ret false | Some q => flip q end.
(** operators.py:892-895 -- [p * c + (1 - p) * (1 - c)]. *)
Definition member_prob (p : option Q) (b : bool) : option Q := option_map (fun q => if b then q else 1 - q) p.

(** operators.py:897-898 -- [c[available] = cluster_new]. *)
Fixpoint scatter (avail current new : list bool) : list bool :=
  match avail, current with
  | true :: a, _ :: c => match new with b :: n => b :: scatter a c n | [] => false :: scatter a c [] end
  | false :: a, b :: c => b :: scatter a c new
  | _, _ => []
  end.
Fixpoint gather {A} (avail : list bool) (l : list A) : list A :=
  match avail, l with
  | true :: a, x :: r => x :: gather a r
  | false :: a, _ :: r => gather a r
  | _, _ => []
  end.

(** operators.py:862-914 -- [AlterClusterGibbsish2._propose]. *)
Definition gibbsish2_at (x : cstate) (i : nat) : dist outcome :=
  let cl := x_clusters x in
  let old := nth i cl [] in
  let avail := available cl i in
  let ps := gather avail (map (cluster_posterior cl i) (seq 0 n_objects)) in
  bind (prod_dist (map draw_member ps)) (fun new =>
    if negb ((e_min e <=? size new) && (size new <=? e_max e))%nat then ret Reject else
    if forallb (fun b => b) (map2 Bool.eqb new (gather avail old)) then ret Reject else
    let q := fold_right omult (Some 1) (map2 member_prob ps new) in
    let q_back := fold_right omult (Some 1) (map2 member_prob ps (gather avail old)) in
    let cl' := upd i (fun _ => scatter avail old new) cl in
    let changed := nonzero (map2 xorb old (nth i cl' [])) in
    finish false x cl' changed q q_back).
Definition gibbsish2 (x : cstate) : dist outcome := choose (ids x) (gibbsish2_at x).

End Op.
