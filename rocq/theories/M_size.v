(** Model of [log_multinom] (util.py:1117-1158) and of the prior on cluster sizes (prior.py:368-417), with
    floats as real numbers.  [None] stands for an exception or an infinite value. *)
From Verif Require Export M_operators.
From Coq Require Export Reals.
Set Implicit Arguments.
Unset Strict Implicit.
Open Scope R_scope.

Definition Rsum (l : list R) : R := fold_right Rplus 0 l.
(** [np.cumsum]: entry [i] is the sum of the entries up to and including [i]. *)
Definition cumsumR (l : list R) : list R := map (fun i => Rsum (firstn (S i) l)) (seq 0 (length l)).

(** util.py:1132-1158.  [log_i_cumsum[ks-1]] raises IndexError if a size exceeds [n]. *)
Definition log_multinom (n : nat) (ks : list nat) : option R :=
  if (list_sum ks =? 0)%nat then Some 0 else
  let ks := filter (fun k => 0 <? k)%nat ks in
  let log_i := map (fun i => ln (INR (1 + i))) (seq 0 n) in
  let cums := cumsumR log_i in
  if forallb (fun k => k <=? n)%nat ks then
    let m := Rsum log_i - Rsum (map (fun k => nth (k - 1) cums 0) ks) in
    let rest := (Z.of_nat n - Z.of_nat (list_sum ks))%Z in
    Some (if (0 <? rest)%Z then m - nth (Z.to_nat rest - 1) cums 0 else m)
  else None.

(** prior.py:142-156 (config) -- the types of the size prior. *)
Inductive size_prior_type := UniformSize | QuadraticSize | UniformArea.
(** prior.py:386-412 -- [ClusterSizePrior.__call__] without the cache (see C03): sizes are row sums;
    the quadratic prior of an empty cluster is infinite. *)
Definition cluster_size_prior (t : size_prior_type) (n_sites : nat) (clusters : bmat) : option R :=
  let sizes := map size clusters in
  match t with
  | UniformSize => option_map Ropp (log_multinom n_sites sizes)
  | QuadraticSize =>
      if existsb (Nat.eqb 0) sizes then None
      else Some (- Rsum (map (fun s => ln (INR (s ^ 2))) sizes))
  | UniformArea => Some 0
  end.
