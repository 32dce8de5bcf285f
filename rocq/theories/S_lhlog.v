(** Specification for the likelihood log (C71). *)
From Verif Require Export S_mcmc S_model S_cache M_cache M_lhlog.
Set Implicit Arguments.
Unset Strict Implicit.
Close Scope R_scope.
Close Scope Q_scope.
Open Scope nat_scope.

(** Operators that keep the property [good] of samples and return as configured (see [configured]). *)
Definition keeps (S : Type) (good : S -> Prop) (draws : nat -> nat -> draw S) : Prop :=
  forall i c s, good s -> match d_prop (draws i c) s with RInPlace _ _ _ => False | r => good (res_content s r) end.

(** [x] is the sum of the logarithms of the numbers in [row]: finite if all are positive, minus infinity if one is
    zero, NaN if one is undefined or negative. *)
Definition is_log_sum (row : list (option Q)) (x : xf) : Prop :=
  match x with
  | Fin r => exists qs, row = map Some qs /\ Forall (fun q => (0 < q)%Q) qs /\ r = Rsum (map (fun q => ln (Q2R q)) qs)
  | NInf => exists qs, row = map Some qs /\ Forall (fun q => (0 <= q)%Q) qs /\ Exists (fun q => (q == 0)%Q) qs
  | PInf => False
  | NaN => In None row \/ exists q, In (Some q) row /\ (q < 0)%Q
  end.

Section Obs.
Variable V : Type.
Variable M : mdl V.
(** The likelihood of the observation of feature [f] in object [o]: under its source component or, if sources
    are not sampled, under the mixture of the components. *)
Definition obs_lh (p : pars) (o f : nat) : option Q :=
  match source p with
  | Some src =>
      let v := nth f (nth o (v_value src) []) [] in
      option_map (fun c => lh_at (spec_components M p) o f c) (find (fun c => nth c v false) (seq 0 (length v)))
  | None =>
      option_map (fun w => Qsum (mapi (fun c q => (q * lh_at (spec_components M p) o f c)%Q) w))
        (nth f (nth o (spec_weights M p) []) None)
  end.
(** Arrays of [no] objects, [nf] features and [nc] components; one source per observation (C26). *)
Definition fits (no nf nc : nat) (p : pars) : Prop :=
  length (m_features M) = no /\ length (v_value (weights p)) = nf /\
  match source p with Some src => valid_source no nf nc (v_value src) | None => True end.
(** state.py:493-498 -- [n_objects * n_features] (the number of objects is that of the data). *)
Definition cells (p : pars) : nat := length (m_features M) * length (v_value (weights p)).
End Obs.
