(** Specification for C08, C09, C52: distributions, enumeration of sources, products. *)
From Verif Require Import M_model.
Set Implicit Arguments.
Unset Strict Implicit.
Open Scope Q_scope.

(** Product of numbers; products and sums of possibly undefined numbers. *)
Definition Qprod (l : list Q) : Q := fold_right Qmult 1 l.
Fixpoint all_some {A} (l : list (option A)) : option (list A) :=
  match l with
  | [] => Some []
  | None :: _ => None
  | Some x :: r => match all_some r with Some r' => Some (x :: r') | None => None end
  end.
Definition oprod (l : list (option Q)) : option Q := option_map Qprod (all_some l).

(** All lists that pick one element of each list of choices. *)
Fixpoint choices {A} (ls : list (list A)) : list (list A) :=
  match ls with
  | [] => [[]]
  | l :: r => concat (map (fun x => map (cons x) (choices r)) l)
  end.
(** The [n] one-hot vectors of length [n]. *)
Definition one_hot (n c : nat) : list bool := map (Nat.eqb c) (seq 0 n).
Definition one_hots (n : nat) : list (list bool) := map (one_hot n) (seq 0 n).
(** All source arrays: exactly one component for every object and feature. *)
Definition all_sources (no nf nc : nat) : list cube :=
  choices (repeat (choices (repeat (one_hots nc) nf)) no).

(** A source array with exactly one component per observation. *)
Definition exactly_one (v : list bool) : Prop :=
  exists c, nth_error v c = Some true /\ forall d, nth_error v d = Some true -> d = c.
Definition valid_source (no nf nc : nat) (s : cube) : Prop :=
  length s = no /\ Forall (fun row => length row = nf /\
    Forall (fun v => length v = nc /\ exactly_one v) row) s.

(** Source prior times likelihood given the source. *)
Definition joint (lhs : list lhmat) (weights : list (list (option (list Q)))) (s : cube) : option Q :=
  match oprod (source_weights weights s), oprod (source_lhs lhs s) with
  | Some a, Some b => Some (a * b)
  | _, _ => None
  end.

(** A distribution over the components available to an object, proportional to the weights [w]. *)
Definition available_distribution (w : list Q) (has : list bool) (r : list Q) : Prop :=
  length r = length w /\
  Forall (fun q => 0 <= q) r /\
  Qsum r == 1 /\
  (forall c q b, nth_error r c = Some q -> nth_error has c = Some b -> (q == 0 <-> b = false)) /\
  (forall c d qc qd wc wd, nth_error r c = Some qc -> nth_error r d = Some qd ->
     nth_error w c = Some wc -> nth_error w d = Some wd ->
     nth_error has c = Some true -> nth_error has d = Some true -> qc * wd == qd * wc).
