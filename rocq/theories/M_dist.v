(** Finite distributions with rational masses: how random draws are modelled where the probability of
    an outcome matters.  Nothing here models repository code except where cited. *)
From Verif Require Export M_model.
Set Implicit Arguments.
Unset Strict Implicit.
Open Scope Q_scope.

(** A finite distribution: a list of outcomes with their masses. *)
Definition dist (A : Type) := list (A * Q).
Definition ret {A} (a : A) : dist A := [(a, 1)].
Definition scale {A} (p : Q) (d : dist A) : dist A := map (fun '(a, q) => (a, p * q)) d.
Definition bind {A B} (d : dist A) (f : A -> dist B) : dist B :=
  concat (map (fun '(a, p) => scale p (f a)) d).

(** [np.random.choice(xs)]: each element with the same probability. *)
Definition uniform {A} (l : list A) : dist A := map (fun a => (a, 1 / inject_Z (Z.of_nat (length l)))) l.
(** [random.random() < p] for [p] in [0, 1]. *)
Definition flip (p : Q) : dist bool := [(true, p); (false, 1 - p)].
(** Independent draws. *)
Fixpoint prod_dist {A} (ds : list (dist A)) : dist (list A) :=
  match ds with
  | [] => ret []
  | d :: r => bind d (fun x => bind (prod_dist r) (fun xs => ret (x :: xs)))
  end.

(** Expectation and probability. *)
Definition E {A} (d : dist A) (f : A -> Q) : Q := Qsum (map (fun '(a, p) => p * f a) d).
Definition pr {A} (d : dist A) (P : A -> bool) : Q := E d (fun a => if P a then 1 else 0).
