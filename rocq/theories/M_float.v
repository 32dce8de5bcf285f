(** Model: drawing source assignments in double precision -- sbayes/preprocessing.py:213-241
    (sample_categorical), sbayes/util.py:984-1002 (normalize), sbayes/model/likelihood.py:180-198
    (normalize_weights), sbayes/sampling/operators.py:305, 316-324, 655-683 (the callers).
    Numbers are IEEE 754 binary64 values (with infinities, NaN and signed zeros) and every operation is
    rounded to nearest, ties to even: the definitions are those of Flocq. *)
From Coq Require Import List ZArith Bool.
From Flocq Require Import IEEE754.BinarySingleNaN IEEE754.Binary IEEE754.Bits.
From Verif Require Import Base.
From Verif Require M_params.
Import ListNotations.
Set Implicit Arguments.
Unset Strict Implicit.

(** One array element: [numpy.float64]; its operations [+], [*], [/] and [<] (false if an operand is NaN).
    Used in preprocessing.py:231-234, util.py:1002, likelihood.py:195-198, operators.py:322-324. *)
Definition dbl : Type := binary64.
Definition add : dbl -> dbl -> dbl := b64_plus mode_NE.
Definition mul : dbl -> dbl -> dbl := b64_mult mode_NE.
Definition div : dbl -> dbl -> dbl := b64_div mode_NE.
Definition ltb (x y : dbl) : bool := match b64_compare x y with Some Lt => true | _ => false end.
Definition zero : dbl := B754_zero 53 1024 false.

(** The value m * 2^e, rounded. Simplification: only used for values that need no rounding or for literals. *)
Definition scaled (m e : Z) : dbl := binary_normalize 53 1024 (refl_equal _) (refl_equal _) mode_NE m e false.
Definition one : dbl := scaled 1 0.

(** likelihood.py:195 -- a boolean in a product with floats. *)
Definition of_bool (b : bool) : dbl := if b then one else zero.

(** util.py:1002, likelihood.py:198 -- [np.sum] along the last axis. Fewer than eight elements are added
    from left to right, longer rows pairwise; here the order is an argument: the leaves are positions. *)
Inductive order : Type := Leaf (i : nat) | Plus (l r : order).
Fixpoint leaves (o : order) : list nat := match o with Leaf i => [i] | Plus l r => leaves l ++ leaves r end.
Fixpoint sum_in (o : order) (x : list dbl) : dbl :=
  match o with Leaf i => nth i x zero | Plus l r => add (sum_in l x) (sum_in r x) end.
(** The order for fewer than eight elements. *)
Fixpoint left_to_right (n : nat) : order := match n with O => Leaf 0 | S m => Plus (left_to_right m) (Leaf (S m)) end.

(** util.py:984-1002 -- [normalize(x)] of one row. *)
Definition normalize_row (o : order) (x : list dbl) : list dbl := map (fun a => div a (sum_in o x)) x.

(** likelihood.py:180-198 -- [normalize_weights] for one object and feature: the weights of the feature
    masked by the components of the object, divided by their sum. *)
Definition site_weights (o : order) (has : list bool) (w : list dbl) : list dbl :=
  normalize_row o (map2 mul w (map of_bool has)).

(** operators.py:316-324, 667-683 -- [calculate_source_posterior] for one object and feature. *)
Definition source_posterior (o : order) (lh weights : list dbl) : list dbl := normalize_row o (map2 mul lh weights).

(** preprocessing.py:231 -- [np.cumsum] of one row: the first element, then sums from left to right. *)
Fixpoint cumsum_from (acc : dbl) (p : list dbl) : list dbl :=
  match p with [] => [] | q :: r => add acc q :: cumsum_from (add acc q) r end.
Definition cumsum (p : list dbl) : list dbl := match p with [] => [] | q :: r => q :: cumsum_from q r end.

(** preprocessing.py:232 -- [np.random.random]: one of the 2^53 values k * 2^-53 with 0 <= k < 2^53. *)
Definition uniform (k : Z) : dbl := scaled k (-53).

(** preprocessing.py:231-234 -- the category drawn in one cell. *)
Definition categorical (k : Z) (p : list dbl) : nat := M_params.argmax (map (ltb (uniform k)) (cumsum p)).

(** operators.py:300-305, 655-663 -- the component drawn for one object and feature. *)
Definition draw_source (o1 o2 : order) (has : list bool) (w lh : list dbl) (k : Z) : nat :=
  categorical k (source_posterior o2 lh (site_weights o1 has w)).
