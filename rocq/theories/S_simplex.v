(** Specification for C93: what simplex plots should show. *)
From Verif Require Import M_simplex.
Set Implicit Arguments.
Unset Strict Implicit.

(** Shares of [n] components. *)
Definition shares (n : nat) (w : list R) : Prop := length w = n /\ Forall (fun a => 0 <= a)%R w /\ Rsum w = 1%R.
(** The centre of mass of the corners with these shares. *)
Definition mix (w : list R) (poly : list pt) : pt :=
  (Rsum (map2 Rmult w (map fst poly)), Rsum (map2 Rmult w (map snd poly))).
(** The points of a convex polygon. *)
Definition hull (poly : list pt) (P : pt) : Prop := exists w, shares (length poly) w /\ P = mix w poly.
(** A polygon with [n] corners at distance [s] from the centre; each is the one before turned by the [n]-th part of a full turn,
    the first one is at the top. *)
Definition regular (s : R) (n : nat) (poly : list pt) : Prop :=
  (0 < s)%R /\ length poly = n /\
  forall k, k < n -> exists phi : R, (phi * INR n = INR n * (PI / 2) + INR k * (2 * PI))%R /\ nth k poly (0, 0)%R = (s * cos phi, s * sin phi)%R.

(** The point is below (above) a line through the given points. *)
Definition on_step (line : list pt) (P : pt) (y : R) : Prop :=
  exists a b l1 l2 t, line = l1 ++ a :: b :: l2 /\ fst a <> fst b /\ (0 <= t <= 1)%R /\
    fst P = ((1 - t) * fst a + t * fst b)%R /\ y = ((1 - t) * snd a + t * snd b)%R.
Definition below (line : list pt) (P : pt) : Prop := exists y, on_step line P y /\ (snd P < y)%R.
Definition above (line : list pt) (P : pt) : Prop := exists y, on_step line P y /\ (y < snd P)%R.
Definition covered (lines : list pt * list pt) (P : pt) : Prop := below (fst lines) P \/ above (snd lines) P.
(** From left to right. *)
Fixpoint rightwards (line : list pt) : Prop :=
  match line with a :: ((b :: _) as r) => (fst a <= fst b)%R /\ rightwards r | _ => True end.

(** What a panel for samples of [n] shares has to show: nothing for one, the second one for two, else all samples as centres of
    mass in a regular polygon, with the label of each component beside its corner. *)
Definition shows (title : str) (labels : list str) (n : nat) (rows : list (list Q)) (p : panel) : Prop :=
  let rows := as_real rows in
  match n with
  | 0 => False
  | 1 => p = Blank
  | 2 => p = Density title (map (fun r => nth 1 r 0%R) rows) (combine [0.05; 0.95]%R labels)
  | _ => exists sp s, p = Simplex sp /\ sp_title sp = title /\ regular s n (sp_polygon sp) /\
           sp_points sp = map (fun w => mix w (sp_polygon sp)) rows /\
           (forall i l, nth_error (sp_labels sp) i = Some l -> exists x, nth_error labels i = Some x /\ snd l = break_label_keep x /\
                        fst l = pscale 1.2 (nth i (sp_polygon sp) (0, 0)%R)) /\
           length (sp_labels sp) = length labels
  end.
