(** Generic list helpers shared by the model files.  Nothing here models repository code. *)
From Coq Require Export List Arith ZArith Lia Bool.
Export ListNotations.

Set Implicit Arguments.

(** Replace the element at position [i] by its image under [f]; unchanged if [i] is out of range. *)
Fixpoint upd {A} (i : nat) (f : A -> A) (l : list A) : list A :=
  match l, i with
  | [], _ => []
  | x :: r, 0 => f x :: r
  | x :: r, S j => x :: upd j f r
  end.

Lemma upd_length A (f : A -> A) l : forall i, length (upd i f l) = length l.
Proof. induction l as [|x r IH]; intros [|i]; simpl; auto. Qed.

Lemma nth_error_upd_same A (f : A -> A) l :
  forall i, nth_error (upd i f l) i = option_map f (nth_error l i).
Proof. induction l as [|x r IH]; intros [|i]; simpl; auto. Qed.

Lemma nth_error_upd_other A (f : A -> A) l :
  forall i j, i <> j -> nth_error (upd i f l) j = nth_error l j.
Proof.
  induction l as [|x r IH]; intros [|i] [|j] H; simpl; auto; try congruence.
Qed.

Lemma nth_error_upd A (f : A -> A) l i j :
  nth_error (upd i f l) j = if Nat.eqb i j then option_map f (nth_error l j) else nth_error l j.
Proof.
  destruct (Nat.eqb_spec i j) as [->|H].
  - apply nth_error_upd_same.
  - apply nth_error_upd_other; exact H.
Qed.

Lemma upd_out A (f : A -> A) l : forall i, length l <= i -> upd i f l = l.
Proof.
  induction l as [|x r IH]; intros [|i] H; simpl in *; auto; try lia.
  rewrite IH; auto; lia.
Qed.

Lemma nth_error_ext A (l1 l2 : list A) :
  (forall i, nth_error l1 i = nth_error l2 i) -> l1 = l2.
Proof.
  revert l2; induction l1 as [|x r IH]; intros [|y s] H.
  - reflexivity.
  - specialize (H 0); discriminate.
  - specialize (H 0); discriminate.
  - f_equal.
    + specialize (H 0); simpl in H; congruence.
    + apply IH; intros i; exact (H (S i)).
Qed.

Lemma upd_id A (f : A -> A) l i :
  (forall x, nth_error l i = Some x -> f x = x) -> upd i f l = l.
Proof.
  intros H; apply nth_error_ext; intros j; rewrite nth_error_upd.
  destruct (Nat.eqb_spec i j) as [->|_]; [|reflexivity].
  destruct (nth_error l j) as [x|] eqn:E; simpl; [|reflexivity].
  rewrite H; auto.
Qed.

Lemma map_upd A B (g : A -> B) (f : A -> A) (h : B -> B) l i :
  (forall x, nth_error l i = Some x -> g (f x) = h (g x)) -> map g (upd i f l) = upd i h (map g l).
Proof.
  intros H; apply nth_error_ext; intros j.
  rewrite nth_error_map, !nth_error_upd, nth_error_map.
  destruct (Nat.eqb_spec i j) as [->|_]; [|reflexivity].
  destruct (nth_error l j) as [x|] eqn:E; simpl; [|reflexivity].
  rewrite H; auto.
Qed.

Lemma nth_error_Some_lt A (l : list A) i x : nth_error l i = Some x -> i < length l.
Proof. intros H; apply nth_error_Some; congruence. Qed.

Lemma nth_error_app_last A (l : list A) x : nth_error (l ++ [x]) (length l) = Some x.
Proof. rewrite nth_error_app2, Nat.sub_diag; auto. Qed.

(** [map] with the position as an additional argument. *)
Fixpoint mapi_from {A B} (i : nat) (f : nat -> A -> B) (l : list A) : list B :=
  match l with [] => [] | x :: r => f i x :: mapi_from (S i) f r end.
Definition mapi {A B} (f : nat -> A -> B) (l : list A) : list B := mapi_from 0 f l.

Lemma mapi_from_length A B (f : nat -> A -> B) l : forall i, length (mapi_from i f l) = length l.
Proof. induction l; intros; simpl; auto. Qed.
Lemma mapi_length A B (f : nat -> A -> B) l : length (mapi f l) = length l.
Proof. apply mapi_from_length. Qed.

Lemma nth_error_mapi_from A B (f : nat -> A -> B) l : forall i j,
  nth_error (mapi_from i f l) j = option_map (f (i + j)) (nth_error l j).
Proof.
  induction l as [|x r IH]; intros i [|j]; simpl; auto.
  - rewrite Nat.add_0_r; reflexivity.
  - rewrite IH. replace (S i + j) with (i + S j) by lia. reflexivity.
Qed.
Lemma nth_error_mapi A B (f : nat -> A -> B) l j :
  nth_error (mapi f l) j = option_map (f j) (nth_error l j).
Proof. apply nth_error_mapi_from. Qed.

(** Pointwise combination of two lists (the shorter length wins). *)
Fixpoint map2 {A B C} (f : A -> B -> C) (l : list A) (r : list B) : list C :=
  match l, r with
  | x :: l', y :: r' => f x y :: map2 f l' r'
  | _, _ => []
  end.

Lemma map2_length A B C (f : A -> B -> C) l r : length (map2 f l r) = Nat.min (length l) (length r).
Proof. revert r; induction l; intros [|y r]; simpl; auto. Qed.

Lemma nth_error_map2 A B C (f : A -> B -> C) l r i :
  nth_error (map2 f l r) i =
  match nth_error l i, nth_error r i with Some x, Some y => Some (f x y) | _, _ => None end.
Proof.
  revert r i; induction l as [|x l IH]; intros [|y r] [|i]; simpl; auto.
  destruct (nth_error l i); reflexivity.
Qed.

(** Split conjunctions without unfolding definitions. *)
Ltac conj := repeat match goal with |- _ /\ _ => split end.
