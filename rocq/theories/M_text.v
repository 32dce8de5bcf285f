(** Python strings as lists of characters, with the string operations used by the loggers and the results
    reader.  Characters are [ascii]; the code uses nothing that depends on the alphabet. *)
From Coq Require Export Ascii String DecimalString DecimalNat.
From Verif Require Export Base.
Set Implicit Arguments.
Unset Strict Implicit.
Close Scope string_scope.

Definition str := list ascii.
(** String literals. *)
Definition s_ (x : string) : str := list_ascii_of_string x.
Arguments s_ x%string.
Definition tab : ascii := "009".
Definition newline : ascii := "010".
Definition underscore : ascii := "_".

Definition str_eqb (a b : str) : bool := if list_eq_dec ascii_dec a b then true else false.
Definition mem (a : str) (l : list str) : bool := existsb (str_eqb a) l.

(** [str(n)] of a non-negative integer. *)
Definition str_nat (n : nat) : str := s_ (NilZero.string_of_uint (Nat.to_uint n)).

(** [sep.join(l)] *)
Fixpoint join (sep : str) (l : list str) : str :=
  match l with
  | [] => []
  | [x] => x
  | x :: r => x ++ sep ++ join sep r
  end.

(** [l.split(c)] for a separator of one character: always at least one piece. *)
Fixpoint split (c : ascii) (l : str) : list str :=
  match l with
  | [] => [[]]
  | x :: r =>
      if ascii_dec x c then [] :: split c r
      else match split c r with
           | p :: ps => (x :: p) :: ps
           | [] => [[x]]
           end
  end.
(** [l.partition(c)], without the separator itself: [None] if it does not occur. *)
Fixpoint cut (c : ascii) (l : str) : option (str * str) :=
  match l with
  | [] => None
  | x :: r => if ascii_dec x c then Some ([], r) else option_map (fun '(a, b) => (x :: a, b)) (cut c r)
  end.
(** [l.split(c, maxsplit=n)] *)
Fixpoint split_max (n : nat) (c : ascii) (l : str) : list str :=
  match n with
  | O => [l]
  | S n => match cut c l with None => [l] | Some (a, b) => a :: split_max n c b end
  end.
(** [l.startswith(p)] *)
Fixpoint startswith (p l : str) : bool :=
  match p, l with
  | [], _ => true
  | a :: p, b :: l => if ascii_dec a b then startswith p l else false
  | _ :: _, [] => false
  end.
