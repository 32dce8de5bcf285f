(** Specification for the operator statistics file (C70): reading the table back. *)
From Verif Require Export S_mcmc M_opstats.
Set Implicit Arguments.
Unset Strict Implicit.
Close Scope R_scope.
Open Scope nat_scope.

(** Text without the spaces at its end. *)
Fixpoint rstrip (s : str) : str :=
  match s with
  | [] => []
  | c :: r => match rstrip r with [] => if ascii_dec c space then [] else [c] | r' => c :: r' end
  end.
(** The value of a decimal number. *)
Definition digit (c : ascii) : option nat :=
  let n := nat_of_ascii c in if (48 <=? n) && (n <=? 57) then Some (n - 48) else None.
Fixpoint decimal (acc : nat) (s : str) : option nat :=
  match s with
  | [] => Some acc
  | c :: r => match digit c with Some d => decimal (10 * acc + d) r | None => None end
  end.
Definition read_nat (s : str) : option nat := match s with [] => None | _ => decimal 0 s end.
(** The value of a percentage with two digits after the point. *)
Definition read_percent (s : str) : option Q :=
  match cut "." s with
  | Some (a, [x; y; z]) =>
      if ascii_dec z "%" then
        match read_nat a, read_nat [x; y] with
        | Some a, Some b => Some (inject_Z (Z.of_nat a) + inject_Z (Z.of_nat b) / 100)%Q
        | _, _ => None
        end
      else None
  | _ => None
  end.

(** An entry of the table: the name and, if the operator was used, accepts, rejects, total and rate. *)
Record entry := { e_name : str; e_stats : option (nat * nat * nat * Q) }.
Definition read_entry (line : str) : option entry :=
  match map rstrip (split tab line) with
  | [n; a; r; t; p] =>
      if forallb (str_eqb (s_ "-")) [a; r; t; p] then Some {| e_name := n; e_stats := None |}
      else match read_nat a, read_nat r, read_nat t, read_percent p with
           | Some a, Some r, Some t, Some p => Some {| e_name := n; e_stats := Some (a, r, t, p) |}
           | _, _, _, _ => None
           end
  | _ => None
  end.
(** The lines of a text in which every line is ended by a newline. *)
Definition text_lines (text : str) : list str := removelast (split newline text).
(** The header and the entries of the file. *)
Definition read_stats (text : str) : option (list str * list entry) :=
  match text_lines text with
  | [] => None
  | h :: rows => option_map (fun es => (map rstrip (split tab h), es)) (all_opt (map read_entry rows))
  end.

(** What an operator that proposed [accepts + rejects] times should be shown as. *)
Definition shows (name : str) (accepts rejects : nat) (e : entry) : Prop :=
  e_name e = name /\
  match e_stats e with
  | None => accepts = 0 /\ rejects = 0
  | Some (a, r, t, p) =>
      a = accepts /\ r = rejects /\ t = accepts + rejects /\ 0 < t /\
      (Qabs (p - 100 * (inject_Z (Z.of_nat accepts) / inject_Z (Z.of_nat (accepts + rejects)))) <= 1 # 200)%Q
  end.
(** Names without separators that do not end in a space. *)
Definition clean_name (n : str) : Prop := ~ In tab n /\ ~ In newline n /\ last n underscore <> space.
