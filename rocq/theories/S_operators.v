(** Specification for C10-C14: invariants of clusterings and reachable states of the cluster operators. *)
From Verif Require Import M_operators.
From Verif Require Export S_cache.
Set Implicit Arguments.
Unset Strict Implicit.
Open Scope Q_scope.

(** The three cluster operators. *)
Inductive operator := OpAlter | OpGibbsish | OpGibbsish2.
Definition run_op (e : env) (o : operator) : cstate -> dist outcome :=
  match o with OpAlter => alter_cluster e | OpGibbsish => gibbsish e | OpGibbsish2 => gibbsish2 e end.

(** [b] is drawn with non-zero probability. *)
Definition supp {A} (d : dist A) (b : A) : Prop := exists p, In (b, p) d /\ ~ p == 0.
(** [y] can be proposed from [x]. *)
Definition can_propose (e : env) (o : operator) (x y : cstate) : Prop :=
  exists q qb, supp (run_op e o x) (Propose y q qb).

(** [k] clusters over [n] objects. *)
Definition cluster_shape (k n : nat) (cl : bmat) : Prop :=
  length cl = k /\ Forall (fun c => length c = n) cl.
(** All clusters have between [mn] and [mx] objects. *)
Definition sizes_in (mn mx : nat) (cl : bmat) : Prop :=
  Forall (fun c => (mn <= count_occ Bool.bool_dec c true <= mx)%nat) cl.

(** Histories: any number of steps, each proposing by any of the operators [ops] in any environment
    (effects, weights, data, network) with the given number of objects and size bounds, and accepting
    or rejecting. *)
Inductive chain (n mn mx : nat) (ops : operator -> Prop) : cstate -> cstate -> Prop :=
| chain_start : forall x, chain n mn mx ops x x
| chain_reject : forall x y, chain n mn mx ops x y -> chain n mn mx ops x y
| chain_source : forall x y src, chain n mn mx ops x y ->
    chain n mn mx ops x {| x_clusters := x_clusters y; x_source := src |}
| chain_accept : forall x y z e o, chain n mn mx ops x y -> ops o ->
    length (e_features e) = n -> e_min e = mn -> e_max e = mx ->
    can_propose e o y z -> chain n mn mx ops x z.

(** * Probabilities of proposals (C13, C14) *)
Definition cstate_eq_dec (x y : cstate) : {x = y} + {x <> y}.
Proof.
  repeat decide equality.
Defined.
(** The probability with which a distribution over outcomes proposes the state [y]. *)
Definition mass (d : dist outcome) (y : cstate) : Q :=
  pr d (fun out => match out with Propose y' _ _ => if cstate_eq_dec y' y then true else false | _ => false end).

(** Source arrays with exactly one component per observation. *)
Definition source_ok (e : env) (x : cstate) : Prop :=
  match x_source x with
  | None => True
  | Some s => length s = n_objects e /\
      Forall (fun r => length r = e_nf e /\
        Forall (fun v => exists c, (c < n_comps e)%nat /\ v = map (Nat.eqb c) (seq 0 (n_comps e))) r) s
  end.

(** * Missing observations (C52) *)
Fixpoint drop {A} (f : nat) (l : list A) : list A :=
  match l, f with
  | [], _ => []
  | _ :: r, O => r
  | x :: r, S f' => x :: drop f' r
  end.
(** The same environment without feature [f]. *)
Definition drop_feature (f : nat) (e : env) : env :=
  {| e_features := map (drop f) (e_features e); e_nf := e_nf e - 1; e_conf := e_conf e;
     e_weights := drop f (e_weights e); e_ce := map (drop f) (e_ce e); e_cf := map (map (drop f)) (e_cf e);
     e_adj := e_adj e; e_pconn := e_pconn e; e_min := e_min e; e_max := e_max e;
     e_resample := e_resample e; e_from_prior := e_from_prior e |}.
(** The observation of feature [f] at object [o] is missing: no state is set. *)
Definition missing_obs (e : env) (o f : nat) : Prop :=
  exists row v, nth_error (e_features e) o = Some row /\ nth_error row f = Some v /\ Forall (fun b => b = false) v.
