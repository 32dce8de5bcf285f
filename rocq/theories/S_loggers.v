(** Specifications for the log files (C29-C34, C43), independent of the logger and reader code. *)
From Coq Require Export Permutation.
From Verif Require Export M_loggers.
Set Implicit Arguments.
Unset Strict Implicit.

(** * Labels of clusters *)
Definition is_perm (K : nat) (p : list nat) : Prop := Permutation p (seq 0 K).
(** Lexicographic order. *)
Inductive lex_lt : list nat -> list nat -> Prop :=
  | lex_here a b l m : a < b -> lex_lt (a :: l) (b :: m)
  | lex_next a l m : lex_lt l m -> lex_lt (a :: l) (a :: m).
Definition wf_clusters (K n : nat) (cl : bmat) : Prop := length cl = K /\ Forall (fun r => length r = n) cl.
Definition bit (cl : bmat) (i j : nat) : bool := nth j (nth i cl []) false.
(** Cluster [i] of the result is cluster number [p i]. *)
Definition reorder {A} (d : A) (p : list nat) (l : list A) : list A := map (fun i => nth i l d) p.
(** In how many of the arrays logged so far is object [j] in cluster [i]? *)
Definition hits (logged : list bmat) (i j : nat) : nat := length (filter (fun c => bit c i j) logged).
(** The running sum kept by the loggers. *)
Definition table (K n : nat) (logged : list bmat) : list (list nat) :=
  map (fun i => map (fun j => hits logged i j) (seq 0 n)) (seq 0 K).
(** Agreement of new clusters under the labels [p] with the arrays logged so far. *)
Definition spec_agreement (K n : nat) (logged : list bmat) (cl : bmat) (p : list nat) : nat :=
  list_sum (map (fun i => list_sum (map (fun j => if bit cl (nth i p 0) j then hits logged i j else 0) (seq 0 n))) (seq 0 K)).
(** The first of the labellings with the largest agreement. *)
Definition best_label (K n : nat) (logged : list bmat) (cl : bmat) (p : list nat) : Prop :=
  is_perm K p /\
  forall q, is_perm K q ->
    spec_agreement K n logged cl q < spec_agreement K n logged cl p \/
    (spec_agreement K n logged cl q = spec_agreement K n logged cl p /\ (q = p \/ lex_lt p q)).
(** Labels for a sequence of samples, after the arrays in [logged]. *)
Inductive labelled (K n : nat) : list bmat -> list bmat -> list (list nat) -> Prop :=
  | lab_nil logged : labelled K n logged [] []
  | lab_cons logged cl cls p ps :
      best_label K n logged cl p -> labelled K n (logged ++ [reorder [] p cl]) cls ps ->
      labelled K n logged (cl :: cls) (p :: ps).

(** A sample with its clusters and cluster effects renumbered. *)
Definition renumber (p : list nat) (s : lsample) : lsample :=
  {| ls_step := ls_step s; ls_lh := ls_lh s; ls_prior := ls_prior s; ls_clusters := reorder [] p (ls_clusters s);
     ls_weights := ls_weights s; ls_ce := reorder [] p (ls_ce s); ls_cf := ls_cf s |}.
(** Samples of the same analysis: [K] clusters over [n] objects. *)
Definition wf_sample (K n : nat) (s : lsample) : Prop := wf_clusters K n (ls_clusters s) /\ length (ls_ce s) = K.

(** * Log files: a header and one record per sample *)
Section Files.
Variables State Sample Chunk : Type.
Variable header row : Sample -> State -> State * list Chunk.
(** [records st ss out]: the records of the samples [ss] one after the other, starting in state [st]. *)
Inductive records : State -> list Sample -> list (list Chunk) -> Prop :=
  | rec_nil st : records st [] []
  | rec_cons st s ss out : records (fst (row s st)) ss out -> records st (s :: ss) (snd (row s st) :: out).
(** The content of the file of a logger in initial state [st] that has been given the samples [s :: ss]. *)
Definition good_file (st : State) (s : Sample) (ss : list Sample) (content : list Chunk) : Prop :=
  exists out, records (fst (header s st)) (s :: ss) out /\ content = snd (header s st) ++ concat out.
End Files.

(** * The parameter log *)
(** What the columns of the parameter log stand for (indices start at 0). *)
Inductive column :=
  | CSample | CPosterior | CLikelihood | CPrior
  | CSize (cluster : nat)
  | CWeight (feature component : nat)                      (** component 0: areal; 1 + i: confounder i *)
  | CAreal (cluster feature state : nat)
  | CConf (confounder group feature state : nat)
  | CPostA (cluster : nat) | CLhA (cluster : nat) | CPriorA (cluster : nat).
Section Columns.
Variable d : names.
Definition feature (f : nat) : str := nth f (d_features d) [].
Definition states (f : nat) : list str := nth f (d_states d) [].
Definition state (f s : nat) : str := nth s (states f) [].
Definition confounder (c : nat) : str := fst (nth c (d_confs d) ([], [])).
Definition groups (c : nat) : list str := snd (nth c (d_confs d) ([], [])).
Definition group (c g : nat) : str := nth g (groups c) [].
Definition component_name (c : nat) : str := match c with 0 => s_ "areal" | S c => confounder c end.
(** The documented name of a column. *)
Definition column_name (c : column) : str :=
  match c with
  | CSample => s_ "Sample" | CPosterior => s_ "posterior" | CLikelihood => s_ "likelihood" | CPrior => s_ "prior"
  | CSize i => s_ "size_a" ++ str_nat i
  | CWeight f c => join [underscore] [s_ "w"; component_name c; feature f]
  | CAreal i f s => join [underscore] [s_ "areal"; s_ "a" ++ str_nat (i + 1); feature f; state f s]
  | CConf c g f s => join [underscore] [confounder c; group c g; feature f; state f s]
  | CPostA i => s_ "post_a" ++ str_nat i
  | CLhA i => s_ "lh_a" ++ str_nat i
  | CPriorA i => s_ "prior_a" ++ str_nat i
  end.
(** All columns of an analysis with [K] clusters, in the order of the header. *)
Definition columns (K : nat) : list column :=
  let nf := length (d_features d) in
  let feature_states mk := flat_map (fun f => map (mk f) (seq 0 (length (states f)))) (seq 0 nf) in
  [CSample; CPosterior; CLikelihood; CPrior] ++
  map CSize (seq 0 K) ++
  flat_map (fun f => map (CWeight f) (seq 0 (1 + length (d_confs d)))) (seq 0 nf) ++
  flat_map (fun a => feature_states (CAreal a)) (seq 0 K) ++
  flat_map (fun c => flat_map (fun g => feature_states (CConf c g)) (seq 0 (length (groups c)))) (seq 0 (length (d_confs d))) ++
  flat_map (fun i => [CPostA i; CLhA i; CPriorA i]) (seq 0 K).
(** The value of the parameter that the column stands for; [single_lh], [single_prior] are the evaluations
    of the model with one cluster only. *)
Variable single_lh single_prior : list (list Q) -> list (list effect) -> list bool -> effect -> Q.
Definition column_value (s : lsample) (c : column) : Q :=
  let one f i := f (ls_weights s) (ls_cf s) (nth i (ls_clusters s) []) (nth i (ls_ce s) []) in
  match c with
  | CSample => ls_step s | CPosterior => ls_lh s + ls_prior s | CLikelihood => ls_lh s | CPrior => ls_prior s
  | CSize i => inject_Z (Z.of_nat (count_occ Bool.bool_dec (nth i (ls_clusters s) []) true))
  | CWeight f c => nth c (nth f (ls_weights s) []) 0
  | CAreal i f x => nth x (nth f (nth i (ls_ce s) []) []) 0
  | CConf c g f x => nth x (nth f (nth g (nth c (ls_cf s) []) []) []) 0
  | CPostA i => one single_lh i + one single_prior i
  | CLhA i => one single_lh i
  | CPriorA i => one single_prior i
  end%Q.
End Columns.
(** Distinct columns have distinct names. *)
Definition distinct_names (d : names) (K : nat) : Prop :=
  forall c c', In c (columns d K) -> In c' (columns d K) -> column_name d c = column_name d c' -> c = c'.

(** Names without the separator, pairwise distinct; one list of states per feature. *)
Definition plain (x : str) : Prop := ~ In underscore x.
Definition clean_names (d : names) : Prop :=
  length (d_states d) = length (d_features d) /\
  NoDup (d_features d) /\ Forall plain (d_features d) /\ Forall (@NoDup str) (d_states d) /\
  NoDup (map fst (d_confs d)) /\
  Forall (fun '(c, gs) => plain c /\ c <> s_ "areal" /\ NoDup gs /\ Forall plain gs) (d_confs d).
(** No confounder is called like the first part of another column. *)
Definition no_reserved (d : names) : Prop :=
  Forall (fun '(c, _) => ~ In c (map s_ ["w"; "size"; "post"; "lh"; "prior"]%string)) (d_confs d).
(** At least one feature, and every feature has a state. *)
Definition inhabited_names (d : names) : Prop := d_features d <> [] /\ Forall (fun ss => ss <> []) (d_states d).
