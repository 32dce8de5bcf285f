(** Model of sbayes/sampling/loggers.py, of the cluster encoding in util.py and of the readers in
    sbayes/results.py.  Files are lists of written chunks of text; buffering is not modelled (every write
    ends a line, which flushes the line-buffered file). *)
From Coq Require Export QArith.
From Verif Require Export M_model M_text.
Set Implicit Arguments.
Unset Strict Implicit.
Close Scope Q_scope.

(** * Matching of cluster labels *)
(** [itertools.permutations]: all orders of a list, first by the choice of the first element. *)
Fixpoint selects {A} (l : list A) : list (A * list A) :=
  match l with [] => [] | x :: r => (x, r) :: map (fun '(y, r') => (y, x :: r')) (selects r) end.
Fixpoint perms {A} (n : nat) (l : list A) : list (list A) :=
  match n with
  | O => [[]]
  | S n => flat_map (fun '(x, r) => map (cons x) (perms n r)) (selects l)
  end.
(** util.py:1215-1217 *)
Definition get_permutations (n : nat) : list (list nat) := perms n (seq 0 n).
(** [areas[p, :]] *)
Definition permute {A} (d : A) (p : list nat) (l : list A) : list A := map (fun i => nth i l d) p.
(** util.py:1225-1227 -- [np.sum(prev_area_sum * areas[p, :])] *)
Definition agreement (areas : bmat) (prev : list (list nat)) (p : list nat) : nat :=
  list_sum (map2 (fun ns bs => list_sum (map2 (fun n (b : bool) => if b then n else 0) ns bs)) prev (permute [] p areas)).
(** Python's [max(l, key=f)]: the first element with the largest key. *)
Fixpoint max_by {A} (f : A -> nat) (best : A) (l : list A) : A :=
  match l with [] => best | x :: r => max_by f (if f best <? f x then x else best) r end.
(** util.py:1220-1230 -- there is always at least one permutation. *)
Definition get_best_permutation (areas : bmat) (prev : list (list nat)) : list nat :=
  match get_permutations (length areas) with
  | [] => []
  | p :: ps => max_by (agreement areas prev) p ps
  end.

(** * Log files (loggers.py:16-51) *)
Section ResultsLogger.
Variables State Sample Chunk : Type.
(** The two abstract methods: they may change the state of the logger and append to the file. *)
Variable write_header : Sample -> State -> State * list Chunk.
Variable write_row : Sample -> State -> State * list Chunk.
(** [lg_disk]: the content of the file at [path], if it exists; [lg_open]: whether [self.file] is set. *)
Record logger := { lg_disk : option (list Chunk); lg_open : bool; lg_state : State }.
(** loggers.py:18-29 -- a new logger does not touch the file. *)
Definition new_logger (disk : option (list Chunk)) (st : State) : logger :=
  {| lg_disk := disk; lg_open := false; lg_state := st |}.
Definition append (out : State * list Chunk) (lg : logger) : logger :=
  {| lg_disk := option_map (fun d => d ++ snd out) (lg_disk lg); lg_open := lg_open lg; lg_state := fst out |}.
(** loggers.py:45-47 -- mode "w" truncates. *)
Definition open_file (lg : logger) : logger :=
  {| lg_disk := Some []; lg_open := true; lg_state := lg_state lg |}.
(** loggers.py:39-43 *)
Definition write_sample (s : Sample) (lg : logger) : logger :=
  let lg := if lg_open lg then lg
            else let lg := open_file lg in append (write_header s (lg_state lg)) lg in
  append (write_row s (lg_state lg)) lg.
(** loggers.py:49-51 -- closing a logger that is not open raises AttributeError. *)
Definition close (lg : logger) : option logger :=
  if lg_open lg then Some {| lg_disk := lg_disk lg; lg_open := false; lg_state := lg_state lg |} else None.
Inductive log_op := Write (s : Sample) | Close.
Fixpoint run_log (ops : list log_op) (lg : logger) : option logger :=
  match ops with
  | [] => Some lg
  | Write s :: r => run_log r (write_sample s lg)
  | Close :: r => match close lg with None => None | Some lg => run_log r lg end
  end.
End ResultsLogger.
Arguments Write {Sample} s.
Arguments Close {Sample}.

(** * The encoding of clusters (util.py:43-63) *)
Definition encode_bit (b : bool) : ascii := if b then "1"%char else "0"%char.
Definition encode_cluster (c : list bool) : str := map encode_bit c.
Definition format_cluster_columns (cl : bmat) : str := join [tab] (map encode_cluster cl).
(** [.astype(int).astype(bool)] of one character; anything but a digit raises ValueError. *)
Definition decode_bit (c : ascii) : option bool :=
  if in_dec ascii_dec c (s_ "0123456789") then Some (if ascii_dec c "0" then false else true) else None.
Fixpoint all_opt {A} (l : list (option A)) : option (list A) :=
  match l with
  | [] => Some []
  | x :: r => match x, all_opt r with Some a, Some b => Some (a :: b) | _, _ => None end
  end.
Definition decode_cluster (x : str) : option (list bool) := all_opt (map decode_bit x).
(** The conversion of the rows to one array is not modelled: the rows are kept as lists. *)
Definition parse_cluster_columns (x : str) : option bmat := all_opt (map decode_cluster (split tab x)).

(** results.py:150-178 -- [read_clusters] on the content of the file: clusters x samples x objects.
    More columns in a later line than in the first is an IndexError. *)
Fixpoint append_columns (acc : list bmat) (sample : bmat) : option (list bmat) :=
  match acc, sample with
  | _, [] => Some acc
  | a :: acc, r :: sample => option_map (cons (a ++ [r])) (append_columns acc sample)
  | [], _ :: _ => None
  end.
Fixpoint read_lines (lines : list str) (acc : list bmat) : option (list bmat) :=
  match lines with
  | [] => Some acc
  | [] :: r => read_lines r acc
  | l :: r =>
      match parse_cluster_columns l with
      | None => None
      | Some sample => match append_columns acc sample with None => None | Some acc => read_lines r acc end
      end
  end.
Definition read_clusters (content : str) : option (list bmat) :=
  let byte_results := split newline content in
  let n_clusters := length (split tab (hd [] byte_results)) in
  read_lines byte_results (repeat [] n_clusters).

(** * Samples and names as seen by the loggers *)
(** Floats are exact; the confounding effects are in the order of the confounders (the dictionary is
    looked up by name, and names of confounders are distinct). *)
Record lsample := { ls_step : Q; ls_lh : Q; ls_prior : Q; ls_clusters : bmat; ls_weights : list (list Q);
                    ls_ce : list effect; ls_cf : list (list effect) }.
Record names := { d_features : list str; d_states : list (list str); d_confs : list (str * list str) }.

(** The state for matching: [match_clusters] and [cluster_sum]. *)
Record mstate := { ms_match : bool; ms_sum : list (list nat) }.
(** loggers.py:88-93 and 233-237 *)
Definition init_matching (clusters : bmat) (st : mstate) : mstate :=
  {| ms_match := if length clusters <=? 1 then false else ms_match st;
     ms_sum := map (fun c => map (fun _ => 0) c) clusters |}.
(** loggers.py:144-157 and 240-249 -- the permutation to apply ([None]: leave everything as it is) and the
    updated state. *)
Definition matching (clusters : bmat) (st : mstate) : option (list nat) * mstate :=
  if ms_match st then
    let p := get_best_permutation clusters (ms_sum st) in
    (Some p, {| ms_match := true;
                ms_sum := map2 (map2 (fun n (b : bool) => n + (if b then 1 else 0))) (ms_sum st) (permute [] p clusters) |})
  else (None, st).
Definition apply_perm {A} (d : A) (p : option (list nat)) (l : list A) : list A :=
  match p with Some p => permute d p l | None => l end.

(** ** ClustersLogger (loggers.py:217-252) *)
Definition clusters_header (s : lsample) (st : mstate) : mstate * list str := (init_matching (ls_clusters s) st, []).
Definition clusters_row (s : lsample) (st : mstate) : mstate * list str :=
  let '(p, st) := matching (ls_clusters s) st in
  (st, [format_cluster_columns (apply_perm [] p (ls_clusters s)) ++ [newline]]).
Definition clusters_init : mstate := {| ms_match := true; ms_sum := [] |}.

(** ** ParametersCSVLogger (loggers.py:54-214) *)
Section Parameters.
Variable d : names.
(** Model evaluations on a single cluster (loggers.py:192-210) with the weights and confounding effects of
    the sample and without source; and [float_format % x]. *)
Variable single_lh single_prior : list (list Q) -> list (list effect) -> list bool -> effect -> Q.
Variable fmt : Q -> str.

(** loggers.py:111, 117 *)
Definition w_name (c f : str) : str := s_ "w_" ++ c ++ [underscore] ++ f.
Definition size_name (i : nat) : str := s_ "size_a" ++ str_nat i.
Definition areal_name (a : nat) (f s : str) : str := s_ "areal_a" ++ str_nat (a + 1) ++ [underscore] ++ f ++ [underscore] ++ s.
Definition conf_name (c g f s : str) : str := c ++ [underscore] ++ g ++ [underscore] ++ f ++ [underscore] ++ s.
Definition post_name (i : nat) : str := s_ "post_a" ++ str_nat i.
Definition lh_name (i : nat) : str := s_ "lh_a" ++ str_nat i.
Definition prior_name (i : nat) : str := s_ "prior_a" ++ str_nat i.

(** The features with the list of their states ([enumerate(feature_names)], [state_names[i_f]]). *)
Definition feature_states : list (str * list str) := mapi (fun i f => (f, nth i (d_states d) [])) (d_features d).

(** loggers.py:81-137 -- the column names for [k] clusters ([log_contribution_per_cluster] is [True]). *)
Definition column_names (k : nat) : list str :=
  [s_ "Sample"; s_ "posterior"; s_ "likelihood"; s_ "prior"] ++
  map size_name (seq 0 k) ++
  flat_map (fun f => w_name (s_ "areal") f :: map (fun '(c, _) => w_name c f) (d_confs d)) (d_features d) ++
  flat_map (fun a => flat_map (fun '(f, ss) => map (areal_name a f) ss) feature_states) (seq 0 k) ++
  flat_map (fun '(c, gs) => flat_map (fun g => flat_map (fun '(f, ss) => map (conf_name c g f) ss) feature_states) gs) (d_confs d) ++
  flat_map (fun i => [post_name i; lh_name i; prior_name i]) (seq 0 k).

Definition at2 (m : list (list Q)) (i j : nat) : Q := nth j (nth i m []) 0%Q.
(** loggers.py:159-211 -- the assignments to the dictionary [row], in order, for permuted clusters [cl]
    and cluster effects [ce]. *)
Definition row_items (s : lsample) (cl : bmat) (ce : list effect) : list (str * Q) :=
  [(s_ "Sample", ls_step s); (s_ "posterior", (ls_lh s + ls_prior s)%Q); (s_ "likelihood", ls_lh s); (s_ "prior", ls_prior s)] ++
  mapi (fun i c => (size_name i, inject_Z (Z.of_nat (length (filter (fun b : bool => b) c))))) cl ++
  concat (mapi (fun i_f f =>
    (w_name (s_ "areal") f, at2 (ls_weights s) i_f 0) ::
    mapi (fun i_c '(c, _) => (w_name c f, at2 (ls_weights s) i_f (1 + i_c))) (d_confs d)) (d_features d)) ++
  flat_map (fun a => concat (mapi (fun i_f '(f, ss) => mapi (fun i_s x => (areal_name a f x, at2 (nth a ce []) i_f i_s)) ss) feature_states))
    (seq 0 (length (ls_clusters s))) ++
  concat (mapi (fun i_c '(c, gs) => concat (mapi (fun i_g g => concat (mapi (fun i_f '(f, ss) =>
    mapi (fun i_s x => (conf_name c g f x, at2 (nth i_g (nth i_c (ls_cf s) []) []) i_f i_s)) ss) feature_states)) gs)) (d_confs d)) ++
  flat_map (fun i =>
    let lh := single_lh (ls_weights s) (ls_cf s) (nth i cl []) (nth i ce []) in
    let prior := single_prior (ls_weights s) (ls_cf s) (nth i cl []) (nth i ce []) in
    [(lh_name i, lh); (prior_name i, prior); (post_name i, (lh + prior)%Q)]) (seq 0 (length (ls_clusters s))).

(** Lookup in a dictionary built by assignments: the last assignment to a key wins. *)
Fixpoint dict_get (items : list (str * Q)) (k : str) : option Q :=
  match items with
  | [] => None
  | (k', v) :: r => match dict_get r k with Some w => Some w | None => if str_eqb k k' then Some v else None end
  end.

Record pstate := { ps_matching : mstate; ps_columns : list str }.
Definition params_init : pstate := {| ps_matching := clusters_init; ps_columns := [] |}.
(** loggers.py:81-140 *)
Definition params_header (s : lsample) (st : pstate) : pstate * list str :=
  let cols := column_names (length (ls_clusters s)) in
  ({| ps_matching := init_matching (ls_clusters s) (ps_matching st); ps_columns := cols |},
   [join [tab] cols ++ [newline]]).
(** The values of one row, in the order of the columns; a missing key (KeyError) would be [None]. *)
Definition row_values (s : lsample) (st : pstate) : list (option Q) :=
  let p := fst (matching (ls_clusters s) (ps_matching st)) in
  map (dict_get (row_items s (apply_perm [] p (ls_clusters s)) (apply_perm [] p (ls_ce s)))) (ps_columns st).
(** loggers.py:142-214 *)
Definition params_row (s : lsample) (st : pstate) : pstate * list str :=
  ({| ps_matching := snd (matching (ls_clusters s) (ps_matching st)); ps_columns := ps_columns st |},
   [join [tab] (map (fun v => match v with Some q => fmt q | None => [] end) (row_values s st)) ++ [newline]]).
End Parameters.

(** * Reading results (results.py) *)
(** results.py:27-37 -- [drop_burnin]: clusters are clusters x samples x objects. *)
Definition Qtrunc (q : Q) : Z := Z.quot (Qnum q) (Zpos (Qden q)).
(** A slice [l[i:]] with a possibly negative index. *)
Definition slice_from {A} (i : Z) (l : list A) : list A :=
  if (i <? 0)%Z then skipn (Z.to_nat (Z.max 0 (Z.of_nat (length l) + i))) l else skipn (Z.to_nat i) l.
Definition drop_burnin {Row} (clusters : list bmat) (parameters : list Row) (burn_in : Q) : list bmat * list Row :=
  let n_total := match clusters with [] => 0 | c :: _ => length c end in
  let i := Qtrunc (burn_in * inject_Z (Z.of_nat n_total))%Q in
  (map (slice_from i) clusters, slice_from i parameters).

(** results.py:298-345 -- [get_groups_by_confounder]: dictionaries keep the order of insertion; a column
    name with too few parts is a ValueError. *)
Fixpoint find_confounders (cols : list str) (acc : list str) : option (list str) :=
  match cols with
  | [] => Some acc
  | key :: r =>
      if startswith (s_ "w_") key then
        match split_max 2 underscore key with
        | [_; c; _] =>
            if str_eqb c (s_ "areal") then find_confounders r acc
            else if mem c acc then find_confounders r acc
            else find_confounders r (acc ++ [c])
        | _ => None
        end
      else find_confounders r acc
  end.
Fixpoint find_groups (prefix : str) (cols : list str) (acc : list str) : option (list str) :=
  match cols with
  | [] => Some acc
  | key :: r =>
      if startswith prefix key then
        match split_max 2 underscore key with
        | [_; g; _] => find_groups prefix r (if mem g acc then acc else acc ++ [g])
        | _ => None
        end
      else find_groups prefix r acc
  end.
Definition get_groups_by_confounder (cols : list str) : option (list (str * list str)) :=
  match find_confounders cols [] with
  | None => None
  | Some confs =>
      all_opt (map (fun c => option_map (fun gs => (c, gs)) (find_groups (c ++ [underscore]) cols [])) confs)
  end.
(** results.py:347-356 *)
Definition get_cluster_names (cols : list str) : option (list str) := find_groups (s_ "areal_") cols [].
(** results.py:362-397 -- [extract_features_and_states] *)
Definition add_state (fs : list (str * list str)) (f s : str) : list (str * list str) :=
  if existsb (fun '(f', _) => str_eqb f f') fs
  then (fix go l := match l with
        | [] => []
        | (f', ss) :: r => if str_eqb f f' then (f', ss ++ [s]) :: r else (f', ss) :: go r
        end) fs
  else fs ++ [(f, [s])].
Definition extract_features_and_states (cols : list str) (prefix : str) : list (str * list str) :=
  fold_left (fun fs c =>
    let f_s := skipn (length prefix + 1) c in
    match cut underscore f_s with
    | Some (f, s) => add_state fs f s
    | None => add_state fs f_s []
    end) (filter (startswith (prefix ++ [underscore])) cols) [].
