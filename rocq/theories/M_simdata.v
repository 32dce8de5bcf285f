(** Model of the files of a simulation and of reading them as the data of an analysis: simulation.py:154-203,
    preprocessing.py:21-86, load_data.py:61-82, 285-320, util.py:312-319, with the text of the files.

    Not modelled: encodings, and what pandas makes of a header with empty or repeated names (here they are kept, and
    looking up a name finds its first column, which is also the one pandas does not rename). *)
From Verif Require Export M_sim.
Set Implicit Arguments.
Unset Strict Implicit.
Open Scope nat_scope.

Definition comma : ascii := ",".
Definition bar : ascii := "|".
Definition quote : ascii := "034".
Definition carriage : ascii := "013".
Definition char_eqb (a b : ascii) : bool := if ascii_dec a b then true else false.

(** ** Writing: Python's [csv.writer] with [delimiter=',', quotechar=q, quoting=csv.QUOTE_MINIMAL] (simulation.py:183
    and 197; also in pandas' [to_csv]).  A field is quoted if it contains the delimiter, the quote character or a character
    of the line end [eol]; quote characters inside are doubled.  (Python 3.13 also quotes the other of the two characters
    of line ends.) *)
Definition needs_quotes (q : ascii) (eol : str) (x : str) : bool :=
  existsb (fun c => char_eqb c comma || char_eqb c q || existsb (char_eqb c) eol) x.
Definition quoted (q : ascii) (x : str) : str :=
  q :: flat_map (fun c => if char_eqb c q then [c; c] else [c]) x ++ [q].
Definition write_field (q : ascii) (eol : str) (x : str) : str := if needs_quotes q eol x then quoted q x else x.
(** [writerow]: a single empty field is quoted. *)
Definition write_row (q : ascii) (eol : str) (row : list str) : str :=
  match row with
  | [[]] => quoted q []
  | _ => join [comma] (map (write_field q eol) row)
  end ++ eol.
Definition write_rows (q : ascii) (eol : str) (rows : list (list str)) : str := concat (map (write_row q eol) rows).
(** The default line end of [csv.writer]. *)
Definition crlf : str := [carriage; newline].

(** ** Reading: the tokenizer of pandas' [read_csv] with its default arguments (util.py:319): comma, double quote, any
    line end, blank lines are skipped. *)
Inductive tok_state := StartRecord | BlankLine | StartField | InField | InQuoted | QuoteInQuoted | AfterCarriage.
Record tok := { t_state : tok_state; t_field : str; t_record : list str; t_out : list (list str) }.
Definition goto (st : tok_state) (t : tok) : tok :=
  {| t_state := st; t_field := t_field t; t_record := t_record t; t_out := t_out t |}.
Definition push (st : tok_state) (c : ascii) (t : tok) : tok :=
  {| t_state := st; t_field := t_field t ++ [c]; t_record := t_record t; t_out := t_out t |}.
Definition end_field (t : tok) : tok :=
  {| t_state := StartField; t_field := []; t_record := t_record t ++ [t_field t]; t_out := t_out t |}.
Definition end_record (st : tok_state) (t : tok) : tok :=
  {| t_state := st; t_field := []; t_record := []; t_out := t_out t ++ [t_record t ++ [t_field t]] |}.
Definition skip_line (st : tok_state) (t : tok) : tok :=
  {| t_state := st; t_field := []; t_record := t_record t; t_out := t_out t |}.
Definition field_char (t : tok) (c : ascii) : tok :=
  if char_eqb c comma then end_field t
  else if char_eqb c newline then end_record StartRecord t
  else if char_eqb c carriage then end_record AfterCarriage t
  else push InField c t.
Definition blank (c : ascii) : bool := char_eqb c " " || char_eqb c tab.
Definition blank_char (t : tok) (c : ascii) : tok :=
  if char_eqb c newline then skip_line StartRecord t
  else if char_eqb c carriage then skip_line AfterCarriage t
  else if blank c then push BlankLine c t
  else field_char t c.
Definition record_char (t : tok) (c : ascii) : tok :=
  if char_eqb c quote then goto InQuoted t else blank_char t c.
Definition step_char (t : tok) (c : ascii) : tok :=
  match t_state t with
  | StartRecord => record_char t c
  | AfterCarriage => if char_eqb c newline then goto StartRecord t else record_char (goto StartRecord t) c
  | BlankLine => blank_char t c
  | StartField => if char_eqb c quote then goto InQuoted t else field_char t c
  | InField => field_char t c
  | InQuoted => if char_eqb c quote then goto QuoteInQuoted t else push InQuoted c t
  | QuoteInQuoted => if char_eqb c quote then push InQuoted c t else field_char t c
  end.
Definition tok_start : tok := {| t_state := StartRecord; t_field := []; t_record := []; t_out := [] |}.
(** [None]: ParserError (end of file inside a quoted field). *)
Definition finish (t : tok) : option (list (list str)) :=
  match t_state t with
  | InQuoted => None
  | StartField | InField | QuoteInQuoted => Some (t_out t ++ [t_record t ++ [t_field t]])
  | StartRecord | BlankLine | AfterCarriage => Some (t_out t)
  end.
Definition tokenize (text : str) : option (list (list str)) := finish (fold_left step_char text tok_start).

(** The table: the first record is the header.  If the second record is longer than the header, its first fields are taken
    as the index of the table; [None]: no header (EmptyDataError) or a longer record further down (ParserError); shorter
    records are filled with missing values. *)
Record table := { tb_names : list str; tb_rows : list (list str) }.
Definition make_table (records : list (list str)) : option table :=
  match records with
  | [] => None
  | header :: rows =>
      let width := match rows with [] => length header | r :: _ => Nat.max (length header) (length r) end in
      if existsb (fun r => width <? length r) rows then None
      else Some {| tb_names := header; tb_rows := map (skipn (width - length header)) rows |}
  end.
Definition columns (tb : table) : csv :=
  map (fun '(j, n) => (n, map (fun r => nth j r []) (tb_rows tb))) (combine (seq 0 (length (tb_names tb))) (tb_names tb)).

Section Read.
(** The cells that pandas reads as missing, and [float] of a string ([None]: ValueError). *)
Variable na : str -> bool.
Variable parse : str -> option Q.

(** util.py:312-319 -- [read_data_csv]: number of rows and columns. *)
Definition read_data_csv (text : str) : option (nat * frame) :=
  match tokenize text with
  | None => None
  | Some records => option_map (fun tb => (length (tb_rows tb), read_csv na (columns tb))) (make_table records)
  end.

(** ** load_data.py:61-82 -- [Objects.from_dataframe]; a missing coordinate is NaN ([None]). *)
Record objects := { ob_id : list (option str); ob_x : list (option Q); ob_y : list (option Q); ob_names : list (option str) }.
Definition to_float (v : option str) : option (option Q) :=
  match v with None => Some None | Some s => option_map Some (parse s) end.
Definition objects_from_dataframe (data : frame) : option objects :=
  match get_col data (s_ "x"), get_col data (s_ "y"), get_col data (s_ "id") with
  | Some x, Some y, Some i =>
      match all_opt' (map to_float x), all_opt' (map to_float y) with
      | Some x, Some y => Some {| ob_id := i; ob_x := x; ob_y := y;
                                  ob_names := match get_col data (s_ "name") with Some n => n | None => i end |}
      | _, _ => None
      end
  | _, _, _ => None
  end.

(** ** load_data.py:285-320 -- [read_features_from_csv], on the contents of the two files. *)
Record loaded := { ld_objects : objects; ld_features : encoded; ld_feature_names : list str;
                   ld_confounders : list (str * confounder_data) }.
Definition read_features_from_csv (data_text states_text : str) (groups_by_confounder : list (str * list str)) : option loaded :=
  match read_data_csv data_text, read_data_csv states_text with
  | Some (n, data), Some (n_states, states) =>
      match encode_states n_states data states, objects_from_dataframe data,
            all_opt' (map (fun '(c, gs) => option_map (pair c) (confounder_from_dataframe n data c (Some gs))) groups_by_confounder) with
      | Some e, Some o, Some cs => Some {| ld_objects := o; ld_features := e; ld_feature_names := map fst states; ld_confounders := cs |}
      | _, _, _ => None
      end
  | _, _ => None
  end.
End Read.

(** ** preprocessing.py:21-86 -- [load_canvas], from the rows that [csv.reader] finds in the canvas (lines 32-46). *)
Fixpoint append_row (columns : list (list str)) (row : list str) : option (list (list str)) :=
  match columns, row with
  | c :: cs, v :: vs => option_map (cons (c ++ [match v with [] => s_ "0" | _ => v end])) (append_row cs vs)
  | cs, [] => Some cs
  | [], _ :: _ => None                                            (** IndexError *)
  end.
Definition canvas_row (columns : option (list (list str))) (row : list str) : option (list (list str)) :=
  match columns with
  | None => None
  | Some [] => Some (map (fun v => [v]) row)
  | Some cs => append_row cs row
  end.
Definition canvas_columns (rows : list (list str)) : option csv :=
  option_map (map (fun c => (hd [] c, tl c))) (fold_left canvas_row rows (Some [])).
(** The dictionary of line 46: the last of several columns with the same name. *)
Definition last_col (d : csv) (n : str) : option (list str) := get_col (rev d) n.
Record sites := { si_id : list str; si_x : list Q; si_y : list Q; si_cluster : list Z; si_confounders : csv }.
(** Lines 48-79; [None]: KeyError, ValueError, or IndexError (a coordinate column shorter than the identifiers). The
    confounders are taken out of the dictionary one after the other (line 59), so that [x], [y], [id] and [cluster] cannot be
    among them; their names are different, being the keys of a dictionary. *)
Definition load_canvas (parse : str -> option Q) (parse_int : str -> option Z) (confounding_effects : list str)
    (rows : list (list str)) : option sites :=
  match canvas_columns rows with
  | None => None
  | Some d =>
      match last_col d (s_ "x"), last_col d (s_ "y"), last_col d (s_ "id"), last_col d (s_ "cluster") with
      | Some x, Some y, Some i, Some cl =>
          if existsb (fun k => mem k (map s_ ["x"; "y"; "id"; "cluster"]%string)) confounding_effects then None else
          if (length x <? length i) || (length y <? length i) then None else
          match all_opt' (map (fun k => option_map (pair k) (last_col d k)) confounding_effects),
                all_opt' (map parse (firstn (length i) x)), all_opt' (map parse (firstn (length i) y)), all_opt' (map parse_int cl) with
          | Some cs, Some x, Some y, Some cl => Some {| si_id := i; si_x := x; si_y := y; si_cluster := cl; si_confounders := cs |}
          | _, _, _, _ => None
          end
      | _, _, _, _ => None
      end
  end.

(** ** simulation.py:154-203 -- [write_to_csv] *)
(** [zip(star cols)] *)
Definition zip_columns (cols : list (list str)) : list (list str) :=
  match cols with
  | [] => []
  | c :: cs => map (fun i => map (fun c => nth i c []) cols) (seq 0 (fold_right Nat.min (length c) (map (@length _) cs)))
  end.
(** [itertools.zip_longest(star cols)]; None is written as an empty field *)
Definition zip_longest (cols : list (list str)) : list (list str) :=
  map (fun i => map (fun c => nth i c []) cols) (seq 0 (fold_right Nat.max 0 (map (@length _) cols))).
Section Write.
(** [str] of a float, and the order in which a set of integers is listed (line 170). *)
Variable show : Q -> str.
Variable list_set : list nat -> list nat.
(** Column [f] of [self.features] ([n_features] columns, one row per site). *)
Definition feature_column (features : list (list nat)) (f : nat) : list nat := map (fun r => nth f r 0) features.
Definition feature_name (f : nat) : str := s_ "f" ++ str_nat (f + 1).
(** Lines 155-176 *)
Definition data_columns (si : sites) (n_features : nat) (features : list (list nat)) : csv :=
  [(s_ "id", si_id si); (s_ "x", map show (si_x si)); (s_ "y", map show (si_y si))] ++ si_confounders si ++
  map (fun f => (feature_name f, map str_nat (feature_column features f))) (seq 0 n_features).
(** Lines 178-189 *)
Definition features_csv (si : sites) (n_features : nat) (features : list (list nat)) : str :=
  let cols := data_columns si n_features features in
  write_rows bar crlf (map fst cols :: zip_columns (map snd cols)).
(** Lines 163-176 and 192-203 *)
Definition feature_states_csv (n_features : nat) (features : list (list nat)) : str :=
  write_rows bar crlf (map feature_name (seq 0 n_features) ::
    zip_longest (map (fun f => map str_nat (list_set (feature_column features f))) (seq 0 n_features))).
End Write.
