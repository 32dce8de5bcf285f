(** Lemmas on writing and reading tables. *)
From Coq Require Import FinFun.
From Verif Require Import M_simdata L_model S_simdata L_data L_text.
Set Implicit Arguments.
Unset Strict Implicit.

Lemma char_eqb_refl c : char_eqb c c = true.
Proof. unfold char_eqb. destruct (ascii_dec c c); congruence. Qed.
Lemma char_eqb_neq a b : a <> b -> char_eqb a b = false.
Proof. unfold char_eqb. destruct (ascii_dec a b); congruence. Qed.
Definition harmless (c : ascii) : Prop := c <> comma /\ c <> bar /\ c <> newline /\ c <> carriage.
Lemma plain_harmless x : plain x -> Forall harmless x.
Proof.
  intros (A & B & C & D & _). apply Forall_forall. intros c H. unfold harmless. conj; intros ->; auto.
Qed.
Lemma plain_unquoted x : plain x -> write_field bar crlf x = x.
Proof.
  intros P. apply plain_harmless in P. unfold write_field.
  replace (needs_quotes bar crlf x) with false; auto. symmetry. unfold needs_quotes.
  induction P as [|c x (A & B & C & D) P IH]; auto. cbn [existsb]. rewrite IH.
  unfold crlf. cbn [existsb]. rewrite !char_eqb_neq by auto. reflexivity.
Qed.

Definition tk st fld rec out : tok := {| t_state := st; t_field := fld; t_record := rec; t_out := out |}.
Lemma in_field_run x fld rec out : Forall harmless x ->
  fold_left step_char x (tk InField fld rec out) = tk InField (fld ++ x) rec out.
Proof.
  revert fld. induction x as [|c x IH]; intros fld P; simpl.
  - rewrite app_nil_r. reflexivity.
  - inversion_clear P as [|? ? Hc Q]. destruct Hc as (A & B & C & D).
    unfold step_char at 2. cbn [t_state tk]. unfold field_char. rewrite !char_eqb_neq by auto.
    unfold push; cbn [t_field t_record t_out tk]. fold (tk InField (fld ++ [c]) rec out). rewrite IH by auto.
    rewrite <- app_assoc. reflexivity.
Qed.
Definition field_state (x : str) : tok_state := match x with [] => StartField | _ => InField end.
Lemma field_run x rec out : plain x ->
  fold_left step_char x (tk StartField [] rec out) = tk (field_state x) x rec out.
Proof.
  intros P. pose proof (plain_harmless P) as H. destruct x as [|c x]; auto. inversion_clear H as [|? ? Hc Q]. destruct Hc as (A & B & C & D).
  destruct P as (_ & _ & _ & _ & P). assert (c <> quote) by (intros ->; eapply P; reflexivity).
  cbn [fold_left]. unfold step_char at 2. cbn [t_state tk]. unfold field_char. rewrite !char_eqb_neq by auto.
  unfold push; cbn [t_field t_record t_out tk app]. fold (tk InField [c] rec out). rewrite in_field_run by auto. reflexivity.
Qed.
(** The first field of a record. *)
Definition first_state (x : str) : tok_state :=
  match x with [] => StartRecord | _ => if forallb blank x then BlankLine else InField end.
Lemma blank_run x fld out : Forall harmless x -> fld <> [] -> forallb blank fld = true ->
  fold_left step_char x (tk BlankLine fld [] out) = tk (first_state (fld ++ x)) (fld ++ x) [] out.
Proof.
  revert fld. induction x as [|c x IH]; intros fld P N F; simpl.
  - rewrite app_nil_r. destruct fld; [congruence|]. cbn [first_state]. rewrite F. reflexivity.
  - inversion_clear P as [|? ? Hc Q]. destruct Hc as (A & B & C & D).
    unfold step_char at 2. cbn [t_state tk]. unfold blank_char. rewrite !char_eqb_neq by auto.
    destruct (blank c) eqn:E.
    + unfold push; cbn [t_field t_record t_out tk]. fold (tk BlankLine (fld ++ [c]) [] out). rewrite IH; auto.
      * rewrite <- app_assoc. reflexivity.
      * destruct fld; discriminate.
      * rewrite forallb_app, F. simpl. rewrite E. reflexivity.
    + unfold field_char. rewrite !char_eqb_neq by auto. unfold push; cbn [t_field t_record t_out tk].
      fold (tk InField (fld ++ [c]) [] out). rewrite in_field_run by auto. rewrite <- app_assoc. simpl.
      replace (first_state (fld ++ c :: x)) with InField; auto.
      destruct fld; [congruence|]. cbn [app first_state]. rewrite app_comm_cons, forallb_app. cbn [forallb].
      rewrite E. simpl. rewrite andb_false_r. reflexivity.
Qed.
Lemma first_run x out : plain x ->
  fold_left step_char x (tk StartRecord [] [] out) = tk (first_state x) x [] out.
Proof.
  intros P. pose proof (plain_harmless P) as H. destruct x as [|c x]; auto. inversion_clear H as [|? ? Hc Q]. destruct Hc as (A & B & C & D).
  destruct P as (_ & _ & _ & _ & P). assert (c <> quote) by (intros ->; eapply P; reflexivity).
  cbn [fold_left]. unfold step_char at 2. cbn [t_state tk]. unfold record_char, blank_char. rewrite !char_eqb_neq by auto.
  destruct (blank c) eqn:E.
  - unfold push; cbn [t_field t_record t_out tk app]. fold (tk BlankLine [c] [] out). rewrite blank_run; auto; [discriminate|].
    simpl. rewrite E. reflexivity.
  - unfold field_char. rewrite !char_eqb_neq by auto. unfold push; cbn [t_field t_record t_out tk app].
    fold (tk InField [c] [] out). rewrite in_field_run by auto. cbn [app first_state forallb]. rewrite E. reflexivity.
Qed.
(** Any state in which a field may end. *)
Lemma comma_ends st x rec out : In st [StartRecord; BlankLine; StartField; InField] ->
  step_char (tk st x rec out) comma = tk StartField [] (rec ++ [x]) out.
Proof. intros H. simpl in H. decompose [or] H; try subst st; try contradiction; reflexivity. Qed.
Lemma line_ends st x rec out : In st [StartField; InField] ->
  fold_left step_char [carriage; newline] (tk st x rec out) = tk StartRecord [] [] (out ++ [rec ++ [x]]).
Proof. intros H. simpl in H. decompose [or] H; try subst st; try contradiction; reflexivity. Qed.
Lemma field_state_in x : In (field_state x) [StartField; InField].
Proof. destruct x; simpl; auto. Qed.
Lemma rest_run rest : forall x rec out st, In st [StartField; InField] -> Forall plain rest ->
  fold_left step_char (flat_map (fun y => comma :: y) rest ++ [carriage; newline]) (tk st x rec out) =
  tk StartRecord [] [] (out ++ [rec ++ x :: rest]).
Proof.
  induction rest as [|y rest IH]; intros x rec out st S P.
  - apply line_ends; auto.
  - inversion_clear P as [|? ? A B]. cbn [flat_map app]. rewrite <- app_assoc. cbn [fold_left].
    rewrite comma_ends by (simpl in *; tauto). rewrite fold_left_app, field_run by auto.
    rewrite IH; [|apply field_state_in|auto]. rewrite <- app_assoc. reflexivity.
Qed.
Lemma join_rest (x : str) rest : join [comma] (x :: rest) = x ++ flat_map (fun y => comma :: y) rest.
Proof.
  revert x. induction rest as [|y rest IH]; intros x; [simpl; rewrite app_nil_r; reflexivity|].
  change (join [comma] (x :: y :: rest)) with (x ++ [comma] ++ join [comma] (y :: rest)). rewrite IH. reflexivity.
Qed.
(** Records that are not taken for blank lines. *)
Definition ok_record (r : list str) : Prop := r <> [] /\ Forall plain r /\ forall x, r = [x] -> forallb blank x = false.
Lemma row_run r out : ok_record r ->
  fold_left step_char (write_row bar crlf r) (tk StartRecord [] [] out) = tk StartRecord [] [] (out ++ [r]).
Proof.
  intros (N & P & B). destruct r as [|x rest]; [congruence|].
  assert (W : write_row bar crlf (x :: rest) = x ++ flat_map (fun y => comma :: y) rest ++ [carriage; newline]).
  { unfold write_row. assert (M : map (write_field bar crlf) (x :: rest) = x :: rest).
    { rewrite <- (map_id (x :: rest)) at 2. apply map_ext_in. intros y Y. rewrite Forall_forall in P. apply plain_unquoted; auto. }
    rewrite M, join_rest. destruct x, rest; try (rewrite <- app_assoc; reflexivity); try reflexivity.
    specialize (B [] eq_refl). discriminate. }
  rewrite W, fold_left_app. inversion_clear P as [|? ? A Q]. rewrite first_run by auto.
  destruct rest as [|y rest].
  - apply line_ends. specialize (B x eq_refl). unfold first_state. destruct x; [discriminate|]. rewrite B. simpl; auto.
  - inversion_clear Q as [|? ? Ay Q']. cbn [flat_map app]. rewrite <- app_assoc. cbn [fold_left].
    rewrite comma_ends.
    + rewrite fold_left_app, field_run by auto. rewrite rest_run; auto. apply field_state_in.
    + unfold first_state. destruct x; simpl; auto. destruct (_ && _); auto.
Qed.
Lemma tokenize_written rows : Forall ok_record rows -> tokenize (write_rows bar crlf rows) = Some rows.
Proof.
  intros H. unfold tokenize, write_rows.
  assert (G : forall out, fold_left step_char (concat (map (write_row bar crlf) rows)) (tk StartRecord [] [] out) = tk StartRecord [] [] (out ++ rows)).
  { induction H as [|r rows R H IH]; intros out; simpl; [rewrite app_nil_r; reflexivity|].
    rewrite fold_left_app, row_run, IH by auto. rewrite <- app_assoc. reflexivity. }
  fold (tk StartRecord [] [] []). change tok_start with (tk StartRecord [] [] []). rewrite G. reflexivity.
Qed.

(** Tables *)
Lemma combine_seq_nth A (l : list A) d : combine (seq 0 (length l)) l = map (fun j => (j, nth j l d)) (seq 0 (length l)).
Proof.
  assert (G : forall k, combine (seq k (length l)) l = map (fun j => (j, nth (j - k) l d)) (seq k (length l))).
  { induction l as [|x l IH]; intros k; simpl; auto. rewrite Nat.sub_diag. f_equal. rewrite IH.
    apply map_ext_in. intros j J. apply in_seq in J. replace (j - k) with (S (j - S k)) by lia. reflexivity. }
  rewrite G. apply map_ext. intros j. rewrite Nat.sub_0_r. reflexivity.
Qed.
Lemma map_nth_seq A (l : list A) d : map (fun i => nth i l d) (seq 0 (length l)) = l.
Proof.
  apply (nth_ext _ _ d d); [rewrite map_length, seq_length; auto|]. intros n H. rewrite map_length, seq_length in H.
  rewrite (nth_indep _ d (nth 0 l d)) by (rewrite map_length, seq_length; exact H). rewrite (map_nth (fun i => nth i l d)), seq_nth; auto.
Qed.
Lemma table_of (header : list str) rows : Forall (fun r => length r = length header) rows ->
  make_table (header :: rows) = Some {| tb_names := header; tb_rows := rows |}.
Proof.
  intros H. unfold make_table.
  assert (W : match rows with [] => length header | r :: _ => Nat.max (length header) (length r) end = length header).
  { destruct H; auto. rewrite H, Nat.max_id. reflexivity. }
  rewrite W. replace (existsb _ rows) with false.
  - rewrite Nat.sub_diag. do 2 f_equal. apply map_id.
  - symmetry. clear W. induction H as [|r rows R H IH]; auto. simpl. rewrite IH, R, Nat.ltb_irrefl. reflexivity.
Qed.
(** Rows read from columns of equal length give back the columns. *)
Definition rows_of (cols : list (list str)) (n : nat) : list (list str) :=
  map (fun i => map (fun c => nth i c []) cols) (seq 0 n).
Definition padded (n : nat) (c : list str) : list str := c ++ repeat [] (n - length c).
Lemma padded_nth n c : length c <= n -> map (fun i => nth i c []) (seq 0 n) = padded n c.
Proof.
  intros H. unfold padded. apply (nth_ext _ _ [] []).
  - rewrite map_length, seq_length, app_length, repeat_length. unfold str in *. lia.
  - intros i I. rewrite map_length, seq_length in I.
    rewrite (nth_indep _ [] (nth 0 c [])) by (rewrite map_length, seq_length; exact I). rewrite (map_nth (fun i => nth i c [])), seq_nth by auto.
    rewrite Nat.add_0_l. destruct (Nat.lt_ge_cases i (length c)) as [L|L].
    + rewrite app_nth1; auto.
    + rewrite app_nth2 by auto. rewrite nth_overflow by auto. symmetry. apply nth_repeat.
Qed.
Lemma columns_of (cols : csv) n : Forall (fun c => length (snd c) <= n) cols ->
  columns {| tb_names := map fst cols; tb_rows := rows_of (map snd cols) n |} = map (fun c => (fst c, padded n (snd c))) cols.
Proof.
  intros H. unfold columns. cbn [tb_names tb_rows]. rewrite (combine_seq_nth (map fst cols) []), map_map, map_length.
  rewrite <- (map_nth_seq cols ([], [])) at 2. rewrite map_map. apply map_ext_in. intros j J. apply in_seq in J.
  f_equal; [exact (map_nth fst cols ([], []) j)|].
  unfold rows_of. rewrite map_map. rewrite Forall_forall in H.
  rewrite <- padded_nth by (apply H, nth_In; lia). apply map_ext. intros i. rewrite map_map.
  etransitivity; [|exact (map_nth (fun c : str * list str => nth i (snd c) []) cols ([], []) j)].
  f_equal. destruct i; reflexivity.
Qed.
Lemma zip_columns_rows (cols : list (list str)) n : cols <> [] -> Forall (fun c => length c = n) cols -> zip_columns cols = rows_of cols n.
Proof.
  intros N H. unfold zip_columns, rows_of. destruct H as [|c cs C H]; [congruence|]. f_equal. f_equal.
  rewrite C. clear N. induction H as [|c' cs C' H IH]; auto. simpl. rewrite IH, C'. apply Nat.min_id.
Qed.
Lemma longest_ge (cols : list (list str)) c : In c cols -> length c <= fold_right Nat.max 0 (map (@length _) cols).
Proof. induction cols as [|x cols IH]; intros []; simpl; [subst; lia|]. specialize (IH H). lia. Qed.
Lemma longest_gives (cols : list (list str)) i : i < fold_right Nat.max 0 (map (@length _) cols) -> exists c, In c cols /\ i < length c.
Proof.
  induction cols as [|x cols IH]; simpl; [lia|]. intros H.
  destruct (Nat.lt_ge_cases i (length x)); [exists x; auto|]. destruct IH as (c & A & B); [lia|]. exists c; auto.
Qed.
Lemma plain_nil : plain [].
Proof. unfold plain. conj; auto; discriminate. Qed.
(** A file written from columns of which none looks blank is read as these columns. *)
Lemma read_written (na : str -> bool) (cols : csv) n :
  cols <> [] -> Forall (fun c => plain (fst c) /\ length (snd c) <= n /\ Forall plain (snd c)) cols ->
  (forall c, cols = [c] -> forallb blank (fst c) = false /\ length (snd c) = n /\ forall x, In x (snd c) -> forallb blank x = false) ->
  read_data_csv na (write_rows bar crlf (map fst cols :: rows_of (map snd cols) n)) =
  Some (n, map (fun c => (fst c, map (read_cell na) (padded n (snd c)))) cols).
Proof.
  intros N H S. unfold read_data_csv. rewrite tokenize_written.
  - rewrite table_of.
    + cbn [option_map]. rewrite columns_of.
      * cbn [tb_rows]. unfold rows_of at 1. rewrite map_length, seq_length. unfold read_csv. rewrite map_map. reflexivity.
      * eapply Forall_impl; [|exact H]. intros c (_ & L & _). exact L.
    + unfold rows_of. apply Forall_map, Forall_forall. intros i _. rewrite !map_length. reflexivity.
  - rewrite Forall_forall in H. constructor.
    + unfold ok_record. conj.
      * destruct cols; [congruence|discriminate].
      * apply Forall_map, Forall_forall. intros c C. apply H; auto.
      * intros x E. destruct cols as [|c [|]]; try discriminate. injection E as <-. apply S; auto.
    + unfold rows_of. apply Forall_map, Forall_forall. intros i I. apply in_seq in I. unfold ok_record. conj.
      * destruct cols; [congruence|discriminate].
      * rewrite map_map. apply Forall_map, Forall_forall. intros c C. destruct (H c C) as (_ & _ & P). rewrite Forall_forall in P.
        destruct (nth_in_or_default i (snd c) []) as [E|E]; [apply P, E|]. unfold str in *. rewrite E. apply plain_nil.
      * intros x E. destruct cols as [|c [|]]; try discriminate. injection E as <-. destruct (S c eq_refl) as (_ & L & P).
        apply P, nth_In. unfold str in *. lia.
Qed.

(** Numbers *)
Lemma digit_not c d : digit_char d -> ~ digit_char c -> d <> c.
Proof. intros A B ->. auto. Qed.
Lemma str_nat_nonempty n : str_nat n <> [].
Proof.
  unfold str_nat, NilZero.string_of_uint. destruct (Nat.to_uint n); simpl; discriminate.
Qed.
Ltac not_digit := unfold digit_char; simpl; intros H; decompose [or] H; try discriminate; auto.
Ltac plain_text := unfold plain; simpl; conj; try discriminate; intros H; decompose [or] H; first [discriminate | contradiction].
Lemma str_nat_plain n : plain (str_nat n).
Proof.
  unfold plain. conj; try (apply str_nat_no; not_digit).
  intros r E. pose proof (str_nat_digits n) as F. rewrite E in F. inversion_clear F as [|? ? D _]. revert D. not_digit.
Qed.
Lemma digit_not_space c : digit_char c -> is_space c = false.
Proof. unfold digit_char. simpl. intros H. decompose [or] H; subst; try reflexivity; contradiction. Qed.
Lemma digit_not_blank c : digit_char c -> blank c = false.
Proof. unfold digit_char. simpl. intros H. decompose [or] H; subst; try reflexivity; contradiction. Qed.
Lemma lstrip_digits x : Forall digit_char x -> lstrip x = x.
Proof. intros F. apply lstrip_fix. intros c r ->. inversion_clear F. apply digit_not_space; auto. Qed.
Lemma strip_str_nat n : strip (str_nat n) = str_nat n.
Proof.
  pose proof (str_nat_digits n) as F. unfold strip. rewrite (lstrip_digits F), lstrip_digits by (apply Forall_rev, F).
  apply rev_involutive.
Qed.
Lemma str_nat_not_blank n : forallb blank (str_nat n) = false.
Proof.
  pose proof (str_nat_digits n) as F. pose proof (@str_nat_nonempty n) as N. destruct (str_nat n) as [|c r]; [congruence|].
  inversion_clear F. simpl. rewrite digit_not_blank; auto.
Qed.
Lemma feature_name_plain f : plain (feature_name f).
Proof.
  unfold feature_name. destruct (str_nat_plain (f + 1)) as (A & B & C & D & E). unfold plain. simpl.
  conj; try (intros [H|H]; [discriminate|auto]). intros r H. discriminate.
Qed.
Lemma feature_name_inj f g : feature_name f = feature_name g -> f = g.
Proof. unfold feature_name. intros H. apply app_inv_head, str_nat_inj in H. lia. Qed.
Lemma feature_name_not f : ~ In (feature_name f) (map s_ ["id"; "x"; "y"; "name"]%string).
Proof. unfold feature_name. simpl. intros H. decompose [or] H; try discriminate; auto. Qed.
Lemma feature_names_NoDup n : NoDup (map feature_name (seq 0 n)).
Proof. apply FinFun.Injective_map_NoDup; [|apply seq_NoDup]. intros f g. apply feature_name_inj. Qed.

Section Back.
Variable na : str -> bool.
Variable show : Q -> str.
Variable parse : str -> option Q.
Variable list_set : list nat -> list nat.
Variable si : sites.
Variable nf : nat.
Variable features : list (list nat).
Hypothesis SIM : simulated si nf features.
Hypothesis OK : readable na show parse si.
Hypothesis SETS : lists_sets list_set.
Let n := length (si_id si).
Let cols := data_columns show si nf features.

Lemma padded_same (c : list str) : padded (length c) c = c.
Proof. unfold padded. rewrite Nat.sub_diag, app_nil_r. reflexivity. Qed.
Lemma read_solid l : Forall (solid na) l -> map (read_cell na) l = map Some l.
Proof.
  intros F. apply map_ext_in. intros x X. rewrite Forall_forall in F. destruct (F x X) as (_ & A & B). apply read_cell_some; auto.
Qed.
Lemma cols_solid : Forall (fun c => plain (fst c) /\ length (snd c) = n /\ Forall (solid na) (snd c)) cols.
Proof.
  destruct SIM as [_ (RF & _) (CX & CY) LB _]. destruct OK as [_ IS NP LS NS FS]. apply Forall_app in FS. destruct FS as (FX & FY).
  assert (SN : forall k, solid na (str_nat k)).
  { intros k. unfold solid. conj; [apply str_nat_plain|apply NS|apply strip_str_nat]. }
  assert (SF : forall l, Forall (fun q => solid na (show q) /\ parse (show q) = Some q) l -> Forall (solid na) (map show l)).
  { intros l F. apply Forall_map. eapply Forall_impl; [|exact F]. intros q (A & _). exact A. }
  unfold cols, data_columns. cbn [app].
  constructor; [|constructor; [|constructor]]; try (cbn [fst snd]; rewrite ?map_length).
  - conj; auto. plain_text.
  - conj; auto. plain_text.
  - conj; auto. plain_text.
  - apply Forall_app. split.
    + rewrite Forall_forall in *. intros c C. conj; auto.
    + apply Forall_map, Forall_forall. intros f _. cbn [fst snd]. conj.
      * apply feature_name_plain.
      * unfold feature_column. rewrite !map_length. exact RF.
      * apply Forall_map, Forall_forall. intros k _. apply SN.
Qed.
Lemma data_read : read_data_csv na (features_csv show si nf features) = Some (n, map (fun c => (fst c, map Some (snd c))) cols).
Proof.
  pose proof cols_solid as CS. unfold features_csv. fold cols.
  assert (N : cols <> []) by discriminate.
  rewrite (@zip_columns_rows _ n).
  - rewrite read_written; auto.
    + f_equal. f_equal. apply map_ext_in. intros c C. rewrite Forall_forall in CS. destruct (CS c C) as (_ & L & S).
      f_equal. rewrite <- L, padded_same. apply read_solid, S.
    + eapply Forall_impl; [|exact CS]. intros c (A & L & S). conj; auto.
      * rewrite L. apply Nat.le_refl.
      * eapply Forall_impl; [|exact S]. intros x (P & _). exact P.
    + intros c E. discriminate E.
  - discriminate.
  - apply Forall_map. eapply Forall_impl; [|exact CS]. intros c (_ & L & _). exact L.
Qed.
Lemma cols_NoDup : NoDup (map fst cols).
Proof.
  destruct SIM as [_ _ _ _ (ND & NN)]. unfold cols, data_columns. rewrite !map_app, map_map. cbn [map fst app].
  assert (FN := feature_names_NoDup nf). rewrite Forall_forall in NN.
  assert (R : forall x, In x (map s_ ["id"; "x"; "y"; "name"]%string) ->
              ~ In x (map fst (si_confounders si) ++ map (fun f => feature_name f) (seq 0 nf))).
  { intros x X I. apply in_app_or in I. destruct I as [I|I]; apply in_map_iff in I; destruct I as (c & <- & C).
    - apply (NN c C); auto.
    - apply (@feature_name_not c); auto. }
  repeat (constructor; [simpl; intros H; decompose [or] H; try discriminate; try (eapply R; [|eassumption]; simpl; auto)|]).
  apply L_model.NoDup_app_disj; auto. intros x A B. apply in_map_iff in A, B. destruct A as (c & <- & C), B as (f & E & _).
  apply (proj2 (NN c C) (f + 1)). symmetry. exact E.
Qed.
Lemma cols_get name col : In (name, col) cols ->
  get_col (map (fun c => (fst c, map Some (snd c))) cols) name = Some (map Some col).
Proof.
  intros I. apply get_col_NoDup.
  - rewrite map_map. exact cols_NoDup.
  - apply in_map_iff. exists (name, col). auto.
Qed.

Let listed f := map str_nat (list_set (feature_column features f)).
Let m := fold_right Nat.max 0 (map (@length _) (map listed (seq 0 nf))).
Let states_frame : frame := map (fun f => (feature_name f, map Some (listed f) ++ repeat None (m - length (listed f)))) (seq 0 nf).
Lemma listed_le f : f < nf -> length (listed f) <= m.
Proof. intros F. apply longest_ge, in_map, in_seq. lia. Qed.
Lemma states_read : read_data_csv na (feature_states_csv list_set nf features) = Some (m, states_frame).
Proof.
  destruct SIM as [SF _ _ _ _]. destruct OK as [E0 _ _ _ NS _].
  set (cs := map (fun f => (feature_name f, listed f)) (seq 0 nf)).
  assert (H1 : map feature_name (seq 0 nf) = map fst cs) by (unfold cs; rewrite map_map; reflexivity).
  assert (H2 : map listed (seq 0 nf) = map snd cs) by (unfold cs; rewrite map_map; reflexivity).
  assert (PL : forall f, Forall plain (listed f)).
  { intros f. apply Forall_map, Forall_forall. intros k _. apply str_nat_plain. }
  unfold feature_states_csv, zip_longest. fold listed. fold m. rewrite H2, H1. fold (rows_of (map snd cs) m).
  rewrite read_written.
  - f_equal. f_equal. unfold cs, states_frame. rewrite map_map. apply map_ext. intros f. cbn [fst snd]. f_equal.
    unfold padded. apply read_states; auto. intros x X. apply in_map_iff in X. destruct X as (k & <- & _).
    split; [apply NS|apply strip_str_nat].
  - unfold cs. destruct nf; [lia|discriminate].
  - unfold cs. apply Forall_map, Forall_forall. intros f F. apply in_seq in F. cbn [fst snd]. conj; auto.
    + apply feature_name_plain.
    + apply listed_le. lia.
  - intros c E. unfold cs in E. assert (L : nf = 1).
    { apply (f_equal (@length _)) in E. rewrite map_length, seq_length in E. exact E. }
    assert (Em : m = length (listed 0)). { unfold m. rewrite L. simpl. apply Nat.max_0_r. }
    rewrite L in E. injection E as <-. cbn [fst snd]. conj; auto. intros x X. apply in_map_iff in X. destruct X as (k & <- & _).
    apply str_nat_not_blank.
Qed.
Lemma feature_in f : f < nf -> In (feature_name f, map str_nat (feature_column features f)) cols.
Proof.
  intros F. unfold cols, data_columns. apply in_or_app. right. apply in_or_app. right.
  apply in_map_iff. exists f. split; auto. apply in_seq. lia.
Qed.
Let data_frame : frame := map (fun c => (fst c, map Some (snd c))) cols.
Lemma states_nth f : f < nf -> nth_error states_frame f = Some (feature_name f, map Some (listed f) ++ repeat None (m - length (listed f))).
Proof.
  intros F. unfold states_frame. rewrite nth_error_map. rewrite (nth_error_nth' _ 0) by (rewrite seq_length; auto).
  rewrite seq_nth by auto. reflexivity.
Qed.
Lemma column_nth f o row : nth_error features o = Some row ->
  nth_error (map Some (map str_nat (feature_column features f))) o = Some (Some (str_nat (nth f row 0))).
Proof. intros H. unfold feature_column. rewrite !nth_error_map, H. reflexivity. Qed.
Lemma encoding_works : exists e, encode_states m data_frame states_frame = Some e.
Proof.
  apply encode_states_accepts. intros name st I. unfold states_frame in I. apply in_map_iff in I.
  destruct I as (f & E & F). injection E as <- <-. apply in_seq in F.
  exists (map Some (map str_nat (feature_column features f))). split.
  - apply cols_get, feature_in. lia.
  - intros x X. apply in_map_iff in X. destruct X as (y & E & Y). injection E as <-. apply in_map_iff in Y.
    destruct Y as (k & <- & K). apply in_or_app. left. apply in_map, in_map. apply (SETS (feature_column features f)). exact K.
Qed.
Lemma to_float_show l : Forall (fun q => solid na (show q) /\ parse (show q) = Some q) l ->
  all_opt' (map (to_float parse) (map Some (map show l))) = Some (map Some l).
Proof.
  induction 1 as [|q l (_ & P) F IH]; auto. cbn [map all_opt' to_float]. rewrite P. cbn [option_map]. rewrite IH. reflexivity.
Qed.
Lemma objects_read : objects_from_dataframe parse data_frame =
  Some {| ob_id := map Some (si_id si); ob_x := map Some (si_x si); ob_y := map Some (si_y si); ob_names := map Some (si_id si) |}.
Proof.
  destruct OK as [_ _ _ _ _ FS]. apply Forall_app in FS. destruct FS as (FX & FY). unfold objects_from_dataframe.
  unfold data_frame.
  rewrite (@cols_get (s_ "x") (map show (si_x si))) by (simpl; auto).
  rewrite (@cols_get (s_ "y") (map show (si_y si))) by (simpl; auto).
  rewrite (@cols_get (s_ "id") (si_id si)) by (simpl; auto).
  rewrite !to_float_show by auto.
  replace (get_col _ (s_ "name")) with (@None (list (option str))); auto. symmetry.
  destruct (get_col _ (s_ "name")) as [c|] eqn:E; auto. exfalso. apply get_col_In in E. apply in_map_iff in E.
  destruct E as ((name & col) & E & I). injection E as -> _. unfold cols, data_columns in I.
  destruct SIM as [_ _ _ _ (_ & NN)]. rewrite Forall_forall in NN. apply in_app_or in I. destruct I as [I|I].
  - simpl in I. decompose [or] I; try discriminate; contradiction.
  - apply in_app_or in I. destruct I as [I|I].
    + apply (NN _ I). simpl. auto.
    + apply in_map_iff in I. destruct I as (f & E & _). apply (f_equal fst) in E. discriminate E.
Qed.
End Back.

(** The canvas *)
Lemma append_row_spec row : forall k (f : nat -> list str),
  append_row (map f (seq k (length row))) row = Some (map (fun j => f j ++ [filled (nth (j - k) row [])]) (seq k (length row))).
Proof.
  induction row as [|v row IH]; intros k f; auto. cbn [length seq map append_row]. rewrite IH. cbn [option_map].
  rewrite Nat.sub_diag. do 2 f_equal. apply map_ext_in. intros j J. apply in_seq in J.
  replace (j - k) with (S (j - S k)) by lia. reflexivity.
Qed.
Definition canvas_col (header : list str) (body : list (list str)) (j : nat) : list str :=
  nth j header [] :: map (fun r => filled (nth j r [])) body.
Lemma canvas_fold header body : header <> [] -> Forall (fun r => length r = length header) body ->
  fold_left canvas_row (header :: body) (Some []) = Some (map (canvas_col header body) (seq 0 (length header))).
Proof.
  intros N F. cbn [fold_left canvas_row]. revert F. induction body as [|r body IH] using rev_ind; intros F.
  - simpl. f_equal. rewrite <- (map_nth_seq header []) at 1. rewrite map_map. reflexivity.
  - apply Forall_app in F. destruct F as (F & R). inversion_clear R as [|? ? L _]. rewrite fold_left_app. cbn [fold_left].
    rewrite IH by auto. rewrite <- L. pose proof (@append_row_spec r 0 (canvas_col header body)) as A.
    assert (E : canvas_row (Some (map (canvas_col header body) (seq 0 (length r)))) r =
                append_row (map (canvas_col header body) (seq 0 (length r))) r).
    { destruct r; [|reflexivity]. destruct header; [congruence|discriminate]. }
    rewrite E, A. f_equal. apply map_ext. intros j. rewrite Nat.sub_0_r. unfold canvas_col. rewrite map_app. reflexivity.
Qed.
Lemma canvas_last header body d name col : header <> [] -> Forall (fun r => length r = length header) body ->
  canvas_columns (header :: body) = Some d -> last_col d name = Some col -> column_of header body name col.
Proof.
  intros N F D L. unfold canvas_columns in D. rewrite canvas_fold in D by auto. injection D as <-.
  unfold last_col in L. apply get_col_In, in_rev in L. rewrite map_map in L. apply in_map_iff in L.
  destruct L as (j & E & J). injection E as <- <-. apply in_seq in J. exists j. split.
  - apply nth_error_nth'. lia.
  - clear. induction body; constructor; auto.
Qed.
Lemma all_opt'_pairs (d : csv) ks cs : all_opt' (map (fun k => option_map (pair k) (last_col d k)) ks) = Some cs ->
  map fst cs = ks /\ forall k c, In (k, c) cs -> last_col d k = Some c.
Proof.
  intros H. apply all_opt'_Forall2 in H. revert cs H. induction ks as [|k ks IH]; intros cs H; inversion_clear H as [|? u ? us U US].
  - split; auto. intros k c [].
  - destruct (IH _ US) as (A & B). destruct (last_col d k) as [c|] eqn:E; [|discriminate]. injection U as <-. split.
    + simpl. congruence.
    + intros k' c' [I|I]; [injection I as <- <-; auto|eauto].
Qed.
Lemma all_opt'_map A B (f : A -> option B) l r : all_opt' (map f l) = Some r -> Forall2 (fun x y => f x = Some y) l r.
Proof.
  intros H. apply all_opt'_Forall2 in H. revert r H. induction l as [|x l IH]; intros r H; inversion_clear H; constructor; auto.
Qed.
