(** Lemmas on writing tables with quotes and reading them. *)
From Verif Require Import M_simdata S_simdata M_extract S_extract L_data L_text L_simdata.
Set Implicit Arguments.
Unset Strict Implicit.

(** Inside quotes all characters are kept. *)
Lemma quoted_run x fld rec out :
  fold_left step_char (flat_map (fun c => if char_eqb c quote then [c; c] else [c]) x) (tk InQuoted fld rec out) = tk InQuoted (fld ++ x) rec out.
Proof.
  revert fld. induction x as [|c x IH]; intros fld; [simpl; rewrite app_nil_r; reflexivity|].
  cbn [flat_map]. rewrite fold_left_app. destruct (ascii_dec c quote) as [E|E].
  - subst c. rewrite char_eqb_refl. cbn [fold_left]. change (step_char (step_char (tk InQuoted fld rec out) quote) quote) with (tk InQuoted (fld ++ [quote]) rec out).
    rewrite IH, <- app_assoc. reflexivity.
  - rewrite (char_eqb_neq E). cbn [fold_left]. unfold step_char at 2. cbn [t_state tk]. rewrite (char_eqb_neq E).
    unfold push; cbn [t_field t_record t_out tk]. fold (tk InQuoted (fld ++ [c]) rec out). rewrite IH, <- app_assoc. reflexivity.
Qed.
Lemma quoted_field_run x st rec out : In st [StartField; StartRecord] ->
  fold_left step_char (quoted quote x) (tk st [] rec out) = tk QuoteInQuoted x rec out.
Proof.
  intros H. unfold quoted. cbn [fold_left].
  assert (E : step_char (tk st [] rec out) quote = tk InQuoted [] rec out).
  { simpl in H. decompose [or] H; try subst st; try contradiction; reflexivity. }
  rewrite E, fold_left_app, quoted_run. reflexivity.
Qed.
(** Line ends: a newline, or a carriage return and a newline. *)
Definition line_end (eol : str) : Prop := eol = [newline] \/ eol = crlf.
Definition no_carriage (x : str) : Prop := ~ In carriage x.
Definition bland (c : ascii) : Prop := c <> comma /\ c <> quote /\ c <> newline /\ c <> carriage.
Lemma unquoted_bland eol x : line_end eol -> no_carriage x -> needs_quotes quote eol x = false -> Forall bland x.
Proof.
  intros E N H. unfold needs_quotes in H. apply Forall_forall. intros c C.
  assert (K : (char_eqb c comma || char_eqb c quote || existsb (char_eqb c) eol) = false).
  { destruct (_ || _) eqn:K; auto. rewrite <- H. symmetry. apply existsb_exists. eauto. }
  apply orb_false_iff in K. destruct K as (K & K3). apply orb_false_iff in K. destruct K as (K1 & K2). unfold bland. conj.
  - intros ->. rewrite char_eqb_refl in K1. discriminate.
  - intros ->. rewrite char_eqb_refl in K2. discriminate.
  - intros ->. destruct E as [->| ->]; vm_compute in K3; discriminate.
  - intros ->. apply N, C.
Qed.
Lemma in_field_bland x fld rec out : Forall bland x ->
  fold_left step_char x (tk InField fld rec out) = tk InField (fld ++ x) rec out.
Proof.
  revert fld. induction x as [|c x IH]; intros fld P; simpl; [rewrite app_nil_r; reflexivity|].
  inversion_clear P as [|? ? Hc Q]. destruct Hc as (A & B & C & D).
  unfold step_char at 2. cbn [t_state tk]. unfold field_char. rewrite !char_eqb_neq by auto.
  unfold push; cbn [t_field t_record t_out tk]. fold (tk InField (fld ++ [c]) rec out). rewrite IH by auto.
  rewrite <- app_assoc. reflexivity.
Qed.
Lemma field_bland x rec out : Forall bland x ->
  fold_left step_char x (tk StartField [] rec out) = tk (field_state x) x rec out.
Proof.
  intros P. destruct x as [|c x]; auto. inversion_clear P as [|? ? Hc Q]. destruct Hc as (A & B & C & D).
  cbn [fold_left]. unfold step_char at 2. cbn [t_state tk]. unfold field_char. rewrite !char_eqb_neq by auto.
  unfold push; cbn [t_field t_record t_out tk app]. fold (tk InField [c] rec out). rewrite in_field_bland by auto. reflexivity.
Qed.
Lemma blank_bland x fld out : Forall bland x -> fld <> [] -> forallb blank fld = true ->
  fold_left step_char x (tk BlankLine fld [] out) = tk (first_state (fld ++ x)) (fld ++ x) [] out.
Proof.
  revert fld. induction x as [|c x IH]; intros fld P N F; simpl.
  - rewrite app_nil_r. destruct fld; [congruence|]. cbn [first_state]. rewrite F. reflexivity.
  - inversion_clear P as [|? ? Hc Q]. destruct Hc as (A & B & C & D).
    unfold step_char at 2. cbn [t_state tk]. unfold blank_char. rewrite !char_eqb_neq by auto.
    destruct (blank c) eqn:E.
    + unfold push; cbn [t_field t_record t_out tk]. fold (tk BlankLine (fld ++ [c]) [] out). rewrite IH; auto.
      * rewrite <- app_assoc. reflexivity.
      * destruct fld; discriminate.
      * rewrite forallb_app, F. simpl. rewrite E. reflexivity.
    + unfold field_char. rewrite !char_eqb_neq by auto. unfold push; cbn [t_field t_record t_out tk].
      fold (tk InField (fld ++ [c]) [] out). rewrite in_field_bland by auto. rewrite <- app_assoc. simpl.
      replace (first_state (fld ++ c :: x)) with InField; auto.
      destruct fld; [congruence|]. cbn [app first_state]. rewrite app_comm_cons, forallb_app. cbn [forallb].
      rewrite E. simpl. rewrite andb_false_r. reflexivity.
Qed.
Lemma first_bland x out : Forall bland x ->
  fold_left step_char x (tk StartRecord [] [] out) = tk (first_state x) x [] out.
Proof.
  intros P. destruct x as [|c x]; auto. inversion_clear P as [|? ? Hc Q]. destruct Hc as (A & B & C & D).
  cbn [fold_left]. unfold step_char at 2. cbn [t_state tk]. unfold record_char, blank_char. rewrite !char_eqb_neq by auto.
  destruct (blank c) eqn:E.
  - unfold push; cbn [t_field t_record t_out tk app]. fold (tk BlankLine [c] [] out). rewrite blank_bland; auto; [discriminate|].
    simpl. rewrite E. reflexivity.
  - unfold field_char. rewrite !char_eqb_neq by auto. unfold push; cbn [t_field t_record t_out tk app].
    fold (tk InField [c] [] out). rewrite in_field_bland by auto. cbn [app first_state forallb]. rewrite E. reflexivity.
Qed.

Lemma comma_ends' st x rec out : In st [StartRecord; BlankLine; StartField; InField; QuoteInQuoted] ->
  step_char (tk st x rec out) comma = tk StartField [] (rec ++ [x]) out.
Proof. intros H. simpl in H. decompose [or] H; try subst st; try contradiction; reflexivity. Qed.
Lemma line_ends' eol st x rec out : line_end eol -> In st [StartField; InField; QuoteInQuoted] ->
  fold_left step_char eol (tk st x rec out) = tk StartRecord [] [] (out ++ [rec ++ [x]]).
Proof. intros E H. simpl in H. destruct E as [->| ->]; decompose [or] H; try subst st; try contradiction; reflexivity. Qed.

(** A field that was written is read as it was, wherever it stands. *)
Lemma written_field_run eol x rec out : line_end eol -> no_carriage x -> exists st, In st [StartField; InField; QuoteInQuoted] /\
  fold_left step_char (write_field quote eol x) (tk StartField [] rec out) = tk st x rec out.
Proof.
  intros E N. unfold write_field. destruct (needs_quotes quote eol x) eqn:Q.
  - exists QuoteInQuoted. split; [simpl; auto|]. apply quoted_field_run. simpl. auto.
  - exists (field_state x). split; [destruct x; simpl; auto|]. apply field_bland. eapply unquoted_bland; eauto.
Qed.
Lemma written_first_run eol x out : line_end eol -> no_carriage x -> exists st,
  In st [StartRecord; BlankLine; StartField; InField; QuoteInQuoted] /\
  (forallb blank x = false -> In st [StartField; InField; QuoteInQuoted]) /\
  fold_left step_char (write_field quote eol x) (tk StartRecord [] [] out) = tk st x [] out.
Proof.
  intros E N. unfold write_field. destruct (needs_quotes quote eol x) eqn:Q.
  - exists QuoteInQuoted. conj; [simpl; tauto|simpl; tauto|]. apply quoted_field_run. simpl. auto.
  - exists (first_state x). conj.
    + unfold first_state. destruct x; [|destruct (forallb _ _)]; simpl; tauto.
    + intros B. unfold first_state. destruct x; [discriminate|]. rewrite B. simpl. auto.
    + apply first_bland. eapply unquoted_bland; eauto.
Qed.
Lemma written_rest_run eol rest : line_end eol -> forall x rec out st, In st [StartField; InField; QuoteInQuoted] -> Forall no_carriage rest ->
  fold_left step_char (flat_map (fun y => comma :: y) (map (write_field quote eol) rest) ++ eol) (tk st x rec out) =
  tk StartRecord [] [] (out ++ [rec ++ x :: rest]).
Proof.
  intros E. induction rest as [|y rest IH]; intros x rec out st S P.
  - apply line_ends'; auto.
  - inversion_clear P as [|? ? A B]. cbn [map flat_map app]. rewrite <- app_assoc. cbn [fold_left].
    rewrite comma_ends' by (simpl in *; tauto). rewrite fold_left_app.
    destruct (@written_field_run eol y (rec ++ [x]) out E A) as (st' & S' & ->).
    rewrite IH; auto. rewrite <- app_assoc. reflexivity.
Qed.
(** Records: at least one field, and a single field is empty or not blank. *)
Definition record_ok (r : list str) : Prop :=
  r <> [] /\ Forall no_carriage r /\ forall x, r = [x] -> x = [] \/ forallb blank x = false.
Lemma written_row_run eol r out : line_end eol -> record_ok r ->
  fold_left step_char (write_row quote eol r) (tk StartRecord [] [] out) = tk StartRecord [] [] (out ++ [r]).
Proof.
  intros E (N & P & B). destruct r as [|x rest]; [congruence|].
  destruct rest as [|y rest].
  - destruct x as [|c x].
    + unfold write_row. rewrite fold_left_app, quoted_field_run by (simpl; auto).
      rewrite line_ends' by (simpl; auto). reflexivity.
    + match goal with |- fold_left _ ?a _ = _ => change a with (write_field quote eol (c :: x) ++ eol) end. rewrite fold_left_app. inversion_clear P as [|? ? A Q].
      destruct (@written_first_run eol (c :: x) out E A) as (st & _ & S & ->).
      rewrite line_ends'; auto. apply S. destruct (B _ eq_refl); [discriminate|auto].
  - assert (W : write_row quote eol (x :: y :: rest) = write_field quote eol x ++
                flat_map (fun z => comma :: z) (map (write_field quote eol) (y :: rest)) ++ eol).
    { unfold write_row. rewrite app_assoc. rewrite <- join_rest. destruct x; reflexivity. }
    rewrite W, fold_left_app. inversion_clear P as [|? ? A Q]. inversion_clear Q as [|? ? Ay Q'].
    destruct (@written_first_run eol x out E A) as (st & S & _ & ->).
    cbn [map flat_map app]. rewrite <- app_assoc. cbn [fold_left]. rewrite comma_ends' by auto. rewrite fold_left_app.
    destruct (@written_field_run eol y ([] ++ [x]) out E Ay) as (st' & S' & ->).
    rewrite written_rest_run; auto.
Qed.
Lemma written_rows_run eol rows : line_end eol -> Forall record_ok rows -> forall out,
  fold_left step_char (write_rows quote eol rows) (tk StartRecord [] [] out) = tk StartRecord [] [] (out ++ rows).
Proof.
  intros E H. unfold write_rows. induction H as [|r rows R H IH]; intros out; simpl; [rewrite app_nil_r; reflexivity|].
  rewrite fold_left_app, written_row_run, IH by auto. rewrite <- app_assoc. reflexivity.
Qed.
Lemma round_trip eol rows : line_end eol -> Forall record_ok rows -> tokenize (write_rows quote eol rows) = Some rows.
Proof.
  intros E H. unfold tokenize. change tok_start with (tk StartRecord [] [] []). rewrite written_rows_run by auto. reflexivity.
Qed.
Lemma fields_run eol fields : line_end eol -> Forall no_carriage fields -> forall st rec out, In st [StartRecord; StartField] ->
  (st = StartRecord -> rec = []) -> exists st', In st' [StartField; StartRecord] /\
  fold_left step_char (flat_map (fun x => write_field quote eol x ++ [comma]) fields) (tk st [] rec out) = tk st' [] (rec ++ fields) out.
Proof.
  intros E. induction 1 as [|x fields X H IH]; intros st rec out S N.
  - exists st. rewrite app_nil_r. split; auto. simpl in *. tauto.
  - cbn [flat_map]. rewrite <- app_assoc, fold_left_app.
    assert (K : fold_left step_char ([comma] ++ flat_map (fun x => write_field quote eol x ++ [comma]) fields)
               (fold_left step_char (write_field quote eol x) (tk st [] rec out)) =
             fold_left step_char (flat_map (fun x => write_field quote eol x ++ [comma]) fields) (tk StartField [] (rec ++ [x]) out)).
    { rewrite fold_left_app. f_equal. destruct S as [<-|[<-|[]]].
      - rewrite (N eq_refl). destruct (@written_first_run eol x out E X) as (s & S & _ & ->). apply comma_ends', S.
      - destruct (@written_field_run eol x rec out E X) as (s & S & ->). apply comma_ends'. simpl in *. tauto. }
    rewrite K. destruct (IH StartField (rec ++ [x]) out) as (s & S' & ->); [simpl; auto|discriminate|].
    exists s. rewrite <- app_assoc. auto.
Qed.
Lemma cut_run eol rows fields x : line_end eol -> Forall record_ok rows -> Forall no_carriage fields ->
  tokenize (write_rows quote eol rows ++ flat_map (fun x => write_field quote eol x ++ [comma]) fields ++
            quote :: flat_map (fun c => if char_eqb c quote then [c; c] else [c]) x) = None.
Proof.
  intros E R F. unfold tokenize. change tok_start with (tk StartRecord [] [] []). rewrite fold_left_app, written_rows_run by auto.
  rewrite fold_left_app. destruct (@fields_run eol fields E F StartRecord [] ([] ++ rows)) as (st & S & ->); [simpl; auto|auto|].
  cbn [fold_left]. assert (Q : step_char (tk st [] ([] ++ fields) ([] ++ rows)) quote = tk InQuoted [] ([] ++ fields) ([] ++ rows)).
  { simpl in S. decompose [or] S; try subst st; try contradiction; reflexivity. }
  rewrite Q, quoted_run. reflexivity.
Qed.

(** ** Tables *)
Definition table_ok (f : csv) (n : nat) : Prop :=
  f <> [] /\ Forall (fun c => no_carriage (fst c) /\ length (snd c) = n /\ Forall no_carriage (snd c)) f /\
  forall c, f = [c] -> forallb blank (fst c) = false /\ Forall (fun x => x = [] \/ forallb blank x = false) (snd c).
Lemma to_csv_records f n : table_ok f n -> tokenize (to_csv f) = Some (map fst f :: rows_of (map snd f) n).
Proof.
  intros (N & H & S). unfold to_csv. rewrite (@zip_columns_rows (map snd f) n).
  - apply round_trip; [left; reflexivity|]. rewrite Forall_forall in H. constructor.
    + unfold record_ok. conj.
      * destruct f; [congruence|discriminate].
      * apply Forall_map, Forall_forall. intros c C. apply H; auto.
      * intros x E. destruct f as [|c [|]]; try discriminate. injection E as <-. right. apply S; auto.
    + unfold rows_of. apply Forall_map, Forall_forall. intros i I. apply in_seq in I. unfold record_ok. conj.
      * destruct f; [congruence|discriminate].
      * rewrite map_map. apply Forall_map, Forall_forall. intros c C. destruct (H c C) as (_ & _ & P). rewrite Forall_forall in P.
        destruct (nth_in_or_default i (snd c) []) as [E|E]; [apply P, E|]. unfold str in *. rewrite E. intros [].
      * intros x E. destruct f as [|c [|]]; try discriminate. injection E as <-. destruct (S c eq_refl) as (_ & P).
        destruct (H c) as (_ & L & _); [left; auto|]. rewrite Forall_forall in P. apply P, nth_In. unfold str in *. lia.
  - destruct f; [congruence|discriminate].
  - apply Forall_map. eapply Forall_impl; [|exact H]. intros c (_ & L & _). exact L.
Qed.
Lemma padded_full n c : length c = n -> padded n c = c.
Proof. intros H. unfold padded. rewrite H, Nat.sub_diag. apply app_nil_r. Qed.
Lemma to_csv_table f n : table_ok f n -> make_table (map fst f :: rows_of (map snd f) n) = Some {| tb_names := map fst f; tb_rows := rows_of (map snd f) n |} /\
  columns {| tb_names := map fst f; tb_rows := rows_of (map snd f) n |} = f.
Proof.
  intros (_ & H & _). split.
  - apply table_of. unfold rows_of. apply Forall_map, Forall_forall. intros i _. rewrite !map_length. reflexivity.
  - rewrite columns_of.
    + rewrite <- (map_id f) at 2. apply map_ext_in. intros (m, c) C. rewrite Forall_forall in H. destruct (H _ C) as (_ & L & _). cbn [fst snd] in *.
      rewrite padded_full; auto.
    + eapply Forall_impl; [|exact H]. intros c (_ & L & _). unfold str in *. lia.
Qed.
Lemma read_to_csv na f n : table_ok f n -> read_data_csv na (to_csv f) = Some (n, read_csv na f).
Proof.
  intros H. unfold read_data_csv. rewrite (to_csv_records H). destruct (to_csv_table H) as (-> & E). cbn [option_map]. rewrite E.
  cbn [tb_rows]. unfold rows_of. rewrite map_length, seq_length. reflexivity.
Qed.
Lemma read_cells_data na text f : read_cells text = Some f -> exists n, read_data_csv na text = Some (n, read_csv na f).
Proof.
  unfold read_cells, read_data_csv. destruct (tokenize text) as [r|]; [|discriminate]. destruct (make_table r) as [tb|]; [|discriminate].
  cbn [option_map]. intros E. injection E as <-. eauto.
Qed.
Lemma data_read_cells na text n data : read_data_csv na text = Some (n, data) -> exists f, read_cells text = Some f /\ data = read_csv na f.
Proof.
  unfold read_cells, read_data_csv. destruct (tokenize text) as [r|]; [|discriminate]. destruct (make_table r) as [tb|]; [|discriminate].
  cbn [option_map]. intros E. injection E as <- <-. eauto.
Qed.

(** ** Cells *)
Lemma strip_incl x c : In c (strip x) -> In c x.
Proof.
  unfold strip. rewrite <- in_rev. intros H. destruct (lstrip_suffix (rev (lstrip x))) as (p & E).
  assert (K : In c (rev (lstrip x))) by (rewrite E; apply in_or_app; auto). rewrite <- in_rev in K.
  destruct (lstrip_suffix x) as (q & E'). rewrite E'. apply in_or_app. auto.
Qed.
Lemma blank_space c : blank c = true -> is_space c = true.
Proof. unfold blank, char_eqb. destruct (ascii_dec c " ") as [->|]; [reflexivity|]. destruct (ascii_dec c tab) as [->|]; [reflexivity|discriminate]. Qed.
Lemma blank_strip x : forallb blank x = true -> strip x = [].
Proof.
  intros H. assert (E : lstrip x = []); [|unfold strip; rewrite E; reflexivity].
  induction x as [|c x IH]; auto. simpl in *. apply andb_true_iff in H. destruct H as (A & B). rewrite (blank_space A). auto.
Qed.
Lemma stripped_visible x : strip x = x -> x = [] \/ forallb blank x = false.
Proof. intros H. destruct (forallb blank x) eqn:E; auto. left. rewrite <- H. apply blank_strip, E. Qed.
Lemma visible_not_blank x : (exists c, In c x /\ c <> " "%char /\ c <> tab) -> forallb blank x = false.
Proof.
  intros (c & C & A & B). destruct (forallb blank x) eqn:E; auto. rewrite forallb_forall in E. specialize (E c C).
  unfold blank in E. rewrite !char_eqb_neq in E by auto. discriminate.
Qed.

(** ** The tool *)
Lemma paired_left A B (P : A -> B -> Prop) l r x : Forall2 P l r -> In x l -> exists y, In y r /\ P x y.
Proof.
  induction 1 as [|a b l r H _ IH]; intros []; [subst; exists b; split; [left|]; auto|].
  destruct IH as (y & Y & K); auto. exists y. split; [right|]; auto.
Qed.
Lemma paired_right A B (P : A -> B -> Prop) l r y : Forall2 P l r -> In y r -> exists x, In x l /\ P x y.
Proof.
  induction 1 as [|a b l r H _ IH]; intros []; [subst; exists a; split; [left|]; auto|].
  destruct IH as (x & X & K); auto. exists x. split; [right|]; auto.
Qed.
Lemma main_inv na texts out : extract_feature_states_main na texts = Some out ->
  exists files t, Forall2 (fun text f => read_cells text = Some f) texts files /\ extract_feature_states na files = Some t /\ out = to_csv t.
Proof.
  unfold extract_feature_states_main. destruct (all_opt' _) as [files|] eqn:E; [|discriminate].
  destruct (extract_feature_states na files) as [t|] eqn:T; [|discriminate]. intros H. injection H as <-. exists files, t. conj; auto.
  apply all_opt'_Forall2 in E. clear T. revert files E. induction texts as [|x texts IH]; intros files E; inversion_clear E; constructor; auto.
Qed.
Lemma extract_nonempty na files t : extract_feature_states na files = Some t -> t <> [].
Proof.
  unfold extract_feature_states. destruct files as [|f r]; [discriminate|]. destruct (collect_feature_states na f); [|discriminate].
  destruct (merge_files na _ r) as [[|p d]|]; try discriminate. intros H. injection H as <-. destruct p. discriminate.
Qed.
Lemma written_states_ok na files d : files <> [] -> Forall (tidy na) files -> write_states d <> [] ->
  (forall f, In f files -> forall n, In n (map fst d) <-> In n (map fst f) /\ ~ In n metadata) ->
  (forall n ss, In (n, ss) d -> forall x, In x ss <-> exists f, In f files /\ occurs na f n x) ->
  table_ok (write_states d) (max_len d).
Proof.
  intros NF T NE K V. rewrite Forall_forall in T. destruct files as [|f0 files]; [congruence|].
  assert (T0 : tidy na f0) by (apply T; left; auto).
  assert (NM : forall n ss, In (n, ss) d -> no_carriage n /\ forallb blank n = false).
  { intros n ss I. destruct (proj1 (K f0 (or_introl eq_refl) n)) as (A & _); [change n with (fst (n, ss)); apply in_map, I|].
    pose proof (names_visible T0) as P. rewrite Forall_forall in P. destruct (P n A) as (B & C). split; auto. apply visible_not_blank, C. }
  assert (CL : forall n ss x, In (n, ss) d -> In x ss -> no_carriage x /\ (x = [] \/ forallb blank x = false)).
  { intros n ss x I X. apply (V n ss I) in X. destruct X as (f & F & cells & c & G & C & _ & <-). split.
    - intros H. apply strip_incl in H. revert H. eapply (cells_in_line (T f F)); eauto. apply get_col_In, G.
    - apply stripped_visible, strip_idem. }
  unfold table_ok. conj; auto.
  - unfold write_states. apply Forall_map, Forall_forall. intros (n, ss) I. cbn [fst snd]. destruct (NM n ss I) as (A & _). conj; auto.
    + rewrite app_length, repeat_length. pose proof (@max_len_ge d n ss I). unfold str in *. lia.
    + apply Forall_app. split.
      * apply Forall_forall. intros x X. eapply CL; eauto.
      * apply Forall_forall. intros x X. apply repeat_spec in X. subst x. intros [].
  - intros c E. destruct d as [|(n, ss) [|]]; try discriminate. injection E as <-. cbn [fst snd].
    destruct (NM n ss) as (_ & B); [left; auto|]. split; auto. apply Forall_app. split.
    + apply Forall_forall. intros x X. eapply CL; [left; reflexivity|exact X].
    + apply Forall_forall. intros x X. apply repeat_spec in X. auto.
Qed.

(** When the tool succeeds. *)
Definition feature_of (f : csv) (n : str) : Prop := In n (map fst f) /\ ~ In n metadata.
Lemma collect_names na f a : collect_feature_states na f = Some a -> forall n, In n (map fst a) <-> feature_of f n.
Proof.
  unfold collect_feature_states. destruct (forallb _ _); [|discriminate]. intros H. injection H as <-. intros n. unfold feature_of.
  rewrite map_map, in_map_iff. split.
  - intros ((m, c) & E & I). cbn [fst] in E. subst m. apply filter_In in I. destruct I as (I & M). unfold read_csv in I. apply in_map_iff in I.
    change (negb (mem n metadata) = true) in M. destruct (mem n metadata) eqn:Q; [discriminate|].
    destruct I as ((m, c') & E & I). assert (m = n) by congruence. subst m. split; [change n with (fst (n, c')); apply in_map, I|].
    intros K. apply mem_In in K. congruence.
  - intros (I & M). apply in_map_iff in I. destruct I as ((m, c) & E & I). cbn [fst] in E. subst m. exists (n, map (read_cell na) c). split; auto.
    apply filter_In. split; [unfold read_csv; apply in_map_iff; exists (n, c); auto|].
    change (negb (mem n metadata) = true). destruct (mem n metadata) eqn:K; auto. apply mem_In in K. contradiction.
Qed.
Lemma collect_iff na f : (exists a, collect_feature_states na f = Some a) <-> incl metadata (map fst f).
Proof.
  unfold collect_feature_states. destruct (forallb _ metadata) eqn:E.
  - split; eauto. intros _ m M. rewrite forallb_forall in E. apply mem_In, E, M.
  - split; [intros (a & A); discriminate|]. intros H. exfalso. assert (K : forallb (fun m => mem m (map fst f)) metadata = true); [|congruence].
    apply forallb_forall. intros m M. apply mem_In, H, M.
Qed.
Lemma merge_iff na files : forall a, (exists d, merge_files na a files = Some d) <->
  Forall (fun f => incl metadata (map fst f) /\ forall n, In n (map fst a) <-> feature_of f n) files.
Proof.
  induction files as [|f files IH]; intros a; cbn [merge_files]; [split; eauto; constructor|]. split.
  - intros (d & H). destruct (collect_feature_states na f) as [b|] eqn:C; [|discriminate].
    unfold merge_states in H. destruct (set_eqb (map fst a) (map fst b)) eqn:S; [|discriminate].
    pose proof (proj1 (set_eqb_spec _ _) S) as S'. constructor.
    + split; [apply (collect_iff na); eauto|]. intros n. rewrite S'. apply (collect_names C).
    + assert (H' : exists d, merge_files na (map (fun '(n, ss) => (n, match get_col b n with Some ss' => fold_right insert ss ss' | None => ss end)) a) files = Some d) by eauto.
      apply IH in H'. rewrite map_map in H'. rewrite (map_ext _ fst) in H' by (intros (x, y); reflexivity). exact H'.
  - intros H. inversion_clear H as [|? ? P Q]. destruct P as (M & N). apply (collect_iff na) in M. destruct M as (b & C). rewrite C.
    unfold merge_states. replace (set_eqb (map fst a) (map fst b)) with true.
    + apply IH. rewrite map_map. rewrite (map_ext _ fst) by (intros (x, y); reflexivity). exact Q.
    + symmetry. apply set_eqb_spec. intros n. rewrite N. symmetry. apply (collect_names C).
Qed.
Lemma merge_names na files : forall a d, merge_files na a files = Some d -> map fst d = map fst a.
Proof.
  induction files as [|f files IH]; intros a d; cbn [merge_files]; [congruence|]. destruct (collect_feature_states na f); [|discriminate].
  unfold merge_states. destruct (set_eqb _ _); [|discriminate]. intros H. apply IH in H. rewrite H, map_map. apply map_ext. intros (x, y). reflexivity.
Qed.
Lemma extract_iff na files : (exists t, extract_feature_states na files = Some t) <->
  Forall (fun f => incl metadata (map fst f)) files /\
  (forall f g n, In f files -> In g files -> feature_of f n -> feature_of g n) /\
  exists f n, In f files /\ feature_of f n.
Proof.
  unfold extract_feature_states. destruct files as [|f files]; [split; [intros (t & T); discriminate|intros (_ & _ & f & _ & [] & _)]|]. split.
  - intros (t & T). destruct (collect_feature_states na f) as [a|] eqn:C; [|discriminate].
    destruct (merge_files na a files) as [d|] eqn:D; [|discriminate].
    assert (A : Forall (fun f => incl metadata (map fst f) /\ forall n, In n (map fst a) <-> feature_of f n) files) by (apply (merge_iff na); eauto).
    pose proof (collect_names C) as N. rewrite Forall_forall in A.
    assert (EQ : forall g, In g (f :: files) -> forall n, In n (map fst a) <-> feature_of g n).
    { intros g [<-|G] n; [apply N|apply A, G]. }
    conj.
    + constructor; [apply (collect_iff na); eauto|]. apply Forall_forall. intros g G. apply A, G.
    + intros g h n G H. rewrite <- (EQ g G), <- (EQ h H). auto.
    + destruct d as [|(n, ss) d]; [discriminate|]. exists f, n. split; [left; auto|]. apply N. rewrite <- (merge_names D). left. reflexivity.
  - intros (M & S & g & n & G & F). inversion_clear M as [|? ? M0 MR]. apply (collect_iff na) in M0. destruct M0 as (a & C). rewrite C.
    destruct (proj2 (@merge_iff na files a)) as (d & D).
    { rewrite Forall_forall in *. intros h H. split; [apply MR, H|]. intros m. rewrite (collect_names C). split; apply S; simpl; auto. }
    rewrite D. destruct d; [|eauto]. exfalso.
    assert (K : In n (map fst a)) by (apply (collect_names C), (S g); simpl; auto). rewrite <- (merge_names D) in K. destruct K.
Qed.
