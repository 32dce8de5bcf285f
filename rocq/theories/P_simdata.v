(** C89: the files of a simulation, read as the data of an analysis. *)
From Coq Require Import FinFun.
From Verif Require Import L_cache M_simdata S_simdata L_data L_text L_plot L_simdata.

(** * Reading the canvas: every column is found under its name, row by row; blank cells are read as "0". *)
Theorem C89_canvas parse parse_int ce header body si :
  header <> [] -> Forall (fun r => length r = length header) body ->
  load_canvas parse parse_int ce (header :: body) = Some si ->
  column_of header body (s_ "id") (si_id si) /\
  (exists xs, column_of header body (s_ "x") xs /\ Forall2 (fun s q => parse s = Some q) xs (si_x si)) /\
  (exists ys, column_of header body (s_ "y") ys /\ Forall2 (fun s q => parse s = Some q) ys (si_y si)) /\
  (exists cs, column_of header body (s_ "cluster") cs /\ Forall2 (fun s z => parse_int s = Some z) cs (si_cluster si)) /\
  map fst (si_confounders si) = ce /\
  (forall k ls, In (k, ls) (si_confounders si) -> column_of header body k ls /\ ~ In k (map s_ ["id"; "x"; "y"; "cluster"]%string)).
Proof.
  intros N F H. unfold load_canvas in H. destruct (canvas_columns (header :: body)) as [d|] eqn:D; [|discriminate].
  assert (LC : forall name col, last_col d name = Some col -> column_of header body name col) by (intros; eapply canvas_last; eauto).
  assert (LL : forall name col, last_col d name = Some col -> length col = length body).
  { intros name col L. destruct (LC _ _ L) as (j & _ & F2). symmetry. eapply Forall2_len; eauto. }
  destruct (last_col d (s_ "x")) as [x|] eqn:X; [|discriminate]. destruct (last_col d (s_ "y")) as [y|] eqn:Y; [|discriminate].
  destruct (last_col d (s_ "id")) as [i|] eqn:I; [|discriminate]. destruct (last_col d (s_ "cluster")) as [c|] eqn:C; [|discriminate].
  destruct (existsb _ ce) eqn:NC; [discriminate|]. destruct (_ || _); [discriminate|].
  destruct (all_opt' (map (fun k => _) ce)) as [cs|] eqn:CS; [|discriminate].
  rewrite (LL _ _ I), !firstn_all2 in H by (rewrite ?(LL _ _ X), ?(LL _ _ Y); auto).
  destruct (all_opt' (map parse x)) as [qx|] eqn:QX; [|discriminate]. destruct (all_opt' (map parse y)) as [qy|] eqn:QY; [|discriminate].
  destruct (all_opt' (map parse_int c)) as [zc|] eqn:ZC; [|discriminate]. injection H as <-.
  cbn [si_id si_x si_y si_cluster si_confounders]. destruct (all_opt'_pairs CS) as (A & B). conj; auto.
  - exists x. split; auto. apply all_opt'_map, QX.
  - exists y. split; auto. apply all_opt'_map, QY.
  - exists c. split; auto. apply all_opt'_map, ZC.
  - intros k ls K. split; [apply LC, B, K|]. intros R.
    assert (T : existsb (fun k => mem k (map s_ ["x"; "y"; "id"; "cluster"]%string)) ce = true); [|congruence].
    apply existsb_exists. exists k. split.
    + rewrite <- A. change k with (fst (k, ls)). apply in_map, K.
    + apply mem_In. simpl in *. tauto.
Qed.
Print Assumptions C89_canvas.

(** * Reading the files that were written *)
(** If all texts are safe, reading the two files gives the simulated data, in whatever order sets are listed.
    Missing for the full statement: texts that are not safe, for which it is false (below). *)
Theorem C89_read_back_partial na show parse list_set si nf features gs :
  simulated si nf features -> readable na show parse si -> lists_sets list_set -> names_groups si gs ->
  exists d, read_features_from_csv na parse (features_csv show si nf features) (feature_states_csv list_set nf features) gs = Some d /\
    same_data si nf features gs d.
Proof.
  intros SIM OK SETS GS. unfold read_features_from_csv.
  rewrite (@data_read na show parse si nf features SIM OK), (@states_read na show parse list_set si nf features SIM OK).
  set (n := length (si_id si)).
  destruct (@encoding_works show list_set si nf features SIM SETS) as (e & E). rewrite E.
  rewrite (@objects_read na show parse si nf features SIM OK).
  set (data := map (fun c => (fst c, map Some (snd c))) (data_columns show si nf features)) in *.
  assert (CG : forall c g, In (c, g) gs -> exists ls cd, In (c, ls) (si_confounders si) /\ get_col data c = Some (map Some ls) /\
             confounder_from_dataframe n data c (Some g) = Some cd /\ cd_groups cd = g).
  { intros c g I. unfold names_groups in GS. rewrite Forall_forall in GS. destruct (GS _ I) as (ls & L & X).
    assert (G : get_col data c = Some (map Some ls)).
    { apply (@cols_get show si nf features SIM). unfold data_columns. apply in_or_app. right. apply in_or_app. auto. }
    unfold confounder_from_dataframe. rewrite G.
    assert (SE : set_eqb g (sorted_set (dropna (map Some ls))) = true).
    { apply set_eqb_spec. intros x. rewrite X, sorted_set_In, dropna_In. split; intros H.
      - apply in_map; auto.
      - apply in_map_iff in H. destruct H as (y & EQ & Y). injection EQ as <-. auto. }
    rewrite SE. exists ls. eexists. conj; try reflexivity. exact L. }
  destruct (@all_opt'_some _ (map (fun '(c, g) => option_map (pair c) (confounder_from_dataframe n data c (Some g))) gs)) as (cs & CS).
  { apply Forall_map, Forall_forall. intros (c, g) I. destruct (CG c g I) as (ls & cd & _ & _ & H & _). rewrite H. discriminate. }
  rewrite CS. eexists. split; [reflexivity|].
  destruct (encode_states_inv E) as (Hst & Hnm & Hinv).
  assert (VAL : forall f, f < nf -> nth f (enc_names e) [] = map str_nat (list_set (feature_column features f)) /\
                nth f (enc_states e) [] = map is_some (map Some (map str_nat (list_set (feature_column features f))) ++
                  repeat None (fold_right Nat.max 0 (map (@length _) (map (fun f => map str_nat (list_set (feature_column features f))) (seq 0 nf))) - length (map str_nat (list_set (feature_column features f)))))).
  { intros f F. rewrite Hst, Hnm. pose proof (@states_nth list_set nf features f F) as SN. split.
    - rewrite (nth_error_nth _ f [] (map_nth_error _ f _ SN)). apply dropna_gap_free.
    - rewrite (nth_error_nth _ f [] (map_nth_error _ f _ SN)). reflexivity. }
  assert (APP : forall f j, f < nf -> (nth j (nth f (enc_states e) []) false = true <->
                  exists x, nth_error (nth f (enc_names e) []) j = Some x)).
  { intros f j F. destruct (VAL f F) as (-> & ->). rewrite map_app, map_map. split.
    - intros H. destruct (Nat.lt_ge_cases j (length (map str_nat (list_set (feature_column features f))))) as [L|L].
      + apply nth_error_Some in L. destruct (nth_error _ j) as [x|]; [eauto|congruence].
      + rewrite app_nth2 in H by (rewrite map_length; auto). exfalso. revert H. clear.
        generalize (j - length (map (fun x => is_some (Some x)) (map str_nat (list_set (feature_column features f))))).
        match goal with |- context [repeat _ ?k] => generalize k end. clear. intros k.
        induction k; intros [|i] H; simpl in H; try discriminate; eauto.
    - intros (x & H). apply nth_error_nth. rewrite nth_error_app1.
      + rewrite nth_error_map, H. reflexivity.
      + rewrite map_length. apply nth_error_Some. congruence. }
  constructor; cbn [ld_objects ld_features ld_confounders ob_id ob_names ob_x ob_y]; auto.
  - unfold encode_states in E. destruct (all_opt' _) as [vs|] eqn:EV; [|discriminate]. injection E as <-. cbn [enc_values].
    apply all_opt'_Forall2 in EV. apply Forall2_len in EV. rewrite !map_length, seq_length in EV. rewrite map_length. auto.
  - intros f o row F O. pose proof (@states_nth list_set nf features f F) as SN.
    destruct (Hinv _ _ _ SN) as (raw & vals & R & EN & V).
    assert (R' : get_col data (feature_name f) = Some (map Some (map str_nat (feature_column features f)))).
    { exact (@cols_get show si nf features SIM _ _ (@feature_in show list_set si nf features f F)). }
    rewrite R' in R. injection R as <-.
    assert (LM : length (map Some (map str_nat (list_set (feature_column features f))) ++
               repeat None (fold_right Nat.max 0 (map (@length _) (map (fun f => map str_nat (list_set (feature_column features f))) (seq 0 nf))) - length (map str_nat (list_set (feature_column features f))))) =
             fold_right Nat.max 0 (map (@length _) (map (fun f => map str_nat (list_set (feature_column features f))) (seq 0 nf)))).
    { pose proof (@listed_le list_set si nf features f F) as L. rewrite app_length, map_length, repeat_length. unfold str in *. lia. }
    destruct (encode_feature_spec LM EN) as (_ & H). destruct (H _ _ (@column_nth features f o row O)) as (r & Hr & _ & j & _ & Hj & Nj).
    exists j. rewrite dropna_gap_free in Nj. destruct (VAL f F) as (VN & _).
    assert (NJ : nth_error (nth f (enc_names e) []) j = Some (str_nat (nth f row 0))) by (rewrite VN; exact Nj).
    conj; auto.
    + rewrite (nth_error_nth _ _ _ V), (nth_error_nth _ _ _ Hr). exact Hj.
    + apply APP; eauto.
  - intros f F. destruct (VAL f F) as (VN & _). destruct (SETS (feature_column features f)) as (ND & IN). split.
    + rewrite VN. apply Injective_map_NoDup; auto. intros a b. apply str_nat_inj.
    + intros j J. apply APP in J; auto. destruct J as (x & J). rewrite J. rewrite VN in J.
      apply nth_error_In, in_map_iff in J. destruct J as (k & <- & K). apply IN in K. unfold feature_column in K.
      apply in_map_iff in K. destruct K as (row & <- & K). apply In_nth_error in K. destruct K as (o & O). exists o, row. auto.
  - unfold encode_states in E. destruct (all_opt' _) as [vs|] eqn:EV; [|discriminate]. injection E as <-. cbn [enc_na].
    apply all_opt'_Forall2 in EV. revert EV. clear Hst Hnm Hinv VAL APP.
    assert (GC : forall f, f < nf -> get_col data (feature_name f) = Some (map Some (map str_nat (feature_column features f)))).
    { intros f F. exact (@cols_get show si nf features SIM _ _ (@feature_in show list_set si nf features f F)). }
    clear CG CS. clearbody data.
    assert (G : forall fs vs, (forall f, In f fs -> f < nf) ->
      Forall2 (fun x y => x = Some y) (map (fun '(name, st) => match get_col data name with
         | Some raw => option_map (fun v => (v, raw)) (encode_feature (fold_right Nat.max 0 (map (@length _) (map (fun f => map str_nat (list_set (feature_column features f))) (seq 0 nf)))) st raw)
         | None => None end) (map (fun f => (feature_name f, map Some (map str_nat (list_set (feature_column features f))) ++
           repeat None (fold_right Nat.max 0 (map (@length _) (map (fun f => map str_nat (list_set (feature_column features f))) (seq 0 nf))) - length (map str_nat (list_set (feature_column features f)))))) fs)) vs ->
      list_sum (map (fun '(_, raw) => length (filter (fun v => negb (is_some v)) raw)) vs) = 0).
    { induction fs as [|f fs IH]; intros us L H; inversion_clear H as [|? u ? us' U US]; auto.
      rewrite sum_cons, (IH us'); auto; [|intros; apply L; right; auto].
      rewrite (GC f (L f (or_introl eq_refl))) in U.
      destruct (encode_feature _ _ _) as [v|]; [|discriminate]. injection U as <-. rewrite Nat.add_0_r. clear.
      induction (map str_nat (feature_column features f)) as [|x l IH]; auto. }
    intros EV. eapply G; [|exact EV]. intros f F. apply in_seq in F. lia.
  - clear E Hst Hnm Hinv VAL APP. apply all_opt'_Forall2 in CS.
    assert (G : forall gs cs, (forall c g, In (c, g) gs -> exists ls cd, In (c, ls) (si_confounders si) /\ get_col data c = Some (map Some ls) /\
             confounder_from_dataframe n data c (Some g) = Some cd /\ cd_groups cd = g) ->
      Forall2 (fun x y => x = Some y) (map (fun '(c, g) => option_map (pair c) (confounder_from_dataframe n data c (Some g))) gs) cs ->
      map fst cs = map fst gs /\ forall c cd, In (c, cd) cs -> exists g, In (c, g) gs /\ confounder_from_dataframe n data c (Some g) = Some cd).
    { clear. induction gs as [|(c & g) gs IH]; intros cs CG H; inversion_clear H as [|? u ? us' U US].
      - split; auto. intros c cd [].
      - destruct (IH us') as (A & B); auto; [intros; apply CG; right; auto|].
        destruct (CG c g) as (ls & cd & _ & _ & K & _); [left; auto|]. rewrite K in U. injection U as <-. split.
        + simpl. congruence.
        + intros c' cd' [I|I].
          * injection I as <- <-. exists g. split; [left|]; auto.
          * destruct (B _ _ I) as (g' & I' & K'). exists g'. split; [right|]; auto. }
    destruct (G gs cs CG CS) as (A & B). split; auto. intros c cd I. destruct (B c cd I) as (g & Ig & K).
    destruct (CG c g Ig) as (ls & cd' & L & GC & K' & EG). assert (cd' = cd) by congruence. subst cd'.
    exists ls, g. conj; auto. intros k o x l X L'.
    destruct (confounder_inv GC K) as (Ha & _). rewrite Ha, EG.
    rewrite (nth_error_nth _ k [] (map_nth_error _ k _ X)).
    rewrite (nth_error_nth _ o false (map_nth_error _ o _ (map_nth_error Some o ls L'))).
    apply str_eqb_eq.
Qed.
Print Assumptions C89_read_back_partial.

(** A case: two sites, two features and one confounder; the canvas it comes from. *)
Definition demo_na (x : str) : bool := mem x (map s_ [""; "NA"; "nan"]%string).
Definition demo_show (q : Q) : str := if Qeq_bool q 0 then s_ "0.0" else s_ "2.5".
Definition demo_parse (x : str) : option Q :=
  if mem x (map s_ ["0"; "0.0"]%string) then Some 0%Q else if mem x (map s_ ["2.5"; "2.50"]%string) then Some (5 # 2)%Q else None.
Definition demo_int (x : str) : option Z := if str_eqb x (s_ "0") then Some 0%Z else if str_eqb x (s_ "1") then Some 1%Z else None.
Definition demo_canvas : list (list str) :=
  map (map s_) [["id"; "x"; "y"; "cluster"; "family"; "comment"]; ["Aymara 1"; "2.50"; "0"; "1"; "A"; ""]; ["Bora"; "0"; "2.5"; ""; ""; "?"]]%string.
Definition demo_sites (a b : string) : sites :=
  {| si_id := [s_ a; s_ b]; si_x := [5 # 2; 0]%Q; si_y := [0; 5 # 2]%Q; si_cluster := [1%Z; 0%Z];
     si_confounders := [(s_ "family", [s_ "A"; s_ "0"])] |}.
Definition demo_features : list (list nat) := [[2; 0]; [1; 0]].
Definition demo_groups : list (str * list str) := [(s_ "family", [s_ "A"; s_ "0"])].
Example C89_canvas_case : load_canvas demo_parse demo_int [s_ "family"] demo_canvas = Some (demo_sites "Aymara 1" "Bora").
Proof. vm_compute. reflexivity. Qed.
Lemma demo_simulated a b : simulated (demo_sites a b) 2 demo_features.
Proof.
  constructor; cbn; conj; auto; repeat constructor; simpl; auto; try discriminate.
  - intros H. decompose [or] H; try discriminate; auto.
  - intros k E. injection E as E. pose proof (str_nat_digits k) as D. rewrite <- E in D. inversion_clear D as [|? ? H _].
    revert H. unfold digit_char. simpl. intros H. decompose [or] H; try discriminate; auto.
Qed.
Lemma demo_lists : lists_sets (fun l => rev (nodup Nat.eq_dec l)).
Proof. intros l. split; [apply NoDup_rev, NoDup_nodup|]. intros x. rewrite <- in_rev. apply nodup_In. Qed.
Lemma demo_names a b : names_groups (demo_sites a b) demo_groups.
Proof. constructor; [|constructor]. exists [s_ "A"; s_ "0"]. split; [left; reflexivity|tauto]. Qed.
Lemma demo_numbers k : demo_na (str_nat k) = false.
Proof.
  destruct (demo_na (str_nat k)) eqn:E; auto. unfold demo_na in E. apply mem_In in E. pose proof (str_nat_digits k) as D.
  simpl in E. destruct E as [E|[E|[E|[]]]]; rewrite <- E in D.
  - apply eq_sym, str_nat_nonempty in E. destruct E.
  - inversion_clear D as [|? ? H _]. revert H. unfold digit_char. simpl. intros H. decompose [or] H; try discriminate; contradiction.
  - inversion_clear D as [|? ? H _]. revert H. unfold digit_char. simpl. intros H. decompose [or] H; try discriminate; contradiction.
Qed.
Example C89_case : readable demo_na demo_show demo_parse (demo_sites "Aymara 1" "Bora") /\
  exists d, read_features_from_csv demo_na demo_parse (features_csv demo_show (demo_sites "Aymara 1" "Bora") 2 demo_features)
    (feature_states_csv (fun l => rev (nodup Nat.eq_dec l)) 2 demo_features) demo_groups = Some d /\
  enc_values (ld_features d) = [[[false; true]; [true; false]]; [[true; false]; [true; false]]] /\
  enc_names (ld_features d) = [[s_ "1"; s_ "2"]; [s_ "0"]].
Proof.
  split.
  - constructor; try apply demo_numbers; try reflexivity; repeat constructor; try plain_text; try reflexivity.
  - eexists. conj; vm_compute; reflexivity.
Qed.

(** * Refuted: names with commas *)
(** The files are written with the quote character [|], which the reader does not know.  Two different sites are read as
    two sites with the same name (everything else is read correctly), without any message ... *)
Theorem C89_read_back_refuted : exists na show parse list_set si nf features gs d,
  simulated si nf features /\ NoDup (si_id si) /\ lists_sets list_set /\ names_groups si gs /\
  na [] = true /\ (forall k, na (str_nat k) = false) /\
  Forall (fun x => na x = false /\ strip x = x /\ ~ In newline x /\ ~ In quote x /\ ~ In bar x) (si_id si) /\
  Forall (fun c => plain (fst c) /\ Forall (solid na) (snd c)) (si_confounders si) /\
  Forall (fun q => solid na (show q) /\ parse (show q) = Some q) (si_x si ++ si_y si) /\
  read_features_from_csv na parse (features_csv show si nf features) (feature_states_csv list_set nf features) gs = Some d /\
  ob_id (ld_objects d) <> map Some (si_id si) /\ ~ NoDup (ob_id (ld_objects d)).
Proof.
  exists demo_na, demo_show, demo_parse, (fun l => rev (nodup Nat.eq_dec l)), (demo_sites "Quechua, South" "Aymara, South"), 2, demo_features, demo_groups.
  eexists. conj; try (vm_compute; reflexivity).
  - apply demo_simulated.
  - repeat constructor; simpl; try tauto. intros [H|[]]. discriminate.
  - apply demo_lists.
  - apply demo_names.
  - apply demo_numbers.
  - assert (T : forall c x, existsb (char_eqb c) x = false -> ~ In c x).
    { intros c x E I. assert (E' : existsb (char_eqb c) x = true); [|congruence].
      apply existsb_exists. exists c. split; auto. unfold char_eqb. destruct (ascii_dec c c); congruence. }
    repeat (constructor; [conj; try (vm_compute; reflexivity); apply T; vm_compute; reflexivity|]). constructor.
  - repeat constructor; try plain_text; try reflexivity.
  - repeat constructor; try plain_text; try reflexivity.
  - vm_compute. discriminate.
  - vm_compute. intros H. inversion_clear H as [|? ? NI _]. apply NI. left. reflexivity.
Qed.
Print Assumptions C89_read_back_refuted.
(** ... and if only the second site has a comma in its name, reading fails. *)
Theorem C89_fails_refuted : exists na show parse list_set si nf features gs,
  simulated si nf features /\ NoDup (si_id si) /\ lists_sets list_set /\ names_groups si gs /\
  na [] = true /\ (forall k, na (str_nat k) = false) /\
  Forall (fun x => na x = false /\ strip x = x /\ ~ In newline x /\ ~ In quote x /\ ~ In bar x) (si_id si) /\
  Forall (fun c => plain (fst c) /\ Forall (solid na) (snd c)) (si_confounders si) /\
  Forall (fun q => solid na (show q) /\ parse (show q) = Some q) (si_x si ++ si_y si) /\
  read_features_from_csv na parse (features_csv show si nf features) (feature_states_csv list_set nf features) gs = None.
Proof.
  exists demo_na, demo_show, demo_parse, (fun l => rev (nodup Nat.eq_dec l)), (demo_sites "Aymara" "Quechua, South"), 2, demo_features, demo_groups.
  conj; try (vm_compute; reflexivity).
  - apply demo_simulated.
  - repeat constructor; simpl; try tauto. intros [H|[]]. discriminate.
  - apply demo_lists.
  - apply demo_names.
  - apply demo_numbers.
  - assert (T : forall c x, existsb (char_eqb c) x = false -> ~ In c x).
    { intros c x E I. assert (E' : existsb (char_eqb c) x = true); [|congruence].
      apply existsb_exists. exists c. split; auto. unfold char_eqb. destruct (ascii_dec c c); congruence. }
    repeat (constructor; [conj; try (vm_compute; reflexivity); apply T; vm_compute; reflexivity|]). constructor.
  - repeat constructor; try plain_text; try reflexivity.
  - repeat constructor; try plain_text; try reflexivity.
Qed.
Print Assumptions C89_fails_refuted.
