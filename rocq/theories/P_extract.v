(** C90: the states extracted from files of data, on the text of the files. *)
From Verif Require Import L_cache M_extract S_extract S_simdata L_data L_text L_simdata L_extract.

(** * Writing and reading: any table of texts without carriage returns that is written with the quotes of the reader is read
    as it was written.  A record that consists of a single blank field is not (it is skipped). *)
Theorem C90_round_trip eol rows : eol = [newline] \/ eol = [carriage; newline] ->
  Forall (fun r => r <> [] /\ Forall (fun x => ~ In carriage x) r /\
                   forall x, r = [x] -> x = [] \/ exists c, In c x /\ c <> " "%char /\ c <> tab) rows ->
  tokenize (write_rows quote eol rows) = Some rows.
Proof.
  intros E H. apply round_trip; [exact E|]. eapply Forall_impl; [|exact H]. intros r (A & B & C). unfold record_ok. conj; auto.
  intros x X. destruct (C x X) as [->|V]; auto. right. apply visible_not_blank, V.
Qed.
Print Assumptions C90_round_trip.
Example C90_round_trip_case : let rows := [[s_ "a,b"; [quote]; []]; [[]]; [[quote; newline; quote]; s_ " "; s_ "|"]] in
  tokenize (write_rows quote [newline] rows) = Some rows /\
  write_rows quote [newline] [[s_ "a,b"; [quote]; []]] = quote :: s_ "a,b" ++ [quote; comma; quote; quote; quote; quote; comma; newline].
Proof. vm_compute. split; reflexivity. Qed.

(** A file that was cut off inside a quoted field cannot be read. *)
Theorem C90_cut eol rows fields x : eol = [newline] \/ eol = [carriage; newline] ->
  Forall (fun r => r <> [] /\ Forall (fun x => ~ In carriage x) r /\
                   forall x, r = [x] -> x = [] \/ exists c, In c x /\ c <> " "%char /\ c <> tab) rows ->
  Forall (fun x => ~ In carriage x) fields ->
  tokenize (write_rows quote eol rows ++ flat_map (fun x => write_field quote eol x ++ [comma]) fields ++
            quote :: flat_map (fun c => if ascii_dec c quote then [c; c] else [c]) x) = None.
Proof.
  intros E H F. rewrite (flat_map_ext _ (fun c => if char_eqb c quote then [c; c] else [c])).
  - apply cut_run; auto. eapply Forall_impl; [|exact H]. intros r (A & B & C). unfold record_ok. conj; auto.
    intros y X. destruct (C y X) as [->|V]; auto. right. apply visible_not_blank, V.
  - intros c. unfold char_eqb. destruct (ascii_dec c quote); reflexivity.
Qed.
Print Assumptions C90_cut.
Example C90_cut_case : tokenize (s_ "id,F1" ++ [newline] ++ s_ "1," ++ [quote] ++ s_ "a, b") = None /\
  s_ "id,F1" ++ [newline] ++ s_ "1," ++ [quote] ++ s_ "a, b" =
  write_rows quote [newline] [map s_ ["id"; "F1"]%string] ++ flat_map (fun x => write_field quote [newline] x ++ [comma]) [s_ "1"] ++
  quote :: flat_map (fun c => if ascii_dec c quote then [c; c] else [c]) (s_ "a, b").
Proof. vm_compute. split; reflexivity. Qed.

(** * The tool and the analysis *)
(** Loading any of the files with the extracted states succeeds and represents its observations.
    Missing for the full statement: files that are not tidy, for which it is false (below, and C37_loads_refuted). *)
Theorem C90_workflow_partial na parse texts files out gs : na [] = true ->
  Forall2 (fun text f => read_cells text = Some f) texts files -> Forall (tidy na) files ->
  extract_feature_states_main na texts = Some out ->
  forall text n data o, In text texts -> read_data_csv na text = Some (n, data) ->
  objects_from_dataframe parse data = Some o -> groups_match data gs ->
  exists d, read_features_from_csv na parse text out gs = Some d /\ ld_objects d = o /\ represents na texts data d.
Proof.
  intros H0 HF T HM text n data o Htext Hdata Ho Hgs.
  destruct (main_inv HM) as (files' & t & HF' & Ht & ->).
  assert (files' = files).
  { clear - HF HF'. revert files HF. induction HF' as [|x f texts files' X _ IH]; intros files HF; inversion_clear HF as [|? ? ? ? H1 H2]; auto.
    f_equal; [congruence|auto]. }
  subst files'. clear HF'.
  assert (ND : Forall (fun f : csv => NoDup (map fst f)) files) by (eapply Forall_impl; [|exact T]; intros f; apply names_differ).
  destruct (extract_spec ND Ht) as (d & -> & HN & Hk & Hd).
  assert (NF : files <> []) by (intros ->; discriminate).
  assert (OK : table_ok (write_states d) (max_len d)).
  { apply (@written_states_ok na files d); auto; [eapply extract_nonempty; eauto|]. intros m ss I. apply (Hd m ss I). }
  destruct (@data_read_cells na text n data Hdata) as (f & Hf & ->).
  assert (Hin : In f files).
  { destruct (paired_left HF Htext) as (g & G & R). congruence. }
  unfold read_features_from_csv. rewrite Hdata, (@read_to_csv na (write_states d) (max_len d) OK).
  rewrite Forall_forall in T.
  assert (Hread : forall m ss, In (m, ss) d -> forall x, In x ss -> na x = false /\ strip x = x).
  { intros m ss I x Hx. apply (proj2 (Hd m ss I)) in Hx. destruct Hx as (g & Hg & cells & c & G & Hc & Hcna & <-).
    split; [|apply strip_idem]. eapply (cells_stay (T g Hg)); eauto. apply get_col_In, G. }
  assert (RS : read_csv na (write_states d) = map (fun '(m, ss) => (m, map Some ss ++ repeat None (max_len d - length ss))) d).
  { unfold read_csv, write_states. rewrite map_map. apply map_ext_in. intros (m, ss) I. f_equal. apply read_states; auto. eapply Hread; eauto. }
  rewrite RS. set (states := map _ d).
  assert (Hst : forall m st, In (m, st) states -> exists ss, In (m, ss) d /\ st = map Some ss ++ repeat None (max_len d - length ss)).
  { intros m st I. apply in_map_iff in I. destruct I as ((m', ss) & E & I). injection E as -> <-. eauto. }
  assert (GC : forall m ss, In (m, ss) d -> exists cells, get_col f m = Some cells).
  { intros m ss I. apply get_col_some. apply (Hk f Hin m). change m with (fst (m, ss)). apply in_map, I. }
  destruct (proj2 (encode_states_accepts (max_len d) (read_csv na f) states)) as (e & E).
  { intros m st I. destruct (Hst m st I) as (ss & I' & ->). destruct (GC m ss I') as (cells & G). exists (map (read_cell na) cells). split.
    - unfold read_csv. rewrite get_col_map, G. reflexivity.
    - intros x Hx. apply in_or_app. left. apply in_map. apply (proj2 (Hd m ss I')). exists f. split; auto.
      apply in_map_iff in Hx. destruct Hx as (c & Hc & Hc'). apply read_cell_some in Hc. destruct Hc as (Hc1 & Hc2). exists cells, c. auto. }
  rewrite E, Ho.
  destruct (@all_opt'_some _ (map (fun '(c, g) => option_map (pair c) (confounder_from_dataframe n (read_csv na f) c (Some g))) gs)) as (cs & ->).
  { apply Forall_map. eapply Forall_impl; [|exact Hgs]. intros (c, g) (ls & G & X). unfold confounder_from_dataframe. rewrite G.
    replace (set_eqb g (sorted_set (dropna ls))) with true; [discriminate|]. symmetry. apply set_eqb_spec. intros x.
    rewrite X, sorted_set_In, dropna_In. tauto. }
  eexists. split; [reflexivity|]. split; [reflexivity|].
  destruct (encode_states_inv E) as (Es & En & Ev).
  assert (MF : map fst states = map fst d) by (unfold states; rewrite map_map; apply map_ext; intros (a, b); reflexivity).
  assert (AT : forall k name, nth_error (map fst states) k = Some name -> exists ss, nth_error d k = Some (name, ss) /\
             nth_error states k = Some (name, map Some ss ++ repeat None (max_len d - length ss))).
  { intros k name K. rewrite MF, nth_error_map in K. destruct (nth_error d k) as [(m, ss)|] eqn:D; [|discriminate]. injection K as <-.
    exists ss. split; auto. unfold states. rewrite (map_nth_error _ k _ D). reflexivity. }
  constructor; cbn [ld_feature_names ld_features].
  - rewrite MF. split; auto. intros name. rewrite (Hk f Hin name). unfold read_csv. rewrite map_map.
    assert (M : map (fun x => fst (let '(m, c) := x in (m, map (read_cell na) c))) f = map fst f) by (apply map_ext; intros (a, b); reflexivity).
    unfold csv, str in *. rewrite M. tauto.
  - intros k name K. destruct (AT k name K) as (ss & D & S). rewrite Es, En.
    rewrite (nth_error_nth _ k [] (map_nth_error _ k _ S)), (nth_error_nth _ k [] (map_nth_error _ k _ S)), dropna_gap_free.
    destruct (Hd name ss (nth_error_In _ _ D)) as (INC & X). conj.
    + apply increasing_NoDup, INC.
    + intros x. rewrite X. split.
      * intros (g & G & cells & c & C & I & NA & <-).
        assert (exists t', In t' texts /\ read_cells t' = Some g) as (t' & T1 & T2) by (apply (paired_right HF G)).
        destruct (@read_cells_data na t' g T2) as (n' & N'). exists t', n', (read_csv na g), (map (read_cell na) cells). conj; auto.
        -- unfold read_csv. rewrite get_col_map, C. reflexivity.
        -- apply in_map_iff. exists c. split; auto. apply read_cell_some. auto.
      * intros (t' & n' & data' & raw & T1 & R & C & I). destruct (@data_read_cells na t' n' data' R) as (g & G & ->). exists g. split.
        -- destruct (paired_left HF T1) as (g' & G' & R'). congruence.
        -- unfold read_csv in C. rewrite get_col_map in C. destruct (get_col g name) as [cells|] eqn:GG; [|discriminate].
           injection C as <-. apply in_map_iff in I. destruct I as (c & C & I). apply read_cell_some in C. destruct C as (C1 & C2).
           exists cells, c. auto.
    + intros j. rewrite map_app, map_map. split.
      * intros J. destruct (Nat.lt_ge_cases j (length ss)) as [L|L]; auto. exfalso.
        rewrite app_nth2 in J by (rewrite map_length; auto). revert J. clear.
        match goal with |- context [repeat _ ?k] => generalize k end. generalize (j - length (map (fun x => is_some (Some x)) ss)). clear.
        intros i k. revert i. induction k; intros [|i] H; simpl in H; try discriminate; eauto.
      * intros J. rewrite app_nth1 by (rewrite map_length; auto).
        rewrite (nth_indep _ false (is_some (Some (nth 0 ss [])))) by (rewrite map_length; auto).
        rewrite (map_nth (fun x => is_some (Some x)) ss (nth 0 ss []) j). reflexivity.
  - intros k name raw K G. destruct (AT k name K) as (ss & D & S).
    destruct (Ev k name _ S) as (raw' & vals & G' & EF & V). assert (raw' = raw) by congruence. subst raw'.
    assert (L : length (map Some ss ++ repeat None (max_len d - length ss)) = max_len d).
    { rewrite app_length, map_length, repeat_length. pose proof (@max_len_ge d name ss (nth_error_In _ _ D)). unfold str in *. lia. }
    destruct (encode_feature_spec L EF) as (LV & SPEC). rewrite (nth_error_nth _ _ _ V). split; auto.
    intros i v I. destruct (SPEC i v I) as (r & R & _ & X). rewrite (nth_error_nth _ _ _ R). destruct v as [x|]; auto.
    destruct X as (j & _ & Hj & Nj). exists j. split; auto. rewrite En, (nth_error_nth _ k [] (map_nth_error _ k _ S)). exact Nj.
Qed.
Print Assumptions C90_workflow_partial.

(** * The tool succeeds exactly if all files have the columns of the metadata and the same further columns, at least one. *)
Theorem C90_runs na texts files : Forall2 (fun text f => read_cells text = Some f) texts files ->
  (exists out, extract_feature_states_main na texts = Some out) <->
  Forall (fun f => incl metadata (map fst f)) files /\
  (forall f g n, In f files -> In g files -> In n (map fst f) -> ~ In n metadata -> In n (map fst g)) /\
  exists f n, In f files /\ In n (map fst f) /\ ~ In n metadata.
Proof.
  intros H. assert (E : all_opt' (map read_cells texts) = Some files).
  { induction H as [|x f texts files X _ IH]; auto. simpl. rewrite X, IH. reflexivity. }
  unfold extract_feature_states_main. rewrite E. transitivity (exists t, extract_feature_states na files = Some t).
  - split; intros (x & X); destruct (extract_feature_states na files) as [t|]; try discriminate; simpl; eauto.
  - rewrite extract_iff. unfold feature_of. split; intros (A & B & C); conj; auto.
    + intros f g n F G I M. apply (B f g n); auto.
    + intros f g n F G (I & M). split; eauto.
Qed.
Print Assumptions C90_runs.

(** A case: two files with the same feature, whose name and states need quotes, and a confounder. *)
Definition q_ (x : string) : str := quoted quote (s_ x).
Definition demo_file (states : list string) : str :=
  s_ "id,name,family,x,y," ++ q_ "order, basic" ++ [newline] ++
  concat (map (fun '(i, st) => str_nat i ++ s_ ",a,F,0,0," ++ q_ st ++ [newline]) (combine (seq 1 (length states)) states)).
Definition demo_na (x : str) : bool := mem x (map s_ [""; "NA"; "nan"]%string).
Definition demo_parse (x : str) : option Q := if str_eqb x (s_ "0") then Some 0%Q else None.
Definition demo_texts : list str := [demo_file ["S, V, O "; "NA"]; demo_file ["V S"; "'O'"]]%string.
Definition demo_files : list csv :=
  map (fun states => [(s_ "id", map s_ ["1"; "2"]%string); (s_ "name", map s_ ["a"; "a"]%string); (s_ "family", map s_ ["F"; "F"]%string);
    (s_ "x", map s_ ["0"; "0"]%string); (s_ "y", map s_ ["0"; "0"]%string); (s_ "order, basic", map s_ states)])
    [["S, V, O "; "NA"]; ["V S"; "'O'"]]%string.
Ltac is_tidy :=
  constructor;
  [ vm_compute; repeat (apply NoDup_cons; [simpl; intuition discriminate|]); apply NoDup_nil
  | vm_compute; repeat (apply Forall_cons; [split; [simpl; intuition discriminate|eexists; (split; [left; reflexivity|split; discriminate])]|]); apply Forall_nil
  | intros n cells c I C; simpl in I; repeat (destruct I as [I|I]; [injection I as <- <-; simpl in C; intuition (subst; vm_compute in *; congruence)|]); contradiction
  | intros n cells c I C; simpl in I; repeat (destruct I as [I|I]; [injection I as <- <-; simpl in C; intuition (subst; simpl in *; intuition discriminate)|]); contradiction ].
Example C90_case : demo_na [] = true /\ Forall2 (fun text f => read_cells text = Some f) demo_texts demo_files /\
  Forall (tidy demo_na) demo_files /\
  extract_feature_states_main demo_na demo_texts =
    Some (q_ "order, basic" ++ [newline] ++ s_ "'O'" ++ [newline] ++ q_ "S, V, O" ++ [newline] ++ s_ "V S" ++ [newline]) /\
  exists n data o, read_data_csv demo_na (hd [] demo_texts) = Some (n, data) /\ objects_from_dataframe demo_parse data = Some o /\
    groups_match data [(s_ "family", [s_ "F"])].
Proof.
  conj; try (vm_compute; reflexivity).
  - repeat constructor; vm_compute; reflexivity.
  - apply Forall_cons; [is_tidy|apply Forall_cons; [is_tidy|apply Forall_nil]].
  - eexists. eexists. eexists. split; [vm_compute; reflexivity|]. split; [vm_compute; reflexivity|].
    constructor; [|constructor]. eexists. split; [vm_compute; reflexivity|]. intros x. simpl. split; intros H; decompose [or] H; subst; auto; try contradiction; left; congruence.
Qed.

(** * Refutation: if the only feature has a blank name, its line in the table is skipped and the data cannot be loaded. *)
Theorem C90_workflow_refuted : exists na parse text f out n data o, na [] = true /\ read_cells text = Some f /\ NoDup (map fst f) /\
  (forall m cells c, In (m, cells) f -> In c cells -> na c = false -> na (strip c) = false) /\
  extract_feature_states_main na [text] = Some out /\ read_data_csv na text = Some (n, data) /\
  objects_from_dataframe parse data = Some o /\ read_features_from_csv na parse text out [] = None.
Proof.
  exists demo_na, demo_parse, (s_ "id,name,family,x,y, " ++ [newline] ++ s_ "1,a,F,0,0,A" ++ [newline]).
  eexists. eexists. eexists. eexists. eexists. conj; try (vm_compute; reflexivity).
  - vm_compute. repeat constructor; simpl; intuition discriminate.
  - intros m cells c I C. vm_compute in I. repeat (destruct I as [I|I]; [injection I as <- <-; simpl in C; intuition (subst; reflexivity)|]). contradiction.
Qed.
Print Assumptions C90_workflow_refuted.
