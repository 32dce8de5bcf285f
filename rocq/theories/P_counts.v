(** C67, C68 and C69: prior counts are extracted, converted and read. *)
From Verif Require Import L_counts.
From Coq Require Import Lqa.
Set Implicit Arguments.
Unset Strict Implicit.
Close Scope Q_scope.
Close Scope R_scope.

(** C67 in full would be: the loaded concentration is [c0] plus the (shrunk) count, and its total respects the bound.
    This is false (below).  Partial: the file holds these numbers, and the loaded concentration is one larger for every
    state, because [parse_concentration_dict] adds [initial_counts] to what the tool already increased by [c0]. *)
Theorem C67_extracted_partial : forall m n data fs c0 bound d,
  table m data -> table n fs -> (forall b, bound = Some b -> 0 <= b)%Q ->
  extract_universal m n data fs c0 bound = Some d ->
  exists conc, parse_concentration_dict initial_counts (model_names fs) d = Some conc /\
  forall i f st raw, nth_error fs i = Some (f, st) -> get_col data f = Some raw ->
  exists row, nth_error conc i = Some row /\ length row = length (dropna st) /\
  forall j s, nth_error (dropna st) j = Some s ->
  exists q c, lookup2 d f s = Some q /\ (q == c0 + Qn (n_with s raw) * shrink bound (n_known raw))%Q /\
    nth_error row j = Some c /\ (c == 1 + q)%Q.
Proof.
  intros m n data fs c0 bound d Hd Hfs Hb H. unfold extract_universal in H.
  destruct (encode_states n data fs) as [enc|] eqn:He; [|discriminate]. destruct (confounder_from_dataframe _ _ _ _); [|discriminate]. injection H as <-.
  set (d := counts_of n fs enc c0 bound (repeat true m)).
  assert (V : forall f st raw s, In (f, st) fs -> get_col data f = Some raw -> In (Some s) st ->
    exists q, lookup2 d f s = Some q /\ (q == c0 + Qn (n_with s raw) * shrink bound (n_known raw))%Q).
  { intros f st raw s Hin Hr Hs. destruct (@counts_of_spec m n data fs enc c0 bound (repeat true m) f st raw s) as (q & Hq & E); auto.
    exists q. split; [exact Hq|]. assert (L : length raw = m). { destruct Hd as [_ Hd]. rewrite Forall_forall in Hd. apply get_col_In in Hr. apply (Hd _ Hr). }
    destruct (@n_sel_all m s raw L) as [E1 E2]. rewrite E1, E2 in E. exact E. }
  clearbody d. destruct (proj2 (parse_iff initial_counts (model_names fs) d)) as (conc & Hc).
  { intros f states s Hin Hs. unfold model_names in Hin. apply in_map_iff in Hin as ([f' st] & [= -> <-] & Hin). apply dropna_In in Hs.
    destruct (proj1 (encode_states_accepts n data fs) (ex_intro _ enc He) f st Hin) as (raw & Hr & _).
    destruct (V f st raw s Hin Hr Hs) as (q & -> & _). discriminate. }
  exists conc. split; [exact Hc|]. intros i f st raw Hi Hr. destruct (parse_values Hc) as [_ P].
  destruct (P i f (dropna st)) as (row & Hrow & Hl & Hv). { unfold model_names. rewrite nth_error_map, Hi. reflexivity. }
  exists row. split; [exact Hrow|]. split; [exact Hl|]. intros j s Hj. destruct (Hv j s Hj) as (q & Hq & Hx).
  destruct (V f st raw s) as (q' & Hq' & E); auto; [eapply nth_error_In; eauto|apply dropna_In; eapply nth_error_In; eauto|].
  assert (q' = q) by congruence. subst q'. exists q, (initial_counts + q)%Q. split; [exact Hq|]. split; [exact E|]. split; [exact Hx|]. reflexivity.
Qed.
Print Assumptions C67_extracted_partial.

(** One feature with two states; two objects with state A, one with B, one unknown; one object without family. *)
Definition cnt_states : frame := [(s_ "F1", [Some (s_ "A"); Some (s_ "B")])].
Definition cnt_data : frame :=
  [(s_ "family", [Some (s_ "x"); Some (s_ "y"); None; Some (s_ "x")]);
   (s_ "F1", [Some (s_ "A"); Some (s_ "B"); Some (s_ "A"); None])].
Definition unknown_data : frame := [(s_ "F1", [None; None])].
Lemma cnt_tables : table 4 cnt_data /\ table 2 cnt_states /\ table 2 unknown_data.
Proof. unfold table. repeat split; repeat constructor; simpl; intuition discriminate. Qed.

(** C67 refuted: without any observation and with [c0 = 1] ("1.0 is Uniform") the loaded prior is not uniform, and with
    a bound of 2 the loaded concentrations add up to more than 2. *)
Theorem C67_announced_refuted :
  (exists d row, extract_universal 2 2 unknown_data cnt_states 1 None = Some d /\ table 2 unknown_data /\ table 2 cnt_states /\
     parse_concentration_dict initial_counts (model_names cnt_states) d = Some [row] /\ n_known [None; None] = 0 /\
     ~ Forall (fun c => c == 1)%Q row) /\
  (exists d row, extract_universal 4 2 cnt_data cnt_states 1 (Some 2%Q) = Some d /\ table 4 cnt_data /\
     parse_concentration_dict initial_counts (model_names cnt_states) d = Some [row] /\ (2 < Qsum row)%Q).
Proof.
  destruct cnt_tables as (T1 & T2 & T3). split.
  - do 2 eexists. split; [vm_compute; reflexivity|]. split; [exact T3|]. split; [exact T2|]. split; [vm_compute; reflexivity|]. split; [reflexivity|].
    intros H. inversion_clear H as [|? ? H1 _]. vm_compute in H1. discriminate.
  - do 2 eexists. split; [vm_compute; reflexivity|]. split; [exact T1|]. split; [vm_compute; reflexivity|]. reflexivity.
Qed.
Print Assumptions C67_announced_refuted.

Example C67_case : exists d, extract_universal 4 2 cnt_data cnt_states 1 (Some 2%Q) = Some d /\ table 4 cnt_data /\ table 2 cnt_states /\
  (exists q, lookup2 d (s_ "F1") (s_ "A") = Some q /\ q == 7#3)%Q /\ (exists q, lookup2 d (s_ "F1") (s_ "B") = Some q /\ q == 5#3)%Q.
Proof.
  destruct cnt_tables as (T1 & T2 & _). eexists. split; [vm_compute; reflexivity|]. split; [exact T1|]. split; [exact T2|].
  split; eexists; (split; [vm_compute; reflexivity|reflexivity]).
Qed.

(** C68. *)
Theorem C68_families : forall m n data fs c0 bound files fam,
  table m data -> table n fs -> (forall b, bound = Some b -> 0 <= b)%Q ->
  extract_inheritance m n data fs c0 bound = Some files -> get_col data (s_ "family") = Some fam ->
  NoDup (map fst files) /\ (forall g, In g (map fst files) <-> In (Some g) fam) /\
  forall f st raw s, In (f, st) fs -> get_col data f = Some raw -> In (Some s) st ->
  (forall g d, In (g, d) files -> exists q, lookup2 d f s = Some q /\
     (q == c0 + Qn (n_with_in g s fam raw) * shrink bound (n_known_in g fam raw))%Q) /\
  (bound = None -> Qsum (map (fun '(_, d) => match lookup2 d f s with Some q => q - c0 | None => 0 end) files) == Qn (n_with_any s fam raw))%Q.
Proof.
  intros m n data fs c0 bound files fam Hd Hfs Hb H Hfam. unfold extract_inheritance in H.
  destruct (encode_states n data fs) as [enc|] eqn:He; [|discriminate].
  destruct (confounder_from_dataframe m data (s_ "family") None) as [cd|] eqn:Hcd; [|discriminate]. injection H as <-.
  destruct (confounder_inv Hfam Hcd) as (Ha & Hg & Hn).
  set (mem_of := fun g => map (fun v => match v with Some x => str_eqb x g | None => false end) fam) in *.
  assert (E : combine (cd_groups cd) (cd_assignment cd) = map (fun g => (g, mem_of g)) (cd_groups cd)).
  { rewrite Ha. generalize (cd_groups cd). intros l. induction l as [|g l IH]; [reflexivity|]. cbn [map combine]. f_equal. exact IH. }
  assert (F : map (fun '(name, members) => (name, counts_of n fs enc c0 bound members)) (combine (cd_groups cd) (cd_assignment cd)) =
    map (fun g => (g, counts_of n fs enc c0 bound (mem_of g))) (cd_groups cd)) by (rewrite E, map_map; reflexivity).
  assert (G : map fst (map (fun g => (g, counts_of n fs enc c0 bound (mem_of g))) (cd_groups cd)) = cd_groups cd) by (rewrite map_map; apply map_id).
  rewrite F, G. split; [exact Hn|]. split; [exact Hg|].
  intros f st raw s Hin Hr Hs.
  assert (V : forall g, exists q, lookup2 (counts_of n fs enc c0 bound (mem_of g)) f s = Some q /\
     (q == c0 + Qn (n_with_in g s fam raw) * shrink bound (n_known_in g fam raw))%Q).
  { intros g. destruct (@counts_of_spec m n data fs enc c0 bound (mem_of g) f st raw s) as (q & Hq & Eq); auto. exists q. split; [exact Hq|].
    destruct (n_sel_family g s fam raw) as [E1 E2]. fold (mem_of g) in E1, E2. rewrite E1, E2 in Eq. exact Eq. }
  split.
  - intros g d Hgd. apply in_map_iff in Hgd as (g' & [= -> <-] & _). apply V.
  - intros ->. rewrite map_map. rewrite <- (@families_sum (cd_groups cd) s fam raw Hn) by (intros g; apply Hg). rewrite <- Qsum_Qn.
    generalize (cd_groups cd). intros l. induction l as [|g l IH]; [reflexivity|].
    cbn [map]. match goal with |- (Qsum (?a :: ?r) == Qsum (?b :: ?t))%Q => change (a + Qsum r == b + Qsum t)%Q end. rewrite IH.
    destruct (V g) as (q & -> & Eq). cbn [shrink] in Eq. rewrite Eq. ring.
Qed.
Print Assumptions C68_families.

Example C68_case : exists dx dy, extract_inheritance 4 2 cnt_data cnt_states 1 None = Some [(s_ "x", dx); (s_ "y", dy)] /\
  table 4 cnt_data /\ table 2 cnt_states /\ (exists q, lookup2 dx (s_ "F1") (s_ "A") = Some q /\ q == 2)%Q /\
  (exists q, lookup2 dy (s_ "F1") (s_ "A") = Some q /\ q == 1)%Q.
Proof.
  destruct cnt_tables as (T1 & T2 & _). do 2 eexists. split; [vm_compute; reflexivity|]. split; [exact T1|]. split; [exact T2|].
  split; eexists; (split; [vm_compute; reflexivity|reflexivity]).
Qed.

(** C69. *)
Theorem C69_by_name : forall names d,
  ((exists c, parse_concentration_dict initial_counts names d = Some c) <->
   (forall f states s, In (f, states) names -> In s states -> lookup2 d f s <> None)) /\
  (forall c, parse_concentration_dict initial_counts names d = Some c -> length c = length names /\
   forall i f states, nth_error names i = Some (f, states) -> exists row, nth_error c i = Some row /\ length row = length states /\
   forall j s, nth_error states j = Some s -> exists q, lookup2 d f s = Some q /\ nth_error row j = Some (1 + q)%Q).
Proof. intros names d. split; [apply parse_iff|]. intros c H. exact (parse_values H). Qed.
Print Assumptions C69_by_name.
Theorem C69_converted : forall cols rows f s, NoDup cols -> lookup2 (convert_csv cols rows) f s = cell cols rows f s.
Proof. exact convert_lookup. Qed.
Print Assumptions C69_converted.

(** Keys in another order, an additional feature, a blank cell that is not asked for; then a blank cell that is. *)
Example C69_case :
  let cols := [s_ "B"; s_ "A"; s_ "C"] in
  let rows := [(s_ "F2", [Some 1; None; Some 4]); (s_ "F0", [None; None; None]); (s_ "F1", [Some 2; Some 3; None])]%Q in
  NoDup cols /\
  parse_concentration_dict initial_counts [(s_ "F1", [s_ "A"; s_ "B"]); (s_ "F2", [s_ "C"])] (convert_csv cols rows) = Some [[1 + 3; 1 + 2]; [1 + 4]]%Q /\
  parse_concentration_dict initial_counts [(s_ "F2", [s_ "A"])] (convert_csv cols rows) = None.
Proof. cbv zeta. split; [repeat constructor; simpl; intuition discriminate|]. split; vm_compute; reflexivity. Qed.
