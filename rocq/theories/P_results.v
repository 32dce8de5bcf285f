(** C62: the results reader returns the logged parameters. *)
From Coq Require Import Qround.
From Verif Require Import L_names M_results P_loggers.
Set Implicit Arguments.
Unset Strict Implicit.

(** * Specification *)
(** Text that can stand in a cell of a tab-separated file. *)
Definition cell_text (x : str) : Prop := ~ In tab x /\ ~ In newline x.
Definition cell_names (d : names) : Prop :=
  Forall cell_text (d_features d) /\ Forall (Forall cell_text) (d_states d) /\
  Forall (fun '(c, gs) => cell_text c /\ Forall cell_text gs) (d_confs d).
(** Numbers are written as cells and read as rounded numbers. *)
Definition number_format (fmt : Q -> str) (parse : str -> option Q) (rnd : Q -> Q) : Prop :=
  forall q, cell_text (fmt q) /\ parse (fmt q) = Some (rnd q).

Section Expected.
Variables (d : names) (K : nat).
Variable val : lsample -> column -> Q.
(** What the results of the samples [xs] (with the labels of the files) should be. *)
Definition rows_of (xs : list lsample) (mk : nat -> column) (n : nat) : list (list Q) := map (fun x => map (fun i => val x (mk i)) (seq 0 n)) xs.
Definition by_feature (xs : list lsample) (mk : nat -> nat -> column) : list (str * list (list Q)) :=
  map (fun f => (feature d f, rows_of xs (mk f) (length (states d f)))) (seq 0 (length (d_features d))).
Definition single (name : string) (xs : list lsample) (mk : nat -> column) : list (str * list Q) :=
  map (fun i => (s_ name ++ str_nat i, map (fun x => val x (mk i)) xs)) (seq 0 K).
Record faithful (xs : list lsample) (r : results) : Prop := {
  f_clusters : r_clusters r = map (fun i => map (fun x => nth i (ls_clusters x) []) xs) (seq 0 K);
  f_confounders : r_confounders r = d_confs d;
  f_features : r_features r = combine (d_features d) (d_states d);
  f_ids : r_sample_id r = map (fun x => Qtrunc (val x CSample)) xs;
  f_weights : r_weights r = map (fun f => (feature d f, rows_of xs (CWeight f) (1 + length (d_confs d)))) (seq 0 (length (d_features d)));
  f_areal : r_areal_effect r = map (fun a => (s_ "a" ++ str_nat (a + 1), by_feature xs (CAreal a))) (seq 0 K);
  f_conf : r_confounding_effects r = map (fun c => (confounder d c, map (fun g => (group d c g, by_feature xs (CConf c g))) (seq 0 (length (groups d c))))) (seq 0 (length (d_confs d)));
  f_posterior : r_posterior r = map (fun x => val x CPosterior) xs;
  f_likelihood : r_likelihood r = map (fun x => val x CLikelihood) xs;
  f_prior : r_prior r = map (fun x => val x CPrior) xs;
  f_posts : r_posterior_single r = single "post_a" xs CPostA;
  f_lhs : r_likelihood_single r = single "lh_a" xs CLhA;
  f_priors : r_prior_single r = single "prior_a" xs CPriorA }.
End Expected.

(** * Reading the table *)
Lemma read_stats_spec fmt parse rnd cols (rows : list (list Q)) : number_format fmt parse rnd -> 2 <= length cols ->
  Forall cell_text cols -> Forall (fun r => length r = length cols) rows ->
  read_stats parse (concat ((join [tab] cols ++ [newline]) :: map (fun r => join [tab] (map fmt r) ++ [newline]) rows)) =
  Some {| t_cols := cols; t_rows := map (map rnd) rows |}.
Proof.
  intros Hf Hl Hc Hr. unfold read_stats.
  assert (Hcells : forall (q : list Q) a, In a (map fmt q) -> cell_text a).
  { intros q a Ha. apply in_map_iff in Ha as (x & <- & _). apply Hf. }
  assert (Hcols : forall a, In a cols -> cell_text a) by (rewrite Forall_forall in Hc; auto).
  assert (Htn : ~ In newline [tab]) by (intros [H|[]]; discriminate).
  replace (concat _) with (concat (map (fun r => r ++ [newline]) (join [tab] cols :: map (fun r => join [tab] (map fmt r)) rows))).
  2:{ cbn [map concat]. rewrite map_map. reflexivity. }
  rewrite split_lines.
  2:{ intros a [<-|Ha].
      - apply not_in_join; auto. intros a Ha. apply Hcols; auto.
      - apply in_map_iff in Ha as (r & <- & _). apply not_in_join; auto. intros a Ha. eapply Hcells; eauto. }
  cbn [app]. rewrite split_join; [|destruct cols; [simpl in Hl; lia|discriminate]|intros a Ha; apply Hcols; auto].
  assert (Hfilter : filter (fun l : str => match l with [] => false | _ => true end) (map (fun r => join [tab] (map fmt r)) rows ++ [[]]) = map (fun r => join [tab] (map fmt r)) rows).
  { rewrite filter_app. cbn [filter]. rewrite app_nil_r. apply filter_all. intros l Hin. apply in_map_iff in Hin as (r & <- & Hin).
    rewrite Forall_forall in Hr. assert (Hlen := Hr r Hin). assert (Hne : join [tab] (map fmt r) <> []) by (apply join_not_nil; [discriminate|rewrite map_length; lia]).
    destruct (join [tab] (map fmt r)); [congruence|reflexivity]. }
  unfold str in *. rewrite Hfilter, map_map. rewrite (@all_opt_map _ _ _ (map rnd)); [reflexivity|].
  intros r Hin. rewrite Forall_forall in Hr. assert (Hlen := Hr r Hin). cbv zeta.
  rewrite split_join; [|destruct r; [simpl in Hlen; lia|discriminate]|intros a Ha; apply (Hcells r a Ha)].
  rewrite map_length, Hlen, Nat.eqb_refl, map_map. apply all_opt_map. intros q _. apply Hf.
Qed.

(** * Columns *)
Lemma position_map A (g : A -> str) (cs : list A) c : In c cs -> (forall a b, In a cs -> In b cs -> g a = g b -> a = b) ->
  exists i, position (g c) (map g cs) = Some i /\ nth_error cs i = Some c.
Proof.
  induction cs as [|a cs IH]; intros Hin Hu; [destruct Hin|]. cbn [map position].
  destruct (str_eqb (g c) (g a)) eqn:E.
  - apply str_eqb_eq in E. exists 0. split; auto. simpl. f_equal. symmetry. apply Hu; auto. left; auto.
  - destruct Hin as [<-|Hin]; [rewrite str_eqb_refl in E; discriminate|].
    destruct (IH Hin) as (i & -> & Hi); [intros; apply Hu; auto; right; auto|]. exists (S i). split; auto.
Qed.
Section Table.
Variables (d : names) (K : nat) (val : lsample -> column -> Q) (xs : list lsample).
Hypothesis Hd : distinct_names d K.
Let t := {| t_cols := column_names d K; t_rows := map (fun x => map (val x) (columns d K)) xs |}.
Lemma get_column_spec c : In c (columns d K) -> get_column t (column_name d c) = Some (map (fun x => val x c) xs).
Proof.
  intros Hc. unfold get_column, t. cbn [t_cols t_rows]. rewrite column_names_spec.
  destruct (@position_map _ (column_name d) (columns d K) c Hc Hd) as (i & -> & Hi). cbn [option_map]. rewrite map_map. f_equal.
  apply map_ext. intros x. apply nth_error_nth. rewrite nth_error_map, Hi. reflexivity.
Qed.
Lemma stack_spec (mk : nat -> column) n : 0 < n ->
  column_stack (length (t_rows t)) (map (fun i => map (fun x => val x (mk i)) xs) (seq 0 n)) = Some (rows_of val xs mk n).
Proof.
  intros Hn. unfold column_stack. destruct n as [|n]; [lia|]. cbn [seq map]. cbv iota. f_equal.
  change ((map (fun x => val x (mk 0)) xs :: map (fun i => map (fun x => val x (mk i)) xs) (seq 1 n))) with (map (fun i => map (fun x => val x (mk i)) xs) (seq 0 (S n))).
  unfold t, rows_of. cbn [t_rows]. rewrite map_length.
  transitivity (map (fun j => map (fun i => nth j (map (fun y => val y (mk i)) xs) 0%Q) (seq 0 (S n))) (seq 0 (length xs))).
  { apply map_ext. intros j. rewrite map_map. reflexivity. }
  destruct xs as [|x0 xs'] eqn:Ex; [reflexivity|]. rewrite <- Ex. rewrite (map_tab (fun x => map (fun i => val x (mk i)) (seq 0 (S n))) x0 xs).
  apply map_ext_in. intros j Hj. apply in_seq in Hj. apply map_ext. intros i.
  apply nth_error_nth. rewrite nth_error_map, (nth_error_nth' xs x0) by lia. reflexivity.
Qed.
Lemma col_in c : col_ok d K c -> In c (columns d K).
Proof.
  intros H. unfold columns. destruct c; cbn [col_ok] in H.
  - simpl; auto. - simpl; auto. - simpl; auto. - simpl; auto.
  - apply in_app_iff. right. apply in_app_iff. left. apply in_map, in_seq. lia.
  - apply in_app_iff. right. apply in_app_iff. right. apply in_app_iff. left. apply in_flat_map. exists feature. split; [apply in_seq; lia|]. apply in_map, in_seq. lia.
  - do 3 (apply in_app_iff; right). apply in_app_iff. left. apply in_flat_map. exists cluster. split; [apply in_seq; lia|].
    apply in_flat_map. exists feature. split; [apply in_seq; lia|]. apply in_map, in_seq. lia.
  - do 4 (apply in_app_iff; right). apply in_app_iff. left. apply in_flat_map. exists confounder. split; [apply in_seq; lia|].
    apply in_flat_map. exists group. split; [apply in_seq; lia|]. apply in_flat_map. exists feature. split; [apply in_seq; lia|]. apply in_map, in_seq. lia.
  - do 5 (apply in_app_iff; right). apply in_flat_map. exists cluster. split; [apply in_seq; lia|]. simpl; auto.
  - do 5 (apply in_app_iff; right). apply in_flat_map. exists cluster. split; [apply in_seq; lia|]. simpl; auto.
  - do 5 (apply in_app_iff; right). apply in_flat_map. exists cluster. split; [apply in_seq; lia|]. simpl; auto.
Qed.
End Table.

Lemma dict_of_spec A B (key : A -> str) (f : A -> option B) (g : A -> B) l : (forall a, In a l -> f a = Some (g a)) ->
  dict_of key f l = Some (map (fun a => (key a, g a)) l).
Proof. intros H. unfold dict_of. apply all_opt_map. intros a Ha. rewrite H by auto. reflexivity. Qed.

Section Parse.
Variables (d : names) (K : nat) (val : lsample -> column -> Q) (xs : list lsample).
Hypothesis Hclean : clean_names d.
Hypothesis Hres : no_reserved d.
Hypothesis Hinh : inhabited_names d.
Let Hd : distinct_names d K := clean_distinct (K := K) Hclean.
Let t := {| t_cols := column_names d K; t_rows := map (fun x => map (val x) (columns d K)) xs |}.
Let nf := length (d_features d).
Let nc := length (d_confs d).
Lemma features_tab : d_features d = map (feature d) (seq 0 nf).
Proof. unfold feature, nf. rewrite <- (map_id (d_features d)) at 1. apply (map_tab (fun x => x) []). Qed.
Lemma combine_tab : combine (d_features d) (d_states d) = map (fun f => (feature d f, states d f)) (seq 0 nf).
Proof.
  assert (El : length (d_states d) = length (d_features d)) by apply Hclean. unfold nf, feature, states. revert El. generalize (d_states d). induction (d_features d) as [|x l IH]; intros [|y m] El; try discriminate; [reflexivity|].
  cbn [combine length seq map nth]. f_equal. rewrite <- seq_shift, map_map. simpl in El. rewrite (IH m) by lia. reflexivity.
Qed.
Lemma confs_all : map fst (d_confs d) = map (confounder d) (seq 0 nc).
Proof. apply (map_tab fst (([], []) : str * list str)). Qed.
Lemma weights_read : parse_weights t (map fst (d_confs d)) (d_features d) = Some (map (fun f => (feature d f, rows_of val xs (CWeight f) (1 + nc))) (seq 0 nf)).
Proof.
  unfold parse_weights. cbv zeta. rewrite features_tab at 1. unfold dict_of. rewrite map_map. apply all_opt_map. intros f Hf. apply in_seq in Hf.
  assert (Ec : s_ "areal" :: map fst (d_confs d) = map (component_name d) (seq 0 (1 + nc))).
  { cbn [seq map plus]. f_equal. rewrite confs_all, <- seq_shift, map_map. reflexivity. }
  rewrite Ec, map_map. rewrite (@all_opt_map _ _ _ (fun c => map (fun x => val x (CWeight f c)) xs)).
  - unfold t. rewrite (@stack_spec d K val xs (CWeight f) (1 + nc)) by lia. reflexivity.
  - intros c Hc. apply in_seq in Hc. apply (@get_column_spec d K val xs Hd (CWeight f c)). apply col_in. unfold nc in *. simpl. lia.
Qed.
Lemma probs_read prefix (mk : nat -> nat -> column) :
  (forall f s, f < nf -> s < length (states d f) -> prefix ++ [underscore] ++ feature d f ++ [underscore] ++ state d f s = column_name d (mk f s) /\ In (mk f s) (columns d K)) ->
  parse_probs t (combine (d_features d) (d_states d)) prefix = Some (by_feature d val xs mk).
Proof.
  intros H. unfold parse_probs, by_feature. rewrite combine_tab. fold nf. unfold dict_of. rewrite map_map. apply all_opt_map. intros f Hf. apply in_seq in Hf. cbn [fst snd].
  assert (Es : states d f = map (state d f) (seq 0 (length (states d f)))).
  { rewrite <- (map_id (states d f)) at 1. apply (map_tab (fun x => x) []). }
  rewrite Es at 1. rewrite map_map. rewrite (@all_opt_map _ _ _ (fun s => map (fun x => val x (mk f s)) xs)).
  - unfold t. rewrite (@stack_spec d K val xs (mk f) (length (states d f))) by (apply states_inhabited; auto; unfold nf in *; lia). reflexivity.
  - intros s Hs. apply in_seq in Hs. destruct (H f s) as [E Hin]; try lia. rewrite E. apply (@get_column_spec d K val xs Hd); auto.
Qed.
Lemma areal_read : parse_areal_effect t (combine (d_features d) (d_states d)) (map (fun i => s_ "a" ++ str_nat (i + 1)) (seq 0 K)) =
  Some (map (fun a => (s_ "a" ++ str_nat (a + 1), by_feature d val xs (CAreal a))) (seq 0 K)).
Proof.
  unfold parse_areal_effect, dict_of. rewrite map_map. apply all_opt_map. intros a Ha. apply in_seq in Ha.
  rewrite (@probs_read _ (CAreal a)); [reflexivity|]. intros f s Hf Hs. split.
  - cbn [column_name join]. change (s_ "areal_") with (s_ "areal" ++ [underscore]). rewrite <- !app_assoc. reflexivity.
  - apply col_in. simpl. unfold nf in *. lia.
Qed.
Lemma conf_read : parse_confounding_effects t (combine (d_features d) (d_states d)) (d_confs d) =
  Some (map (fun c => (confounder d c, map (fun g => (group d c g, by_feature d val xs (CConf c g))) (seq 0 (length (groups d c))))) (seq 0 nc)).
Proof.
  unfold parse_confounding_effects. rewrite <- (map_id (d_confs d)) at 1. rewrite (map_tab (fun x => x) (([], []) : str * list str)). fold nc.
  unfold dict_of at 1. rewrite map_map. apply all_opt_map. intros c Hc. apply in_seq in Hc.
  change (fst (nth c (d_confs d) ([], []))) with (confounder d c). change (snd (nth c (d_confs d) ([], []))) with (groups d c).
  assert (Eg : groups d c = map (group d c) (seq 0 (length (groups d c)))).
  { rewrite <- (map_id (groups d c)) at 1. apply (map_tab (fun x => x) []). }
  rewrite Eg at 1. unfold dict_of. rewrite map_map. rewrite (@all_opt_map _ _ _ (fun g => (group d c g, by_feature d val xs (CConf c g)))); [reflexivity|].
  intros g Hg. apply in_seq in Hg. rewrite (@probs_read _ (CConf c g)); [reflexivity|]. intros f s Hf Hs. split.
  - cbn [column_name join]. rewrite <- !app_assoc. reflexivity.
  - apply col_in. simpl. unfold nf, nc in *. lia.
Qed.
Lemma single_read x (mk : nat -> column) name : plain x -> s_ name = x ++ [underscore] ++ s_ "a" -> In x (map s_ ["post"; "lh"; "prior"]%string) ->
  (forall i, pieces d (mk i) = [x; s_ "a" ++ str_nat i]) -> (forall i, i < K -> In (mk i) (columns d K)) ->
  filter (sel d x) (flat_map (fun i => [CPostA i; CLhA i; CPriorA i]) (seq 0 K)) = map mk (seq 0 K) ->
  read_dictionary t (x ++ [underscore]) = Some (single K val name xs mk).
Proof.
  intros Hp Hn Hx Hmk Hin Hfil. unfold read_dictionary. cbn [t_cols t].
  assert (Ef : filter (startswith (x ++ [underscore])) (column_names d K) = map (column_name d) (map mk (seq 0 K))).
  { rewrite filter_cols by auto. f_equal. rewrite filter_sel, Hfil.
    assert (N : forall y, In y ["size"; "w"; "areal"]%string -> str_eqb x (s_ y) = false).
    { intros y Hy. apply eqb_false. intros ->. simpl in Hy, Hx. destruct Hy as [<-|[<-|[<-|[]]]]; destruct Hx as [Hx|[Hx|[Hx|[]]]]; discriminate. }
    rewrite !N by (simpl; auto). cbn [app].
    assert (Nc : flat_map (fun c => if str_eqb x (confounder d c) then conf_cols d c else []) (seq 0 (length (d_confs d))) = []).
    { assert (G : forall l, (forall c, In c l -> c < length (d_confs d)) -> flat_map (fun c => if str_eqb x (confounder d c) then conf_cols d c else []) l = []).
      { induction l as [|c l IH]; intros Hl; [reflexivity|]. cbn [flat_map]. rewrite IH by (intros; apply Hl; right; auto). rewrite eqb_false; [reflexivity|].
        intros Ex. apply (@not_reserved d Hres c); [apply Hl; left; auto|]. rewrite <- Ex. simpl in Hx |- *. tauto. }
      apply G. intros c Hc. apply in_seq in Hc. lia. }
    rewrite Nc. reflexivity. }
  rewrite Ef, map_map. unfold single, dict_of. rewrite map_map. apply all_opt_map. intros i Hi. apply in_seq in Hi.
  unfold t. rewrite (@get_column_spec d K val xs Hd) by (apply Hin; lia). cbn [option_map]. f_equal. f_equal.
  rewrite name_join, Hmk. cbn [join]. rewrite Hn, <- !app_assoc. reflexivity.
Qed.
Lemma flat_map_single A B (g : A -> B) (l : list A) : flat_map (fun i => [g i]) l = map g l.
Proof. induction l; simpl; congruence. Qed.
Lemma post_read : read_dictionary t (s_ "post_") = Some (single K val "post_a" xs CPostA).
Proof.
  change (s_ "post_") with (s_ "post" ++ [underscore]). apply single_read; auto.
  - apply literal_plain. reflexivity.
  - left; reflexivity.
  - intros i Hi. apply col_in. exact Hi.
  - rewrite filter_flat_map. transitivity (flat_map (fun i => [CPostA i]) (seq 0 K)); [reflexivity|apply flat_map_single].
Qed.
Lemma lh_read : read_dictionary t (s_ "lh_") = Some (single K val "lh_a" xs CLhA).
Proof.
  change (s_ "lh_") with (s_ "lh" ++ [underscore]). apply single_read; auto.
  - apply literal_plain. reflexivity.
  - right; left; reflexivity.
  - intros i Hi. apply col_in. exact Hi.
  - rewrite filter_flat_map. transitivity (flat_map (fun i => [CLhA i]) (seq 0 K)); [reflexivity|apply flat_map_single].
Qed.
Lemma prior_read : read_dictionary t (s_ "prior_") = Some (single K val "prior_a" xs CPriorA).
Proof.
  change (s_ "prior_") with (s_ "prior" ++ [underscore]). apply single_read; auto.
  - apply literal_plain. reflexivity.
  - right; right; left; reflexivity.
  - intros i Hi. apply col_in. exact Hi.
  - rewrite filter_flat_map. transitivity (flat_map (fun i => [CPriorA i]) (seq 0 K)); [reflexivity|apply flat_map_single].
Qed.
End Parse.

Lemma names_text d K : cell_names d -> Forall cell_text (column_names d K).
Proof.
  intros (Hf & Hs & Hc). rewrite column_names_spec. apply Forall_forall. intros x Hx. apply in_map_iff in Hx as (c & <- & _).
  assert (Hnil : cell_text []) by (split; intros []).
  assert (Hn : forall l i, Forall cell_text l -> cell_text (nth i l [])).
  { intros l i H. destruct (nth_in_or_default i l []) as [Hi| ->]; auto. rewrite Forall_forall in H. auto. }
  assert (Hfe : forall f, cell_text (feature d f)) by (intros f; apply Hn; auto).
  assert (Hst : forall f s, cell_text (state d f s)).
  { intros f s. apply Hn. unfold states. destruct (nth_in_or_default f (d_states d) []) as [Hi| ->]; auto. rewrite Forall_forall in Hs. auto. }
  assert (Hco : forall c0, cell_text (confounder d c0) /\ Forall cell_text (groups d c0)).
  { intros c0. unfold confounder, groups. destruct (nth_in_or_default c0 (d_confs d) ([], [])) as [Hi| ->]; [|simpl; auto].
    rewrite Forall_forall in Hc. specialize (Hc _ Hi). destruct (nth c0 (d_confs d) ([], [])). auto. }
  assert (Hgr : forall c0 g, cell_text (group d c0 g)) by (intros c0 g; apply Hn; apply Hco).
  assert (Hlit : forall y, existsb (fun a => Ascii.eqb tab a || Ascii.eqb newline a)%bool (s_ y) = false -> cell_text (s_ y)).
  { intros y H. split; intros Hin; assert (E : existsb (fun a => Ascii.eqb tab a || Ascii.eqb newline a)%bool (s_ y) = true); try congruence;
      apply existsb_exists; eexists; split; try exact Hin; reflexivity. }
  assert (Hap : forall a b, cell_text a -> cell_text b -> cell_text (a ++ b)).
  { intros a b [A1 A2] [B1 B2]. split; intros Hin; apply in_app_iff in Hin as [Hin|Hin]; auto. }
  assert (Hnum : forall i, cell_text (str_nat i)).
  { intros i. split; apply str_nat_no; intros H; unfold digit_char in H; simpl in H; repeat destruct H as [H|H]; try discriminate; auto. }
  rewrite name_join.
  assert (Hp : Forall cell_text (pieces d c)).
  { destruct c; cbn [pieces]; repeat apply Forall_cons; try apply Forall_nil; auto; try (apply Hlit; reflexivity); try (apply Hap; auto; apply Hlit; reflexivity); try apply Hco.
    destruct component as [|c]; [apply Hlit; reflexivity|apply Hco]. }
  rewrite Forall_forall in Hp. split; apply not_in_join; try (intros [H|[]]; discriminate); intros a Ha; apply Hp in Ha; apply Ha.
Qed.
Lemma labelled_unique K n logged cls ps qs : labelled K n logged cls ps -> labelled K n logged cls qs -> ps = qs.
Proof.
  intros H. revert qs. induction H as [|logged cl cls p ps Hb _ IH]; intros qs Hq; inversion Hq; subst; auto.
  match goal with H1 : best_label K n logged cl ?q |- _ => assert (p = q) by (eapply best_unique; eauto); subst end.
  f_equal. apply IH. auto.
Qed.

(** * C62 *)
(** Reading the two files of a run returns, for the samples after the burn-in, exactly the logged clusters, weights, effects
    and evaluations (numbers up to the rounding by formatting and parsing), all with the same cluster labels. *)
Theorem C62_results : forall d lh pr fmt parse rnd K n disk disk' s ss burn_in,
  clean_names d -> no_reserved d -> inhabited_names d -> cell_names d -> number_format fmt parse rnd ->
  1 <= K -> 1 <= n -> Forall (wf_sample K n) (s :: ss) -> (0 <= burn_in <= 1)%Q ->
  exists ps lg lg' c c' i r,
    labelled K n [] (map ls_clusters (s :: ss)) ps /\
    run_log clusters_header clusters_row (map Write (s :: ss)) (new_logger disk clusters_init) = Some lg /\ lg_disk lg = Some c /\
    run_log (params_header d) (params_row d lh pr fmt) (map Write (s :: ss)) (new_logger disk' params_init) = Some lg' /\ lg_disk lg' = Some c' /\
    from_csv_files parse (concat c) (concat c') burn_in = Some r /\
    (inject_Z (Z.of_nat i) <= burn_in * inject_Z (Z.of_nat (length (s :: ss))) < inject_Z (Z.of_nat i + 1))%Q /\
    faithful d K (fun x col => rnd (column_value lh pr x col)) (skipn i (map2 renumber ps (s :: ss))) r.
Proof.
  intros d lh pr fmt parse rnd K n disk disk' s ss burn_in H1 H2 H3 H4 Hf HK Hn Hw [Hb0 Hb1].
  destruct (@C29_round_trip K n disk s ss HK Hn Hw) as (ps & lg & c & res & HL & Hr & Hc & Hread & Hres & Hcl).
  destruct (@C32_header_rows_partial d lh pr fmt K n disk' s ss (clean_distinct (K := K) H1) Hw) as (ps' & lg' & HL' & Hr' & Hc').
  assert (ps' = ps) by (eapply labelled_unique; eauto). subst ps'.
  set (xs := map2 renumber ps (s :: ss)). set (val := fun x col => rnd (column_value lh pr x col)).
  assert (Hps : length ps = length (s :: ss)) by (rewrite (labelled_length HL), map_length; auto).
  assert (Hxs : length xs = length (s :: ss)) by (unfold xs; rewrite map2_length, Hps; apply Nat.min_id).
  set (t := {| t_cols := column_names d K; t_rows := map (fun x => map (val x) (columns d K)) xs |}).
  assert (Ht : read_stats parse (concat ((join [tab] (map (column_name d) (columns d K)) ++ [newline]) ::
      map2 (fun p x => join [tab] (map (fun c => fmt (column_value lh pr (renumber p x) c)) (columns d K)) ++ [newline]) ps (s :: ss))) = Some t).
  { rewrite <- column_names_spec.
    replace (map2 _ ps (s :: ss)) with (map (fun r => join [tab] (map fmt r) ++ [newline]) (map (fun x => map (column_value lh pr x) (columns d K)) xs)).
    2:{ unfold xs. clear. revert ps. induction (s :: ss) as [|x l IH]; intros [|p ps]; simpl; auto. f_equal; [|apply IH]. rewrite map_map. reflexivity. }
    rewrite (@read_stats_spec fmt parse rnd); auto.
    - unfold t. f_equal. f_equal. rewrite map_map. apply map_ext. intros x. rewrite map_map. reflexivity.
    - unfold column_names. simpl. lia.
    - apply names_text; auto.
    - apply Forall_forall. intros r Hin. apply in_map_iff in Hin as (x & <- & _). rewrite column_names_spec, !map_length. reflexivity. }
  assert (HresF : Forall (fun b : bmat => length b = length (s :: ss)) res).
  { apply Forall_forall. intros b Hb. apply (In_nth _ _ []) in Hb as (j & Hj & <-). apply Hcl. unfold bmat in *. rewrite <- Hres. exact Hj. }
  assert (Hres0 : res <> []) by (intros ->; simpl in Hres; lia).
  destruct (@C34_burn_in (list Q) res (t_rows t) burn_in (length (s :: ss)) Hres0 HresF) as (i & Hi & Hlo & Hhi & Hsnd & Hfst); auto.
  { unfold t. cbn [t_rows]. rewrite map_length. auto. }
  set (ys := skipn i xs).
  assert (Erows : skipn i (t_rows t) = map (fun x => map (val x) (columns d K)) ys) by (unfold t, ys; cbn [t_rows]; apply skipn_map).
  set (t' := {| t_cols := column_names d K; t_rows := map (fun x => map (val x) (columns d K)) ys |}).
  assert (Hd : distinct_names d K) by (apply clean_distinct; auto).
  assert (Hcol : forall c0, In c0 (columns d K) -> get_column t' (column_name d c0) = Some (map (fun x => val x c0) ys)) by (intros; apply (@get_column_spec d K val ys Hd); auto).
  assert (Hmake : exists r, make_results res t burn_in = Some r /\ faithful d K val ys r).
  { unfold make_results. destruct (drop_burnin res (t_rows t) burn_in) as [cl0 rows0] eqn:Ed. cbn [fst snd] in Hsnd, Hfst. subst cl0 rows0.
    rewrite Erows. change (t_cols t) with (column_names d K). fold t'. cbn [t_cols t'].
    rewrite groups_by_confounder by auto. cbn [obind]. rewrite areal_names by auto. cbn [obind].
    destruct K as [|K']; [lia|]. cbn [seq map hd_error obind]. cbv zeta.
    change (s_ "areal_" ++ s_ "a" ++ str_nat (0 + 1)) with (s_ "areal_a" ++ str_nat (0 + 1)).
    rewrite features_states by (auto; lia).
    change ((s_ "a" ++ str_nat (0 + 1)) :: map (fun i0 => s_ "a" ++ str_nat (i0 + 1)) (seq 1 K')) with (map (fun i0 => s_ "a" ++ str_nat (i0 + 1)) (seq 0 (S K'))).
    change (s_ "Sample") with (column_name d CSample). rewrite Hcol by (apply col_in; exact I). cbn [obind].
    assert (Ecomb : map fst (combine (d_features d) (d_states d)) = d_features d).
    { assert (El : length (d_states d) = length (d_features d)) by apply H1. clear -El. revert El. generalize (d_states d). induction (d_features d) as [|a l IH]; intros [|b m] El; simpl in *; try discriminate; auto. f_equal. apply IH. lia. }
    rewrite Ecomb. unfold t'. rewrite weights_read by auto. cbn [obind]. rewrite areal_read by auto. cbn [obind].
    rewrite conf_read by auto. cbn [obind]. fold t'.
    change (s_ "posterior") with (column_name d CPosterior). rewrite Hcol by (apply col_in; exact I). cbn [obind].
    change (s_ "likelihood") with (column_name d CLikelihood). rewrite Hcol by (apply col_in; exact I). cbn [obind].
    change (s_ "prior") with (column_name d CPrior). rewrite Hcol by (apply col_in; exact I). cbn [obind]. unfold t'.
    rewrite post_read by auto. cbn [obind]. rewrite lh_read by auto. cbn [obind]. rewrite prior_read by auto. cbn [obind].
    eexists. split; [reflexivity|]. constructor; try reflexivity; cbn [r_clusters r_sample_id].
    - transitivity (map (fun j => skipn i (nth j res [])) (seq 0 (S K'))); [rewrite <- Hres; apply (map_tab (skipn i) [] res)|]. apply map_ext_in. intros j Hj. apply in_seq in Hj. destruct (Hcl j) as [Hlj Hj']; [lia|].
      unfold ys. rewrite <- skipn_map. f_equal. apply nth_error_ext. intros u.
      destruct (nth_error (s :: ss) u) as [x|] eqn:Ex.
      + assert (Hu := nth_error_Some_lt _ _ Ex). destruct (nth_error ps u) as [p|] eqn:Ep; [|apply nth_error_None in Ep; lia].
        rewrite (Hj' u p x Ep Ex). rewrite nth_error_map. unfold xs. rewrite nth_error_map2, Ep, Ex. cbn [option_map]. f_equal.
        unfold renumber, reorder. cbn [ls_clusters]. symmetry. apply nth_error_nth. rewrite nth_error_map.
        assert (Hp : length p = S K').
        { clear -HL Ep. revert u Ep. induction HL as [|? ? ? ? ? Hb _ IH]; intros [|u] Ep; try discriminate; [|eauto]. injection Ep as <-. destruct Hb as [Hb _]. rewrite (Permutation_length Hb), seq_length. reflexivity. }
        rewrite (nth_error_nth' p 0) by lia. reflexivity.
      + apply nth_error_None in Ex. rewrite (proj2 (nth_error_None _ _)) by lia. symmetry. apply nth_error_None. rewrite map_length. lia.
    - rewrite map_map. reflexivity. }
  destruct Hmake as (r & Hm & Hfa). exists ps, lg, lg'. eexists c, _, i, r. conj; eauto.
  unfold from_csv_files. rewrite Hread. cbn [obind]. rewrite Ht. exact Hm.
Qed.
Print Assumptions C62_results.

(** Two samples whose clusters are swapped between the steps: the reader returns the same labels for both. *)
Definition unary (q : Q) : str := repeat "1"%char (Z.to_nat (Qfloor q)).
Definition parse_unary (x : str) : option Q := Some (inject_Z (Z.of_nat (length x))).
Example unary_format : number_format unary parse_unary (fun q => inject_Z (Z.of_nat (Z.to_nat (Qfloor q)))).
Proof.
  intros q. split; [|unfold parse_unary, unary; rewrite repeat_length; reflexivity].
  split; intros H; apply repeat_spec in H; discriminate.
Qed.
Example demo_cells : cell_names demo_names.
Proof.
  assert (H : forall x : str, existsb (fun a => Ascii.eqb tab a || Ascii.eqb newline a)%bool x = false -> cell_text x).
  { intros x Hx. split; intros Hin; assert (E : existsb (fun a => Ascii.eqb tab a || Ascii.eqb newline a)%bool x = true); try congruence;
      apply existsb_exists; eexists; split; try exact Hin; reflexivity. }
  unfold cell_names. conj; repeat (apply Forall_cons || apply Forall_nil); try (apply H; reflexivity); try (split; [apply H; reflexivity|]);
    repeat (apply Forall_cons || apply Forall_nil); apply H; reflexivity.
Qed.
Example C62_case : let zero := fun _ _ _ _ => 0%Q in exists lg lg' c c' r,
  run_log clusters_header clusters_row (map Write [demo_s1; demo_s2]) (new_logger None clusters_init) = Some lg /\ lg_disk lg = Some c /\
  run_log (params_header demo_names) (params_row demo_names zero zero unary) (map Write [demo_s1; demo_s2]) (new_logger None params_init) = Some lg' /\ lg_disk lg' = Some c' /\
  from_csv_files parse_unary (concat c) (concat c') 0 = Some r /\
  r_clusters r = [[[true; false; false]; [true; false; false]]; [[false; true; true]; [false; true; true]]] /\ r_sample_id r = [0; 10]%Z.
Proof. do 5 eexists. conj; vm_compute; reflexivity. Qed.
Example C62_case_burn_in : exists r, let zero := fun _ _ _ _ => 0%Q in exists lg lg' c c',
  run_log clusters_header clusters_row (map Write [demo_s1; demo_s2]) (new_logger None clusters_init) = Some lg /\ lg_disk lg = Some c /\
  run_log (params_header demo_names) (params_row demo_names zero zero unary) (map Write [demo_s1; demo_s2]) (new_logger None params_init) = Some lg' /\ lg_disk lg' = Some c' /\
  from_csv_files parse_unary (concat c) (concat c') (1#2) = Some r /\ r_sample_id r = [10]%Z.
Proof. do 5 eexists. conj; vm_compute; reflexivity. Qed.
Example C62_hypotheses : clean_names demo_names /\ no_reserved demo_names /\ inhabited_names demo_names /\ cell_names demo_names /\
  Forall (wf_sample 2 3) [demo_s1; demo_s2].
Proof. conj; [exact demo_clean|apply demo_reserved|apply demo_reserved|exact demo_cells|exact demo_wf]. Qed.
