(** Properties C84 (legend of likelihoods), C85 (selection of plots), C86 (broken labels). *)
From Coq Require Import Permutation Sorted Lqa.
From Verif Require Import M_plot2 S_plot S_plot2 L_config P_post.
Close Scope Q_scope.
Open Scope nat_scope.

(** * C84 *)
(** The values of the legend are the average likelihoods of the clusters, sorted; the value next to the line (the colour)
    of each cluster is its own average exactly if the averages are already decreasing. *)
Lemma seq_nth_map (l : list Q) : map (fun i => nth i l 0%Q) (seq 0 (length l)) = l.
Proof.
  assert (G : forall l0 l : list Q, map (fun i => nth i (l0 ++ l) 0%Q) (seq (length l0) (length l)) = l).
  { intros l0 l1. revert l0. induction l1 as [|x r IH]; intros l0; cbn [length seq map]; auto.
    rewrite app_nth2, Nat.sub_diag by lia. cbn [nth]. f_equal. specialize (IH (l0 ++ [x])). rewrite app_length in IH. cbn [length] in IH.
    rewrite Nat.add_1_r, <- app_assoc in IH. exact IH. }
  exact (G [] l).
Qed.
Lemma argsort_id keys : (forall i j, i < j -> j < length keys -> (nth i keys 0 <= nth j keys 0)%Q) -> argsort keys = seq 0 (length keys).
Proof.
  intros H. unfold argsort. assert (G : forall n a, a + n <= length keys -> fold_right (insert_by (fun i => nth i keys 0%Q)) [] (seq a n) = seq a n).
  { induction n as [|n IH]; intros a L; [reflexivity|]. cbn [seq fold_right]. rewrite IH by lia. destruct n as [|n]; [reflexivity|]. cbn [seq insert_by].
    rewrite (proj2 (Qle_bool_iff _ _)); [reflexivity|]. apply H; lia. }
  apply G. lia.
Qed.
Lemma nth_opp l i : (nth i (map Qopp l) 0 == - nth i l 0)%Q.
Proof. destruct (Nat.lt_ge_cases i (length l)) as [L|L]; [rewrite (nth_indep _ 0 (- 0))%Q by (rewrite map_length; auto); rewrite map_nth; reflexivity|].
  rewrite !nth_overflow by (rewrite ?map_length; auto). reflexivity. Qed.
Theorem C84_legend_partial : forall lhs values, legend_values lhs = Some values ->
  length values = length lhs /\ Permutation values (map average lhs) /\ decreasing values /\
  ((forall i, i < length lhs -> (nth i values 0 == average (nth i lhs []))%Q) <-> decreasing (map average lhs)).
Proof.
  intros lhs values H. unfold legend_values in H. destruct (_ || _) in H; [discriminate|]. injection H as H. change (map mean_q lhs) with (map average lhs) in H.
  set (ms := map average lhs) in *. assert (Lm : length ms = length lhs) by apply map_length. assert (Ln : length (map Qopp ms) = length lhs) by (rewrite map_length; auto).
  pose proof (argsort_perm (map Qopp ms)) as P. rewrite Ln in P. pose proof (Permutation_length P) as PL. rewrite seq_length in PL.
  assert (Lv : length values = length lhs) by (subst values; rewrite map_length; auto).
  assert (Hd : decreasing values).
  { intros i j Hij Hj. rewrite Lv in Hj. subst values. 
    assert (B : forall k, k < length lhs -> nth k (map (fun i => nth i ms 0%Q) (argsort (map Qopp ms))) 0%Q = nth (nth k (argsort (map Qopp ms)) 0) ms 0%Q).
    { intros k Hk. rewrite (nth_indep (map _ _) 0%Q (nth 0 ms 0%Q)) by (rewrite map_length; lia). apply (map_nth (fun k => nth k ms 0%Q)). }
    rewrite !B by lia.
    pose proof (@StronglySorted_nth _ _ _ (argsort_sorted (map Qopp ms)) i j (nth i (argsort (map Qopp ms)) 0) (nth j (argsort (map Qopp ms)) 0) Hij) as S.
    assert (I : forall k, k < length lhs -> nth_error (argsort (map Qopp ms)) k = Some (nth k (argsort (map Qopp ms)) 0)) by (intros k Hk; apply nth_error_nth'; lia). specialize (S (I i ltac:(lia)) (I j Hj)). cbv beta in S. rewrite !nth_opp in S. lra. }
  conj; auto.
  - subst values. rewrite <- P, <- Lm, seq_nth_map. reflexivity.
  - split.
    + intros E i j Hij Hj. rewrite Lm in Hj. assert (A : forall k, k < length lhs -> (nth k values 0 == nth k ms 0)%Q).
      { intros k Hk. rewrite E by auto. unfold ms. rewrite (nth_indep (map _ _) 0%Q (average [])) by (rewrite map_length; lia). rewrite map_nth. reflexivity. }
      rewrite <- !A by lia. apply Hd; lia.
    + intros Dm i Hi. assert (E : argsort (map Qopp ms) = seq 0 (length ms)).
      { rewrite argsort_id; [rewrite map_length; reflexivity|]. intros a b Hab Hb. rewrite map_length in Hb. rewrite !nth_opp. specialize (Dm a b Hab Hb). lra. }
      rewrite E, seq_nth_map in H. subst values. unfold ms. rewrite (nth_indep _ 0%Q (average [])) by (rewrite map_length; lia). rewrite map_nth. reflexivity.
Qed.
Print Assumptions C84_legend_partial.
Example C84_case : legend_values [[-10; -12]; [-20; -22]]%Q = Some [(-10 + (-12 + 0)) / 2; (-20 + (-22 + 0)) / 2]%Q.
Proof. vm_compute. reflexivity. Qed.
(** So the legend can give every cluster the likelihood of another. *)
Theorem C84_refuted : exists lhs values, legend_values lhs = Some values /\ length lhs = 2 /\ forall i, i < 2 -> ~ (nth i values 0 == average (nth i lhs []))%Q.
Proof.
  exists [[-20; -22]; [-10; -12]]%Q. eexists. conj; [vm_compute; reflexivity|reflexivity|]. intros [|[|i]] Hi; [vm_compute; discriminate|vm_compute; discriminate|lia].
Qed.
Print Assumptions C84_refuted.

(** * C85 *)
(** Whatever the user's file has, a type of plot is drawn if it is requested; the plot of the weights only if the file
    has the section 'weights_plot'. *)
Theorem C85_selected : forall T (config default : dict T) requested t, map fst default = default_keys -> In t plot_types ->
  (should_be_plotted config default requested t = true <->
   (requested = None \/ exists l, requested = Some l /\ In t l) /\ (t <> s_ "weights_plot" \/ exists v, M_config.get t config = Some v)).
Proof.
  intros T config default requested t Hk Ht. unfold should_be_plotted. rewrite set_defaults_get.
  2:{ rewrite Hk. apply (NoDup_nodup (list_eq_dec ascii_dec) default_keys). }
  assert (R : match requested with None => true | Some l => existsb (str_eqb t) l end = true <-> (requested = None \/ exists l, requested = Some l /\ In t l)).
  { destruct requested as [l|]; [|tauto]. rewrite existsb_exists. split.
    - intros (x & H & E). apply str_eqb_eq in E. subst x. right. eauto.
    - intros [H|(l' & H & Hin)]; [discriminate|]. injection H as <-. exists t. split; auto. apply str_eqb_eq. reflexivity. }
  assert (G : (exists v, sd_merge (M_config.get t config) (M_config.get t default) = Some v) <-> (t <> s_ "weights_plot" \/ exists v, M_config.get t config = Some v)).
  { assert (D : (exists v, M_config.get t default = Some v) <-> t <> s_ "weights_plot").
    { assert (K : (exists v, M_config.get t default = Some v) <-> In t default_keys).
      { rewrite <- Hk. clear. induction default as [|(k & v) d IH]; cbn [M_config.get map fst In]; [split; [intros (v & H); discriminate|intros []]|].
        destruct (str_eqb t k) eqn:E.
        - apply str_eqb_eq in E. subst k. split; eauto.
        - rewrite IH. split; auto. intros [->|H]; auto. rewrite (proj2 (str_eqb_eq t t) eq_refl) in E. discriminate. }
      rewrite K. unfold plot_types in Ht. cbn [map In] in Ht.
      destruct Ht as [<-|[<-|[<-|[<-|[<-|[<-|[]]]]]]]; split; intros H; try discriminate; try congruence; try (vm_compute; tauto).
      vm_compute in H. intuition discriminate. }
    rewrite <- D. destruct (M_config.get t config) as [[x|c]|], (M_config.get t default) as [[y|d]|]; cbn [sd_merge];
      (split; [intros (v & H); first [discriminate H|left; eexists; reflexivity|right; eexists; reflexivity]|]);
      intros [(v & H)|(v & H)]; first [discriminate H|eexists; reflexivity]. }
  rewrite <- R, <- G. destruct (sd_merge _ _) as [v|]; split; intros H; try tauto.
  - split; eauto.
  - discriminate.
  - destruct H as [_ (v & H)]. discriminate.
Qed.
Print Assumptions C85_selected.
Definition demo_defaults : dict nat := map (fun k => (k, Dict [(s_ "content", Leaf 1)])) default_keys.
(** "A plot type should only be generated if it is specified in the config file and in the requested list" fails both
    ways: with only a map in the file all but the weights are drawn; with the section 'weight_plot', which the plot of the
    weights reads, it is not drawn. *)
Theorem C85_refuted : exists config default : dict nat, map fst default = default_keys /\ In (s_ "pie_plot") plot_types /\ In (s_ "weights_plot") plot_types /\
  M_config.get (s_ "pie_plot") config = None /\ should_be_plotted config default None (s_ "pie_plot") = true /\
  M_config.get (s_ "weight_plot") config <> None /\ should_be_plotted config default (Some [s_ "weights_plot"]) (s_ "weights_plot") = false.
Proof.
  exists [(s_ "map", Dict []); (s_ "weight_plot", Dict [])], demo_defaults. conj; try (vm_compute; reflexivity); vm_compute; try tauto. discriminate.
Qed.
Print Assumptions C85_refuted.

(** * C86 *)
(** The charts of the preferences break labels of more than ten characters once, before a space or dash which is nearest to the
    middle; nothing is lost. *)
Definition breakable (c : ascii) : Prop := c = space \/ c = dash.
Lemma breakable_at l i : In i (white_or_dash l) <-> exists c, nth_error l i = Some c /\ breakable c.
Proof.
  unfold white_or_dash, breakable. rewrite filter_In, in_seq. split.
  - intros [L H]. destruct (nth_error l i) as [c|] eqn:E; [|apply nth_error_None in E; lia]. exists c. split; auto. rewrite (nth_error_nth _ _ _ E) in H.
    destruct (ascii_dec c space), (ascii_dec c dash); auto. discriminate.
  - intros (c & E & H). assert (i < length l) by (apply nth_error_Some; congruence). split; [lia|]. rewrite (nth_error_nth _ _ _ E).
    destruct H as [->| ->]; reflexivity.
Qed.
Lemma first_min_spec key : forall l best, In (first_min key best l) (best :: l) /\ forall i, In i (best :: l) -> (key (first_min key best l) <= key i)%Z.
Proof.
  induction l as [|x l IH]; intros best; cbn [first_min]; [split; [left; auto|intros i [->|[]]; lia]|].
  destruct (IH (if (key x <? key best)%Z then x else best)) as [I M]. destruct (key x <? key best)%Z eqn:E.
  - apply Z.ltb_lt in E. split; [right; exact I|]. intros i [<-|[<-|H]]; [|apply M; left; auto|apply M; right; auto].
    etransitivity; [apply M; left; auto|lia].
  - apply Z.ltb_ge in E. split; [destruct I as [I|I]; [left|right; right]; auto|]. intros i [<-|[<-|H]]; [apply M; left; auto| |apply M; right; auto].
    etransitivity; [apply M; left; reflexivity|exact E].
Qed.
Lemma best_break l i r : white_or_dash l = i :: r -> let b := first_min (off_middle l) i r in
  exists x, breakable x /\ l = firstn b l ++ x :: skipn (b + 1) l /\ skipn b l = x :: skipn (b + 1) l /\
    forall j c, nth_error l j = Some c -> breakable c -> (Z.abs (2 * Z.of_nat (length (firstn b l)) - Z.of_nat (length l)) <= Z.abs (2 * Z.of_nat j - Z.of_nat (length l)))%Z.
Proof.
  intros E b. destruct (first_min_spec (off_middle l) r i) as [I M]. fold b in I, M. rewrite <- E in I, M.
  pose proof I as Ib. apply breakable_at in I as (x & Ex & Hx). exists x. assert (L : b < length l) by (apply nth_error_Some; congruence).
  assert (S : skipn b l = x :: skipn (b + 1) l).
  { clearbody b. clear - Ex. revert l Ex. induction b as [|b IH]; intros [|y l] E; try discriminate; simpl in *; [congruence|]. apply IH. auto. }
  conj; auto.
  - rewrite <- S. symmetry. apply firstn_skipn.
  - intros j c Ej Hj. rewrite firstn_length_le by lia. apply M. apply breakable_at. eauto.
Qed.
Theorem C86_keep : forall l, break_label_keep l = l \/ 10 < length l /\ exists a b x, breakable x /\ l = a ++ x :: b /\ break_label_keep l = a ++ newline :: x :: b /\
  forall i c, nth_error l i = Some c -> breakable c -> (Z.abs (2 * Z.of_nat (length a) - Z.of_nat (length l)) <= Z.abs (2 * Z.of_nat i - Z.of_nat (length l)))%Z.
Proof.
  intros l. unfold break_label_keep. destruct (white_or_dash l) as [|i r] eqn:E; auto. destruct (10 <? length l) eqn:L; auto. apply Nat.ltb_lt in L. right. split; auto.
  destruct (best_break l i r E) as (x & Hx & El & Es & M). do 3 eexists. conj; [exact Hx|exact El| |exact M]. rewrite Es. reflexivity.
Qed.
Print Assumptions C86_keep.
Example C86_keep_case : break_label_keep (s_ "very long-label here") = s_ "very long" ++ newline :: s_ "-label here".
Proof. vm_compute. reflexivity. Qed.
(** So different labels without line breaks stay different. *)
Lemma no_newline_inj (a b a' b' : str) : ~ In newline (a ++ b) -> ~ In newline (a' ++ b') -> a ++ newline :: b = a' ++ newline :: b' -> a = a' /\ b = b'.
Proof.
  intros H H'. revert a' H'. induction a as [|x a IH]; intros [|y a'] H' E; simpl in *.
  - injection E as ->. auto.
  - injection E as <- _. exfalso. apply H'. auto.
  - injection E as -> _. exfalso. apply H. auto.
  - injection E as -> E. destruct (IH (fun C => H (or_intror C)) a' (fun C => H' (or_intror C)) E) as [-> ->]. auto.
Qed.
Theorem C86_keep_distinct : forall l l', ~ In newline l -> ~ In newline l' -> break_label_keep l = break_label_keep l' -> l = l'.
Proof.
  intros l l' H H' E. destruct (C86_keep l) as [K|(_ & a & b & x & _ & El & K & _)]; destruct (C86_keep l') as [K'|(_ & a' & b' & x' & _ & El' & K' & _)]; rewrite K, K' in E; auto.
  - exfalso. apply H. rewrite E, in_app_iff. simpl. auto.
  - exfalso. apply H'. rewrite <- E, in_app_iff. simpl. auto.
  - rewrite El in H |- *. rewrite El' in H' |- *. apply no_newline_inj in E as [-> E]; auto. rewrite E. reflexivity.
Qed.
Print Assumptions C86_keep_distinct.
(** The pie charts replace a space by a line break; a dash is kept, if the label has no space. *)
Theorem C86_pies : forall l, break_label l = l \/ 10 < length l /\ exists a b x, breakable x /\ l = a ++ x :: b /\
  (In space l -> break_label l = a ++ newline :: b) /\ (~ In space l -> x = dash /\ break_label l = a ++ dash :: newline :: b) /\
  forall i c, nth_error l i = Some c -> breakable c -> (Z.abs (2 * Z.of_nat (length a) - Z.of_nat (length l)) <= Z.abs (2 * Z.of_nat i - Z.of_nat (length l)))%Z.
Proof.
  intros l. unfold break_label. destruct (white_or_dash l) as [|i r] eqn:E; auto. destruct (10 <? length l) eqn:L; auto. apply Nat.ltb_lt in L. right. split; auto.
  assert (Hs : has_char space l = true <-> In space l).
  { unfold has_char. rewrite existsb_exists. split; [intros (x & H & E'); destruct (ascii_dec x space); [subst; auto|discriminate]|intros H; exists space; split; auto]. }
  destruct (best_break l i r E) as (x & Hx & El & Es & M). do 3 eexists. conj; [exact Hx|exact El| | |exact M].
  - intros Hin. rewrite (proj2 Hs Hin). reflexivity.
  - intros Hno. destruct (has_char space l) eqn:Eh; [exfalso; apply Hno, Hs; reflexivity|]. split; auto. destruct Hx as [->| ->]; auto. exfalso. apply Hno. rewrite El, in_app_iff. simpl. auto.
Qed.
Print Assumptions C86_pies.
Theorem C86_pies_distinct_partial : forall l l', ~ In newline l -> ~ In newline l' -> ~ (In space l /\ In dash l) -> ~ (In space l' /\ In dash l') ->
  break_label l = break_label l' -> l = l'.
Proof.
  assert (Key : forall l, ~ In newline l -> ~ (In space l /\ In dash l) -> break_label l = l \/
    exists a b x, l = a ++ x :: b /\ ((x = space /\ ~ In dash l /\ break_label l = a ++ newline :: b) \/ (x = dash /\ break_label l = (a ++ [dash]) ++ newline :: b))).
  { intros l H Hb. destruct (C86_pies l) as [K|(_ & a & b & x & Hx & El & Ks & Kd & _)]; auto. right. exists a, b, x. split; auto. destruct (in_dec ascii_dec space l) as [I|I].
    - left. assert (x = space). { destruct Hx as [Hx|Hx]; auto. exfalso. apply Hb. split; auto. rewrite El, in_app_iff. subst x. simpl. auto. } split; [auto|]. split; [|auto]. intros C. apply Hb. auto.
    - right. destruct (Kd I) as [-> K]. split; auto. rewrite K, <- app_assoc. reflexivity. }
  intros l l' H H' B B' E. destruct (Key l H B) as [K|(a & b & x & El & K)]; destruct (Key l' H' B') as [K'|(a' & b' & x' & El' & K')].
  - congruence.
  - exfalso. apply H. rewrite <- K, E. destruct K' as [(_ & _ & ->)|(_ & ->)]; rewrite in_app_iff; simpl; auto.
  - exfalso. apply H'. rewrite <- K', <- E. destruct K as [(_ & _ & ->)|(_ & ->)]; rewrite in_app_iff; simpl; auto.
  - assert (N : forall (a b : str) x l, ~ In newline l -> l = a ++ x :: b -> ~ In newline (a ++ b)).
    { clear. intros a b x l H -> C. apply H. rewrite in_app_iff in *. simpl. tauto. }
    assert (N' : forall (a b : str) x l, ~ In newline l -> l = a ++ x :: b -> ~ In newline ((a ++ [dash]) ++ b)).
    { clear. intros a b x l H -> C. apply H. rewrite !in_app_iff in *. simpl in *. intuition discriminate. }
    destruct K as [(-> & D & K)|(-> & K)]; destruct K' as [(-> & D' & K')|(-> & K')]; rewrite K, K' in E;
      (apply no_newline_inj in E as [Ea Eb]; [|eauto|eauto]).
    + congruence.
    + exfalso. apply D. rewrite El, Ea, !in_app_iff. simpl. auto.
    + exfalso. apply D'. rewrite El', <- Ea, !in_app_iff. simpl. auto.
    + apply app_inj_tail in Ea as [-> _]. congruence.
Qed.
Print Assumptions C86_pies_distinct_partial.
Example C86_pies_case : break_label (s_ "Sino-Tibetan") = s_ "Sino-" ++ newline :: s_ "Tibetan" /\ break_label (s_ "Old Church Slavonic") = s_ "Old Church" ++ newline :: s_ "Slavonic".
Proof. split; vm_compute; reflexivity. Qed.
(** With both characters a dash can disappear, and two objects get the same label. *)
Theorem C86_pies_refuted : exists l l', ~ In newline l /\ ~ In newline l' /\ l <> l' /\ break_label l = break_label l'.
Proof.
  exists (s_ "Mixtec-Pinotepa N"), (s_ "Mixtec Pinotepa N"). conj; try (vm_compute; reflexivity); try (vm_compute; discriminate); vm_compute; intuition discriminate.
Qed.
Print Assumptions C86_pies_refuted.
