(** C80: the pie charts of the objects. *)
From Coq Require Import QArith.
From Coq Require Import Lqa.
From Verif Require Import Base M_util M_text M_loggers M_plot S_plot L_loggers L_names L_plot P_plot.
Close Scope Q_scope.
Open Scope nat_scope.

(** One chart per object, in its own cell of the grid, numbered as on the map; one slice per cluster, the number of
    samples after the burn-in with the object in the cluster; a last slice for the samples with the object in no
    cluster; together they are all samples. *)
Theorem C80_pies : forall b n_col names (clusters : list bmat) n, clusters <> [] -> same_samples n clusters -> exclusive clusters -> (0 <= b)%Q -> (b <= 1)%Q ->
  2 <= n_col -> n_col < length names ->
  exists i n_row pies, rounded_up b n i /\ i <= n /\ length names <= n_row * n_col /\ n_row * n_col < length names + n_col /\
    plot_pies b n_col names clusters = Some pies /\ length pies = length names /\
    forall o p, nth_error pies o = Some p ->
      (p_row p < n_row /\ p_col p < n_col /\ o = n_row * p_col p + p_row p) /\ p_number p = o + 1 /\
      length (p_slices p) = length clusters + 1 /\
      (forall c, c < length clusters -> nth c (p_slices p) 0%Z = Z.of_nat (number (has o) (skipn i (nth c clusters [])))) /\
      nth (length clusters) (p_slices p) 0%Z = Z.of_nat (number (in_none o clusters) (seq i (n - i))) /\
      fold_right Z.add 0%Z (p_slices p) = Z.of_nat (n - i).
Proof.
  intros b n_col names clusters n Hne Hs He H0 H1 Hc Hn.
  destruct (@ceil_index b n H0 H1) as (i & Ei & Hi & Ri). destruct (@ceil_div_bounds (length names) n_col) as [B1 B2]; [lia|].
  set (n_row := ceil_div (length names) n_col) in *. assert (R2 : 2 <= n_row) by nia.
  set (slices := fun o => map (fun c => Z.of_nat (number (has o) (skipn i c))) clusters ++ [Z.of_nat (number (in_none o clusters) (seq i (n - i)))]).
  set (pie_at := fun o => {| p_row := o - n_row * (o / n_row); p_col := o / n_row; p_slices := slices o; p_number := o + 1; p_label := break_label (nth o names []) |}).
  assert (Sum : forall o, fold_right Z.add 0%Z (slices o) = Z.of_nat (n - i)).
  { intros o. unfold slices. rewrite zsum_app, (zsum_of_nat (fun c => number (has o) (skipn i c))), <- none_skipn, <- Nat2Z.inj_add. f_equal.
    pose proof (@count_partition o (n - i) (map (skipn i) clusters) (same_skipn i Hs) (@exclusive_skipn i _ He)) as P. rewrite map_map in P. exact P. }
  assert (E : plot_pies b n_col names clusters = Some (map pie_at (seq 0 (length names)))).
  { unfold plot_pies. fold n_row.
    assert (Et : match clusters with [] => 0 | c :: _ => length c end = n) by (destruct clusters; [congruence|]; inversion Hs; auto).
    rewrite Et, Ei. assert (Em : map (slice_from (Z.of_nat i)) clusters = map (skipn i) clusters) by (apply map_ext; intros c; apply slice_nat).
    rewrite Em. assert (En : match map (skipn i) clusters with [] => 0 | c :: _ => length c end = n - i).
    { destruct clusters; [congruence|]. cbn [map]. rewrite skipn_length. inversion Hs; subst; auto. }
    rewrite En. destruct (Nat.leb_spec n_row 1); [lia|]. destruct (Nat.leb_spec n_col 1); [lia|]. cbn [orb].
    match goal with |- (if forallb _ ?l then _ else _) = _ => assert (El : l = map pie_at (seq 0 (length names))) end.
    { apply map_ext. intros o. unfold pie_at. rewrite map_map. f_equal. unfold slices.
      assert (Eq : map (fun x => Z.of_nat (count_member o (skipn i x))) clusters = map (fun c => Z.of_nat (number (has o) (skipn i c))) clusters).
      { apply map_ext. intros c. unfold count_member. rewrite number_filter. reflexivity. }
      rewrite Eq. f_equal. f_equal. specialize (Sum o). unfold slices in Sum. rewrite zsum_app in Sum. lia. }
    rewrite El. clear El.
    assert (P : forallb (fun p => forallb (fun x => (0 <=? x)%Z) (p_slices p)) (map pie_at (seq 0 (length names))) = true).
    { apply forallb_forall. intros p Hp. apply in_map_iff in Hp as (o & <- & _). apply forallb_forall. intros x Hx. apply Z.leb_le.
      unfold pie_at, slices in Hx. cbn [p_slices] in Hx. apply in_app_or in Hx as [Hx|[<-|[]]]; [|lia]. apply in_map_iff in Hx as (c & <- & _). lia. }
    rewrite P. reflexivity. }
  exists i, n_row, (map pie_at (seq 0 (length names))). conj; auto; [rewrite map_length, seq_length; auto|].
  intros o p Hp. assert (Ho : o < length names).
  { rewrite <- (seq_length (length names) 0), <- (map_length pie_at). apply nth_error_Some. congruence. }
  assert (Ep : p = pie_at o).
  { apply nth_error_nth with (d := pie_at 0) in Hp. rewrite map_nth, seq_nth in Hp by auto. auto. }
  subst p. unfold pie_at. cbn [p_row p_col p_slices p_number].
  pose proof (Nat.div_mod o n_row ltac:(lia)). pose proof (Nat.mod_upper_bound o n_row ltac:(lia)). conj.
  - lia.
  - apply Nat.div_lt_upper_bound; lia.
  - lia.
  - auto.
  - unfold slices. rewrite app_length, map_length. reflexivity.
  - intros c Hlt. unfold slices. rewrite app_nth1 by (rewrite map_length; auto).
    rewrite (nth_indep _ 0%Z (Z.of_nat (number (has o) (skipn i [])))) by (rewrite map_length; auto).
    rewrite (map_nth (fun c => Z.of_nat (number (has o) (skipn i c)))). reflexivity.
  - unfold slices. rewrite app_nth2 by (rewrite map_length; auto). rewrite map_length, Nat.sub_diag. reflexivity.
  - apply Sum.
Qed.
Print Assumptions C80_pies.
Definition five_names : list str := map s_ ["a"; "b"; "c"; "d"; "e"]%string.
Definition demo_five : list (list (list bool)) :=
  [[[true; true; false; false; false]; [true; true; true; false; false]; [true; false; false; false; true]];
   [[false; false; true; true; false]; [false; false; false; true; true]; [false; true; true; false; false]]].
Lemma demo_five_exclusive : exclusive demo_five.
Proof.
  assert (F : forall t o, has o (nth t (nth 0 demo_five []) []) && has o (nth t (nth 1 demo_five []) []) = false).
  { intros [|[|[|t]]] [|[|[|[|[|o]]]]]; try reflexivity; cbn; try (destruct t; reflexivity); destruct o; reflexivity. }
  assert (G : forall c t o, is_in demo_five c t o -> c = 0 \/ c = 1).
  { intros [|[|c]] t o A; auto. unfold is_in, has in A. rewrite (nth_overflow demo_five) in A by (simpl; lia). destruct t, o; discriminate A. }
  intros c c' t o A B. specialize (F t o). unfold is_in in A, B.
  destruct (G c t o A) as [->| ->], (G c' t o B) as [->| ->]; auto; rewrite A, B in F; discriminate.
Qed.
Example C80_pies_case : demo_five <> [] /\ same_samples 3 demo_five /\ exclusive demo_five /\ 2 <= 2 /\ 2 < length five_names /\
  exists pies, plot_pies (2 # 10) 2 five_names demo_five = Some pies /\ map p_slices pies = [[2; 0; 0]; [1; 1; 0]; [1; 1; 0]; [0; 1; 1]; [1; 1; 0]]%Z /\
    map (fun p => (p_row p, p_col p)) pies = [(0, 0); (1, 0); (2, 0); (0, 1); (1, 1)].
Proof.
  conj; [discriminate|repeat constructor|apply demo_five_exclusive|lia|simpl; lia|]. eexists. conj; [vm_compute; reflexivity|reflexivity|reflexivity].
Qed.

(** The charts need more objects than columns and at least two columns: otherwise the plot fails. *)
Theorem C80_grid : forall b n_col names clusters, n_col <= 1 \/ length names <= n_col -> plot_pies b n_col names clusters = None.
Proof.
  intros b n_col names clusters H. unfold plot_pies.
  assert (E : (ceil_div (length names) n_col <=? 1) || (n_col <=? 1) = true); [|rewrite E; reflexivity].
  apply orb_true_iff. rewrite !Nat.leb_le. destruct (Nat.le_gt_cases n_col 1) as [|G]; auto. left. destruct H as [|H]; [lia|].
  destruct (@ceil_div_bounds (length names) n_col) as [_ B]; [lia|]. nia.
Qed.
Print Assumptions C80_grid.
Example C80_grid_case : 4 <= 1 \/ length [s_ "a"%string; s_ "b"%string; s_ "c"%string; s_ "d"%string] <= 4.
Proof. right. reflexivity. Qed.
(** With the default of four columns, no charts are drawn of four objects. *)
Theorem C80_pies_refuted : exists names clusters n, clusters <> [] /\ same_samples n clusters /\ exclusive clusters /\
  Forall (Forall (fun s => length s = length names)) clusters /\ 0 < length names /\ plot_pies (2 # 10) 4 names clusters = None.
Proof.
  exists [s_ "a"%string; s_ "b"%string; s_ "c"%string], demo_clusters, 3. conj; [discriminate|repeat constructor|apply demo_exclusive|repeat constructor|simpl; lia|reflexivity].
Qed.
Print Assumptions C80_pies_refuted.

(** As for the maps, the burn-in is dropped twice: by the reader (the burn-in of the map) and by the chart. *)
Theorem C80_samples_partial : forall mb pb n_col names (clusters : list bmat) n, clusters <> [] -> same_samples n clusters -> (0 <= mb)%Q -> (mb <= 1)%Q -> (0 <= pb)%Q -> (pb <= 1)%Q ->
  exists i j, i + j <= n /\ rounded_down mb n i /\ rounded_up pb (n - i) j /\
    pies_of mb pb n_col names clusters = plot_pies 0 n_col names (map (skipn (i + j)) clusters).
Proof.
  intros mb pb n_col names clusters n Hne Hs H0 H1 H2 H3. destruct (@drop_skip mb n clusters Hne Hs H0 H1) as (i & Hi & Hr & E).
  destruct (@ceil_index pb (n - i) H2 H3) as (j & Ej & Hj & Rj). exists i, j. conj; auto; [lia|].
  unfold pies_of. rewrite E. unfold plot_pies, bmat in *.
  assert (L1 : match map (skipn i) clusters with [] => 0 | c :: _ => length c end = n - i).
  { destruct clusters; [congruence|]. cbn [map]. rewrite skipn_length. inversion Hs; subst; auto. }
  assert (SS : forall (A : Type) k (l : list A), skipn j (skipn k l) = skipn (k + j) l).
  { intros A k. induction k as [|k IH]; intros [|x l]; simpl; auto. apply skipn_nil. }
  assert (L2 : map (slice_from (Z.of_nat j)) (map (skipn i) clusters) = map (skipn (i + j)) clusters).
  { rewrite map_map. apply map_ext. intros l. rewrite slice_nat. apply SS. }
  assert (L3 : forall m, map (slice_from (Qceiling (m * 0))) (map (skipn (i + j)) clusters) = map (skipn (i + j)) clusters).
  { intros m. rewrite Qmult_0_r. change (Qceiling 0) with (Z.of_nat 0). rewrite <- (map_id (map (skipn (i + j)) clusters)) at 2. apply map_ext. intros l. apply slice_nat. }
  rewrite L1, Ej, L2, L3. reflexivity.
Qed.
Print Assumptions C80_samples_partial.
Example C80_samples_partial_case : demo_five <> [] /\ same_samples 3 demo_five /\ rounded_down (4 # 10) 3 1 /\ rounded_up (2 # 10) 2 1 /\
  exists pies, pies_of (4 # 10) (2 # 10) 2 five_names demo_five = Some pies /\ map p_slices pies = [[1; 0; 0]; [0; 1; 0]; [0; 1; 0]; [0; 0; 1]; [1; 0; 0]]%Z.
Proof.
  conj; [discriminate|repeat constructor|vm_compute; auto|vm_compute; auto|].
  - split; vm_compute; congruence.
  - split; vm_compute; congruence.
  - eexists. split; vm_compute; reflexivity.
Qed.
Theorem C80_samples_refuted : exists clusters names n b, clusters <> [] /\ same_samples n clusters /\ exclusive clusters /\ (0 <= b)%Q /\ (b <= 1)%Q /\
  exists pies, pies_of b b 2 names clusters = Some pies /\
    forall p i, In p pies -> rounded_down b n i \/ rounded_up b n i -> fold_right Z.add 0%Z (p_slices p) <> Z.of_nat (n - i).
Proof.
  exists demo_five, five_names, 3, (1 # 3)%Q. conj; [discriminate|repeat constructor|apply demo_five_exclusive|vm_compute; congruence|vm_compute; congruence|].
  eexists. split; [vm_compute; reflexivity|]. intros p i Hp H. assert (i = 1).
  { assert (E : ((1 # 3) * inject_Z (Z.of_nat 3) == 1)%Q) by reflexivity. unfold rounded_down, rounded_up in H. rewrite E in H.
    destruct H as [[A B]|[A B]].
    - assert (C : (inject_Z (Z.of_nat i) <= inject_Z 1)%Q) by exact A. assert (D : (inject_Z 1 < inject_Z (Z.of_nat i + 1))%Q) by (rewrite inject_Z_plus; exact B).
      rewrite <- Zle_Qle in C. rewrite <- Zlt_Qlt in D. lia.
    - assert (C : (inject_Z 1 <= inject_Z (Z.of_nat i))%Q) by exact A. assert (D : (inject_Z (Z.of_nat i - 1) < inject_Z 1)%Q) by (unfold Z.sub; rewrite inject_Z_plus; exact B).
      rewrite <- Zle_Qle in C. rewrite <- Zlt_Qlt in D. lia. }
  subst i. cbn [In] in Hp. repeat (destruct Hp as [<-|Hp]; [cbn; lia|]). destruct Hp.
Qed.
Print Assumptions C80_samples_refuted.
