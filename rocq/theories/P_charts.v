(** C81: what the plots show of a run, whatever the labels of the clusters. *)
From Coq Require Import QArith Lqa.
From Verif Require Import Base M_util S_cache M_text M_loggers S_loggers L_loggers M_charts S_plot L_plot S_charts L_charts P_loggers P_plot P_pies.
Close Scope Q_scope.
Open Scope nat_scope.

Lemma logged_clusters_spec K n disk s ss : 1 <= K -> 1 <= n -> Forall (wf_sample K n) (s :: ss) -> Forall (fun x => disjoint_groups (ls_clusters x)) (s :: ss) ->
  exists res, logged_clusters disk (s :: ss) = Some res /\ length res = K /\ same_samples (length (s :: ss)) res /\ exclusive res /\
    (forall o t x, nth_error (s :: ss) t = Some x -> in_none o res t = free o (ls_clusters x)) /\
    (forall p q t x, nth_error (s :: ss) t = Some x ->
      list_sum (map (fun c => if has_both p q (nth t c []) then 1 else 0) res) = if together p q (ls_clusters x) then 1 else 0).
Proof.
  intros HK Hn Hw Hd. destruct (@C29_round_trip K n disk s ss HK Hn Hw) as (ps & lg & content & res & HL & Hr & Hc & Hres & Lr & He).
  exists res. unfold logged_clusters. rewrite Hr, Hc.
  set (samples := map ls_clusters (s :: ss)) in *.
  assert (Lps : length ps = length samples) by (eapply labelled_length; eauto).
  assert (Hp : Forall (is_perm K) ps) by (eapply labelled_perms; eauto).
  assert (Hsh : Forall (fun cl : bmat => length cl = K) samples).
  { unfold samples. rewrite Forall_map. eapply Forall_impl; [|exact Hw]. intros x [[E _] _]. exact E. }
  assert (Hdj : Forall disjoint_groups samples) by (unfold samples; rewrite Forall_map; exact Hd).
  assert (Ent : forall i, i < K -> length (nth i res []) = length samples /\
    forall t p x, nth_error ps t = Some p -> nth_error samples t = Some x -> nth_error (nth i res []) t = Some (nth (nth i p 0) x [])).
  { intros i Hi. destruct (He i Hi) as [E1 E2]. split; [unfold samples; rewrite map_length; exact E1|]. intros t p x Ep Ex.
    unfold samples in Ex. rewrite nth_error_map in Ex. destruct (nth_error (s :: ss) t) as [y|] eqn:Ey; [|discriminate]. injection Ex as <-. apply (E2 t p y); auto. }
  assert (At : forall t x, nth_error (s :: ss) t = Some x -> nth_error samples t = Some (ls_clusters x)).
  { intros t x Hx. unfold samples. rewrite nth_error_map, Hx. reflexivity. }
  conj; auto.
  - replace (length (s :: ss)) with (length samples) by (unfold samples; apply map_length). eapply relabelled_same; eauto.
  - eapply relabelled_exclusive with (K := K) (samples := samples) (ps := ps); eauto.
  - intros o t x Hx. eapply relabelled_free with (K := K) (samples := samples) (ps := ps); eauto.
  - intros p q t x Hx. eapply relabelled_together with (K := K) (samples := samples) (ps := ps); eauto.
Qed.

(** The last slice of the chart of an object is the number of samples kept in which it is in no cluster, and the
    slices together are the samples kept. *)
Theorem C81_charts : forall K n disk s ss mb pb n_col names, 1 <= K -> Forall (wf_sample K n) (s :: ss) -> Forall (fun x => disjoint_groups (ls_clusters x)) (s :: ss) ->
  (0 <= mb)%Q -> (mb <= 1)%Q -> (0 <= pb)%Q -> (pb <= 1)%Q -> length names = n -> 2 <= n_col -> n_col < n ->
  exists i j pies, i + j <= length (s :: ss) /\ rounded_down mb (length (s :: ss)) i /\ rounded_up pb (length (s :: ss) - i) j /\
    pies_of_run mb pb n_col names disk (s :: ss) = Some pies /\ length pies = n /\
    forall o p, nth_error pies o = Some p ->
      nth K (p_slices p) 0%Z = Z.of_nat (number (fun x => free o (ls_clusters x)) (skipn (i + j) (s :: ss))) /\
      fold_right Z.add 0%Z (p_slices p) = Z.of_nat (length (s :: ss) - (i + j)).
Proof.
  intros K n disk s ss mb pb n_col names HK Hw Hd M0 M1 B0 B1 Ln Hc Hlt.
  destruct (@logged_clusters_spec K n disk s ss HK ltac:(lia) Hw Hd) as (res & El & Lr & Hs & He & Hfree & _). set (N := length (s :: ss)) in *.
  assert (Hne : res <> []) by (destruct res; [simpl in Lr; lia|discriminate]).
  destruct (@C80_samples_partial mb pb n_col names res N Hne Hs M0 M1 B0 B1) as (i & j & Hij & Ri & Rj & E).
  set (cs := map (skipn (i + j)) res) in *.
  destruct (@C80_pies 0 n_col names cs (N - (i + j))) as (z & n_row & pies & Rz & _ & _ & _ & Ep & Lp & H).
  { unfold cs. destruct res; [congruence|discriminate]. }
  { apply same_skipn; auto. }
  { apply exclusive_skipn; auto. }
  { apply Qle_refl. }
  { vm_compute; congruence. }
  { auto. }
  { lia. }
  assert (z = 0).
  { destruct Rz as [_ Rz]. rewrite Qmult_0_l in Rz. assert (D : (inject_Z (Z.of_nat z) < inject_Z 1)%Q) by (change (inject_Z 1) with 1%Q; lra). rewrite <- Zlt_Qlt in D. lia. }
  subst z. exists i, j, pies. conj; auto.
  - unfold pies_of_run. rewrite El, E. exact Ep.
  - lia.
  - intros o p Hp. destruct (H o p Hp) as (_ & _ & _ & _ & G & S). rewrite Nat.sub_0_r in G, S. conj; auto.
    assert (Lcs : length cs = K) by (unfold cs; transitivity (length res); [apply map_length|exact Lr]).
    rewrite <- Lcs. etransitivity; [exact G|]. f_equal. unfold cs. rewrite none_skipn. apply number_skip. intros t x Hx. apply Hfree; auto.
Qed.
Print Assumptions C81_charts.

(** On the density map, the weights of the lines of two objects over all clusters sum to the fraction of the samples kept with
    both in the same cluster. *)
Theorem C81_pairs : forall K n disk s ss b delaunay locations, 1 <= K -> 1 <= n -> Forall (wf_sample K n) (s :: ss) -> Forall (fun x => disjoint_groups (ls_clusters x)) (s :: ss) ->
  (0 <= b)%Q -> (b <= 1)%Q -> length locations = n ->
  exists i j gs, i + j <= length (s :: ss) /\ rounded_down b (length (s :: ss)) i /\ rounded_up b (length (s :: ss) - i) j /\
    density_of_run delaunay b locations disk (s :: ss) = Some gs /\ length gs = K /\
    forall p q, p < q -> q < n -> i + j < length (s :: ss) ->
      exists ws, Forall2 (fun g w => In (p, q, Some w) (snd g)) gs ws /\
        (Qsum ws == frequency (fun x => together p q (ls_clusters x)) (skipn (i + j) (s :: ss)))%Q.
Proof.
  intros K n disk s ss b delaunay locations HK Hn Hw Hd B0 B1 Ln.
  destruct (@logged_clusters_spec K n disk s ss HK Hn Hw Hd) as (res & El & Lr & Hs & He & _ & Ht). set (N := length (s :: ss)) in *.
  assert (Hne : res <> []) by (destruct res; [simpl in Lr; lia|discriminate]).
  destruct (@C79_samples_partial delaunay Density b locations res N Hne Hs B0 B1) as (i & j & Hij & Ri & Rj & E).
  set (cs := map (skipn (i + j)) res) in *.
  assert (G : forall c, exists lines, clusters_to_graph delaunay Density 0 locations c = Some (repeat true (length locations), lines) /\
    forall p q, p < q -> q < n -> c <> [] -> In (p, q, Some (frequency (has_both p q) c)) lines).
  { intros c. destruct (@C79_density delaunay 0 locations c) as (z & lines & _ & Rz & Ec & _ & Hl); [apply Qle_refl|vm_compute; congruence|].
    assert (z = 0).
    { destruct Rz as [_ Rz]. rewrite Qmult_0_l in Rz. assert (D : (inject_Z (Z.of_nat z) < inject_Z 1)%Q) by (change (inject_Z 1) with 1%Q; lra). rewrite <- Zlt_Qlt in D. lia. }
    subst z. exists lines. split; auto. intros p q Hpq Hq Hc. apply Hl. conj; auto; [lia|]. cbn [skipn]. destruct c; [congruence|reflexivity]. }
  assert (All : exists gs, all_opt (map (clusters_to_graph delaunay Density 0 locations) cs) = Some gs /\ length gs = length cs /\
    forall p q, p < q -> q < n -> Forall (fun c => c <> []) cs -> Forall2 (fun g w => In (p, q, Some w) (snd g)) gs (map (frequency (has_both p q)) cs)).
  { generalize cs as l. clear - G. induction l as [|c r IH].
    - exists []. conj; auto. intros. constructor.
    - destruct (G c) as (lines & Ec & Hl). destruct IH as (gs & Er & Lg & Hf). exists ((repeat true (length locations), lines) :: gs). conj.
      + cbn [map all_opt]. rewrite Ec. fold (@all_opt (list bool * list (nat * nat * option Q))). rewrite Er. reflexivity.
      + cbn [length]. rewrite Lg. reflexivity.
      + intros p q Hpq Hq HF. inversion HF as [|? ? Hc Hr]; subst. cbn [map]. constructor; [cbn [snd]; apply Hl; auto|apply Hf; auto]. }
  destruct All as (gs & Eg & Lg & Hf). exists i, j, gs. conj; auto.
  - unfold density_of_run. rewrite El, E. exact Eg.
  - transitivity (length cs); auto. unfold cs. transitivity (length res); [apply map_length|exact Lr].
  - intros p q Hpq Hq Hlt. exists (map (frequency (has_both p q)) cs).
    assert (Hsc : same_samples (N - (i + j)) cs) by (apply same_skipn; auto).
    split.
    + apply Hf; auto. eapply Forall_impl; [|exact Hsc]. intros c Lc ->. cbn [length] in Lc. lia.
    + assert (Q1 : forall l, same_samples (N - (i + j)) l -> (Qsum (map (frequency (has_both p q)) l) == inject_Z (Z.of_nat (list_sum (map (number (has_both p q)) l))) / inject_Z (Z.of_nat (N - (i + j))))%Q).
      { assert (Pos : ~ (inject_Z (Z.of_nat (N - (i + j))) == 0)%Q).
        { change 0%Q with (inject_Z 0). rewrite inject_Z_injective. lia. }
        induction l as [|c r IH]; intros HF.
        - cbn [map Qsum list_sum fold_right]. field. exact Pos.
        - inversion HF as [|? ? Hc Hr]; subst. change (Qsum (map (frequency (has_both p q)) (c :: r))) with (frequency (has_both p q) c + Qsum (map (frequency (has_both p q)) r))%Q.
          rewrite (IH Hr), sum_cons, Nat2Z.inj_add, inject_Z_plus. unfold frequency. rewrite Hc. field. exact Pos. }
      rewrite (Q1 cs Hsc). unfold frequency. rewrite skipn_length. fold N. 
      assert (Num : list_sum (map (number (has_both p q)) cs) = number (fun x => together p q (ls_clusters x)) (skipn (i + j) (s :: ss))).
      { rewrite (sum_numbers _ Hsc). rewrite number_as_sum.
        assert (Ex : forall (l : list lsample) k, (forall t x, nth_error l t = Some x -> nth_error (s :: ss) (k + t) = Some x) ->
          list_sum (map (fun t => list_sum (map (fun c : list (list bool) => if has_both p q (nth (k + t) c []) then 1 else 0) res)) (seq 0 (length l))) = list_sum (map (fun x => if together p q (ls_clusters x) then 1 else 0) l)).
        { clear - Ht. induction l as [|x r IH]; intros k H; auto. cbn [length seq]. rewrite !sum_cons. f_equal.
          - apply Ht. apply H. reflexivity.
          - rewrite <- (IH (S k)).
            + rewrite <- seq_shift, map_map. f_equal. apply map_ext. intros t. f_equal. apply map_ext. intros c. rewrite Nat.add_succ_r. reflexivity.
            + intros t y Hy. cbn [Nat.add]. rewrite <- Nat.add_succ_r. apply H. exact Hy. }
        rewrite <- (Ex (skipn (i + j) (s :: ss)) (i + j)).
        - rewrite skipn_length. fold N. f_equal. apply map_ext. intros t. f_equal. unfold cs. rewrite map_map. apply map_ext. intros c. rewrite nth_skipn. reflexivity.
        - intros t x Hx. rewrite <- Hx. generalize (s :: ss) as l, (i + j) as k. clear. intros l k. revert l. induction k as [|k IH]; intros [|y l]; simpl; auto. destruct t; auto. }
      rewrite Num. reflexivity.
Qed.
Print Assumptions C81_pairs.

(** Two clusters and five objects; the labels of the second and third sample are exchanged by the logger. *)
Definition demo_ls (cl : bmat) : lsample := {| ls_step := 0; ls_lh := 0; ls_prior := 0; ls_clusters := cl; ls_weights := []; ls_ce := [[]; []]; ls_cf := [] |}.
Definition demo_run : list lsample := map demo_ls
  [[[true; true; false; false; false]; [false; false; true; true; false]];
   [[false; false; false; true; true]; [true; true; true; false; false]];
   [[true; false; true; false; true]; [false; true; false; false; false]]].
Example C81_charts_case : Forall (wf_sample 2 5) demo_run /\ Forall (fun x => disjoint_groups (ls_clusters x)) demo_run /\
  exists pies, pies_of_run 0 (2 # 10) 2 five_names None demo_run = Some pies /\ map p_slices pies = [[1; 1; 0]; [2; 0; 0]; [1; 1; 0]; [0; 1; 1]; [0; 2; 0]]%Z.
Proof.
  conj.
  - repeat constructor.
  - repeat apply Forall_cons; try apply Forall_nil;
    (intros o i j A B; destruct i as [|[|i]]; destruct j as [|[|j]]; auto; exfalso;
     destruct o as [|[|[|[|[|o]]]]]; cbn in A, B; try discriminate; try (destruct i; discriminate); try (destruct j; discriminate); try (destruct o; discriminate)).
  - eexists. split; vm_compute; reflexivity.
Qed.
Example C81_pairs_case : exists gs, density_of_run join_all 0 [(0, 0); (1, 0); (0, 1); (1, 1); (2, 2)]%Q None demo_run = Some gs /\
  map (fun g => existsb (fun l => match l with (0, 2, Some w) => Qeq_bool w (1 # 3) | _ => false end) (snd g)) gs = [true; true] /\
  (frequency (fun x => together 0 2 (ls_clusters x)) demo_run == 2 # 3)%Q.
Proof. eexists. conj; vm_compute; reflexivity. Qed.
