(** Lemmas about the plots (C79, C80). *)
From Coq Require Import Lqa.
From Verif Require Import M_plot S_plot L_loggers.
Set Implicit Arguments.
Unset Strict Implicit.
Close Scope Q_scope.
Open Scope nat_scope.

Lemma number_filter A (P : A -> bool) l : length (filter P l) = number P l.
Proof. induction l as [|x r IH]; simpl; auto. destruct (P x); simpl; auto. Qed.
Lemma number_le A (P : A -> bool) l : number P l <= length l.
Proof. induction l as [|x r IH]; simpl; auto. destruct (P x); simpl; lia. Qed.
Lemma number_mono A (P R : A -> bool) l : (forall x, In x l -> P x = true -> R x = true) -> number P l <= number R l.
Proof.
  induction l as [|x r IH]; intros H; simpl; auto. assert (number P r <= number R r) by (apply IH; intros; apply H; auto; right; auto).
  pose proof (H x (or_introl eq_refl)). destruct (P x), (R x); try lia; discriminate H1; auto.
Qed.
Lemma number_and A (P R : A -> bool) l : number P l + number R l <= length l + number (fun x => P x && R x) l.
Proof. induction l as [|x r IH]; simpl; auto. destruct (P x), (R x); simpl; lia. Qed.
Lemma number_ext A (P R : A -> bool) l : (forall x, In x l -> P x = R x) -> number P l = number R l.
Proof. induction l as [|x r IH]; intros H; simpl; auto. rewrite (H x), IH; auto; [|left; auto]. intros y Hy. apply H. right; auto. Qed.
Lemma ratio_some a b : b <> 0 -> ratio a b = Some (inject_Z (Z.of_nat a) / inject_Z (Z.of_nat b))%Q.
Proof. intros H. unfold ratio. destruct (Nat.eqb_spec b 0); congruence. Qed.
Lemma ratio_frequency A (P : A -> bool) l : l <> [] -> ratio (length (filter P l)) (length l) = Some (frequency P l).
Proof. intros H. rewrite number_filter. apply ratio_some. destruct l; simpl; congruence. Qed.
Lemma frequency_le A (P R : A -> bool) l : (forall x, In x l -> P x = true -> R x = true) -> (frequency P l <= frequency R l)%Q.
Proof.
  intros H. unfold frequency, Qdiv. apply Qmult_le_compat_r. 
  - rewrite <- Zle_Qle. apply inj_le. apply number_mono; auto.
  - apply Qinv_le_0_compat. change 0%Q with (inject_Z 0). rewrite <- Zle_Qle. lia.
Qed.
Lemma length_pos A (l : list A) : l <> [] -> (0 < inject_Z (Z.of_nat (length l)))%Q.
Proof. intros H. change 0%Q with (inject_Z 0). rewrite <- Zlt_Qlt. destruct l; simpl in *; [congruence|lia]. Qed.
Lemma frequency_eq A (P : A -> bool) l : l <> [] -> (frequency P l * inject_Z (Z.of_nat (length l)) == inject_Z (Z.of_nat (number P l)))%Q.
Proof. intros H. unfold frequency. apply length_pos in H. field. lra. Qed.
Lemma frequency_and A (P R : A -> bool) l : l <> [] -> (frequency P l + frequency R l <= 1 + frequency (fun x => P x && R x) l)%Q.
Proof.
  intros H. apply (Qmult_le_r _ _ (inject_Z (Z.of_nat (length l)))); [apply length_pos; auto|].
  rewrite !Qmult_plus_distr_l, !frequency_eq, Qmult_1_l by auto. rewrite <- !inject_Z_plus, <- Zle_Qle, <- !Nat2Z.inj_add. apply inj_le, number_and.
Qed.

Lemma ceiling_bounds x : (x <= inject_Z (Qceiling x))%Q /\ (inject_Z (Qceiling x) - 1 < x)%Q.
Proof.
  split; [apply Qle_ceiling|]. pose proof (Qceiling_lt x) as H. unfold Z.sub in H. rewrite inject_Z_plus in H. exact H.
Qed.
Lemma ceil_index b n : (0 <= b)%Q -> (b <= 1)%Q -> exists i, Qceiling (inject_Z (Z.of_nat n) * b) = Z.of_nat i /\ i <= n /\ rounded_up b n i.
Proof.
  intros H0 H1. destruct (ceiling_bounds (inject_Z (Z.of_nat n) * b)) as [B1 B2].
  assert (N : (0 <= inject_Z (Z.of_nat n))%Q) by (change 0%Q with (inject_Z 0); rewrite <- Zle_Qle; lia).
  assert (P0 : (0 <= inject_Z (Z.of_nat n) * b)%Q) by (apply Qmult_le_0_compat; auto).
  assert (P1 : (inject_Z (Z.of_nat n) * b <= inject_Z (Z.of_nat n))%Q) by nra.
  set (z := Qceiling (inject_Z (Z.of_nat n) * b)) in *.
  assert (Z0 : (0 <= z)%Z).
  { rewrite Zle_Qle. change (inject_Z 0) with 0%Q. lra. }
  assert (Z1 : (z <= Z.of_nat n)%Z).
  { assert (z < Z.of_nat n + 1)%Z; [|lia]. rewrite Zlt_Qlt. rewrite inject_Z_plus. change (inject_Z 1) with 1%Q. lra. }
  exists (Z.to_nat z). rewrite Z2Nat.id by auto. conj; auto; [lia|]. unfold rounded_up. rewrite Z2Nat.id by auto. split; lra.
Qed.
Lemma slice_nat A i (l : list A) : slice_from (Z.of_nat i) l = skipn i l.
Proof. unfold slice_from. destruct (Z.ltb_spec (Z.of_nat i) 0); [lia|]. rewrite Nat2Z.id. reflexivity. Qed.
Lemma after_burn_in_spec A b (l : list A) : (0 <= b)%Q -> (b <= 1)%Q -> exists i, i <= length l /\ rounded_up b (length l) i /\ after_burn_in b l = skipn i l.
Proof.
  intros H0 H1. destruct (ceil_index (length l) H0 H1) as (i & E & Hi & R). exists i. conj; auto. unfold after_burn_in. rewrite E. apply slice_nat.
Qed.

(** Selected positions. *)
Lemma indices_in g n o : In o (filter (fun o => nth o g false) (seq 0 n)) <-> o < n /\ nth o g false = true.
Proof. rewrite filter_In, in_seq. split; intros [H1 H2]; split; auto; lia. Qed.
Lemma indices_nodup g n : NoDup (filter (fun o => nth o g false) (seq 0 n)).
Proof. apply NoDup_filter, seq_NoDup. Qed.

(** The entries of a matrix. *)
Lemma in_concat_mapi A B (f : nat -> A -> list B) l : forall k x, In x (concat (mapi_from k f l)) <-> exists i a, nth_error l i = Some a /\ In x (f (k + i) a).
Proof.
  induction l as [|a r IH]; intros k x; simpl.
  - split; [tauto|]. intros (i & a & H & _). destruct i; discriminate.
  - rewrite in_app_iff, IH. split.
    + intros [H|(i & b & H & Hin)]; [exists 0, a; rewrite Nat.add_0_r; auto|]. exists (S i), b. rewrite Nat.add_succ_r. auto.
    + intros (i & b & H & Hin). destruct i as [|i]; simpl in H.
      * injection H as <-. rewrite Nat.add_0_r in Hin. auto.
      * right. exists i, b. rewrite Nat.add_succ_r in Hin. auto.
Qed.
Lemma entries_in m i j : In (i, j) (nonzero_entries m) <-> nth j (nth i m []) false = true.
Proof.
  unfold nonzero_entries, mapi. rewrite in_concat_mapi. split.
  - intros (i' & r & Hr & H). rewrite in_concat_mapi in H. destruct H as (j' & b & Hb & H). destruct b; [|contradiction].
    destruct H as [H|[]]. cbn [Nat.add] in H. injection H as -> ->. rewrite (nth_error_nth _ _ [] Hr). exact (nth_error_nth _ _ false Hb).
  - intros H. destruct (nth_error m i) as [r|] eqn:Er.
    2:{ apply nth_error_None in Er. rewrite (nth_overflow m) in H by auto. destruct j; discriminate. }
    rewrite (nth_error_nth _ _ [] Er) in H. exists i, r. split; auto. rewrite in_concat_mapi.
    destruct (nth_error r j) as [b|] eqn:Eb.
    2:{ apply nth_error_None in Eb. rewrite (nth_overflow r) in H by auto. discriminate. }
    exists j, b. split; auto. rewrite (nth_error_nth _ _ false Eb) in H. subst b. left. reflexivity.
Qed.
Lemma nodup_concat_mapi A B (f : nat -> A -> list B) (key : B -> nat) l : forall k,
  (forall i a x, In x (f i a) -> key x = i) -> (forall i a, NoDup (f i a)) -> NoDup (concat (mapi_from k f l)).
Proof.
  induction l as [|a r IH]; intros k H1 H2; simpl; [constructor|].
  assert (App : forall (u v : list B), NoDup u -> NoDup v -> (forall x, In x u -> ~ In x v) -> NoDup (u ++ v)).
  { intros u v Hu Hv Hd. induction Hu as [|x u Hx Hu IHu]; simpl; auto. constructor.
    - rewrite in_app_iff. intros [H|H]; [auto|]. apply (Hd x); auto. left; auto.
    - apply IHu. intros y Hy. apply Hd. right; auto. }
  apply App; auto. intros x Hx Hin. apply H1 in Hx. rewrite in_concat_mapi in Hin. destruct Hin as (i & b & _ & Hin). apply H1 in Hin. lia.
Qed.
Lemma entries_nodup m : NoDup (nonzero_entries m).
Proof.
  apply nodup_concat_mapi with (key := fst).
  - intros i a x H. unfold mapi in H. rewrite in_concat_mapi in H. destruct H as (j & b & _ & H). destruct b; [|contradiction]. destruct H as [<-|[]]. reflexivity.
  - intros i a. apply nodup_concat_mapi with (key := snd).
    + intros j b x H. destruct b; [|contradiction]. destruct H as [<-|[]]. reflexivity.
    + intros j b. destruct b; repeat constructor. auto.
Qed.

(** The connections: every edge of the matrix once. *)
Definition undirected (e : nat * nat) : nat * nat := edge (fst e) (snd e).
Lemma undirected_eq a b : undirected a = undirected b -> a = b \/ a = (snd b, fst b).
Proof. destruct a as [a1 a2], b as [b1 b2]. unfold undirected, edge. cbn [fst snd]. intros H. injection H as H1 H2.
  destruct (Nat.eq_dec a1 b1) as [->|N]; [left|right]; f_equal; lia.
Qed.
Lemma undirected_swap e : undirected (snd e, fst e) = undirected e.
Proof. unfold undirected, edge. cbn [fst snd]. f_equal; lia. Qed.
Lemma existsb_pair e l : existsb (pair_eqb e) l = true <-> In e l.
Proof.
  rewrite existsb_exists. split.
  - intros (x & Hx & E). unfold pair_eqb in E. apply andb_true_iff in E as [E1 E2]. apply Nat.eqb_eq in E1, E2.
    destruct e as [e1 e2], x as [x1 x2]. cbn [fst snd] in *. subst. auto.
  - intros H. exists e. split; auto. unfold pair_eqb. rewrite !Nat.eqb_refl. reflexivity.
Qed.
Lemma connections_fold todo : forall acc,
  NoDup (map undirected acc) -> NoDup todo -> (forall e, In e acc -> ~ In e todo) ->
  let out := fold_left (fun acc e => if existsb (pair_eqb (snd e, fst e)) acc then acc else acc ++ [e]) todo acc in
  NoDup (map undirected out) /\ (forall e, In e out -> In e acc \/ In e todo) /\
  (forall e, In e acc \/ In e todo -> In (undirected e) (map undirected out)).
Proof.
  induction todo as [|e r IH]; intros acc Ha Ht Hd out.
  - unfold out. simpl. conj; auto. intros e [H|[]]. apply in_map; auto.
  - inversion Ht as [|? ? He Hr]; subst. unfold out. cbn [fold_left].
    destruct (existsb (pair_eqb (snd e, fst e)) acc) eqn:E.
    + destruct (IH acc Ha Hr) as (H1 & H2 & H3); [intros x Hx Hin; apply (Hd x Hx); right; auto|]. conj; auto.
      * intros x Hx. destruct (H2 x Hx); auto. right; right; auto.
      * intros x [Hx|[<-|Hx]]; auto. apply existsb_pair in E. rewrite <- undirected_swap. apply H3. auto.
    + assert (Hn : ~ In (undirected e) (map undirected acc)).
      { rewrite in_map_iff. intros (x & Ex & Hx). destruct (undirected_eq Ex) as [->| ->].
        - apply (Hd e Hx). left; auto.
        - apply existsb_pair in Hx. congruence. }
      destruct (IH (acc ++ [e])) as (H1 & H2 & H3); auto.
      * rewrite map_app. simpl. apply NoDup_Add with (a := undirected e) (l := map undirected acc); [|auto].
        rewrite <- (app_nil_r (map undirected acc)) at 1. apply Add_app.
      * intros x Hx Hin. apply in_app_iff in Hx as [Hx|[<-|[]]]; [|auto]. apply (Hd x Hx). right; auto.
      * conj; auto.
        -- intros x Hx. destruct (H2 x Hx) as [H|H]; [|right; right; auto]. apply in_app_iff in H as [H|[<-|[]]]; auto. right; left; auto.
        -- intros x [Hx|[<-|Hx]]; apply H3; auto; left; apply in_app_iff; auto. right; left; auto.
Qed.
Lemma connections_spec m :
  NoDup (map undirected (delaunay_connections m)) /\ (forall e, In e (delaunay_connections m) -> In e (nonzero_entries m)) /\
  (forall e, In e (nonzero_entries m) -> In (undirected e) (map undirected (delaunay_connections m))).
Proof.
  destruct (@connections_fold (nonzero_entries m) []) as (H1 & H2 & H3); try constructor; auto; [apply entries_nodup|].
  unfold delaunay_connections. conj; auto. intros e He. destruct (H2 e He) as [[]|]; auto.
Qed.

(** Increasing lists of objects. *)
From Coq Require Import Sorted.
Lemma seq_sorted n : forall a, StronglySorted lt (seq a n).
Proof. induction n as [|n IH]; intros a; simpl; constructor; auto. apply Forall_forall. intros x Hx. apply in_seq in Hx. lia. Qed.
Lemma filter_sorted (P : nat -> bool) l : StronglySorted lt l -> StronglySorted lt (filter P l).
Proof.
  induction 1 as [|x r Hr IH Hx]; simpl; [constructor|]. destruct (P x); auto. constructor; auto.
  rewrite Forall_forall in *. intros y Hy. apply filter_In in Hy as [Hy _]. auto.
Qed.
Lemma sorted_nth l : StronglySorted lt l -> forall i j, i < j -> j < length l -> nth i l 0 < nth j l 0.
Proof.
  induction 1 as [|x r Hr IH Hx]; intros i j Hij Hj; [simpl in Hj; lia|]. destruct j as [|j]; [lia|]. simpl in Hj. destruct i as [|i].
  - change (nth 0 (x :: r) 0) with x. change (nth (S j) (x :: r) 0) with (nth j r 0). rewrite Forall_forall in Hx. apply Hx, nth_In. lia.
  - change (nth (S i) (x :: r) 0) with (nth i r 0). change (nth (S j) (x :: r) 0) with (nth j r 0). apply IH; lia.
Qed.
Lemma edge_nth l i j : StronglySorted lt l -> i < length l -> j < length l ->
  edge (nth i l 0) (nth j l 0) = (nth (fst (edge i j)) l 0, nth (snd (edge i j)) l 0).
Proof.
  intros Hl Hi Hj. unfold edge. cbn [fst snd]. destruct (lt_eq_lt_dec i j) as [[H| ->]|H].
  - pose proof (sorted_nth Hl H Hj). rewrite !Nat.min_l, !Nat.max_r by lia. reflexivity.
  - rewrite !Nat.min_id, !Nat.max_id. reflexivity.
  - pose proof (sorted_nth Hl H Hi). rewrite !Nat.min_r, !Nat.max_l by lia. reflexivity.
Qed.
Lemma nth_inj l i j : StronglySorted lt l -> i < length l -> j < length l -> nth i l 0 = nth j l 0 -> i = j.
Proof.
  intros Hl Hi Hj E. destruct (lt_eq_lt_dec i j) as [[H|H]|H]; auto.
  - pose proof (sorted_nth Hl H Hj). lia.
  - pose proof (sorted_nth Hl H Hi). lia.
Qed.

Lemma clear_spec pts i j : no_point_within pts (i, j) = true <-> clear_middle pts (nth i pts (0, 0)%Q) (nth j pts (0, 0)%Q).
Proof.
  unfold no_point_within, clear_middle; change dist2 with sq_dist. cbn [fst snd]. rewrite forallb_forall. split; intros H p Hp.
  - specialize (H p Hp). apply Qle_bool_iff in H. unfold midpoint in H. lra.
  - specialize (H p Hp). apply Qle_bool_iff. unfold midpoint. lra.
Qed.
Lemma clear_sym pts a b : clear_middle pts a b -> clear_middle pts b a.
Proof.
  unfold clear_middle; change dist2 with sq_dist. intros H p Hp. specialize (H p Hp). eapply Qle_trans; [|eapply Qle_trans; [exact H|]].
  - unfold sq_dist. apply Qle_lteq. right. field.
  - unfold sq_dist. cbn [fst snd]. apply Qle_lteq. right. field.
Qed.
Lemma sort_pair_edge e : sort_pair e = undirected e.
Proof. unfold sort_pair, undirected, edge. destruct e as [a b]. cbn [fst snd]. destruct (Nat.leb_spec a b); f_equal; lia. Qed.
Lemma nodup_map_filter A B (f : A -> B) P l : NoDup (map f l) -> NoDup (map f (filter P l)).
Proof.
  induction l as [|x r IH]; simpl; auto. intros H. inversion H as [|? ? Hx Hr]; subst. destruct (P x); simpl; auto. constructor; auto.
  intros Hin. apply Hx. apply in_map_iff in Hin as (y & E & Hy). apply filter_In in Hy as [Hy _]. rewrite <- E. apply in_map; auto.
Qed.
Lemma undirected_edge i j : undirected (edge i j) = edge i j.
Proof. unfold undirected, edge. cbn [fst snd]. f_equal; lia. Qed.
Lemma undirected_idem e : undirected (undirected e) = undirected e.
Proof. destruct e. apply undirected_edge. Qed.

Section Edges.
Variable delaunay : list point -> list (list bool).
Hypothesis Hsq : square_matrix delaunay.
Variable pts : list point.
Definition adjacent (i j : nat) : Prop := nth j (nth i (delaunay pts) []) false = true.
Lemma adjacent_bound i j : adjacent i j -> i < length pts /\ j < length pts /\ i <> j.
Proof.
  unfold adjacent. destruct (Hsq pts) as (H1 & H2 & H3). intros H.
  assert (Hi : i < length (delaunay pts)).
  { destruct (Nat.lt_ge_cases i (length (delaunay pts))) as [|Hge]; auto. rewrite (nth_overflow (delaunay pts)) in H by auto. destruct j; discriminate. }
  assert (Hr : length (nth i (delaunay pts) []) = length pts) by (rewrite Forall_forall in H2; apply H2, nth_In; auto).
  conj; [lia| |].
  - destruct (Nat.lt_ge_cases j (length pts)) as [|Hge]; auto. rewrite (nth_overflow (nth i (delaunay pts) [])) in H by lia. discriminate.
  - intros ->. rewrite H3 in H. discriminate.
Qed.
Lemma gabriel_spec edges : gabriel_graph (delaunay pts) pts = Some edges ->
  NoDup (map undirected edges) /\ (forall e, In e edges -> fst e < snd e /\ snd e < length pts) /\
  (forall i j, i < j -> (In (i, j) edges <-> (adjacent i j \/ adjacent j i) /\ clear_middle pts (nth i pts (0, 0)%Q) (nth j pts (0, 0)%Q))).
Proof.
  unfold gabriel_graph. destruct (connections_spec (delaunay pts)) as (C1 & C2 & C3).
  destruct (delaunay_connections (delaunay pts)) as [|c0 cs0] eqn:Ec; [discriminate|]. rewrite <- Ec in *. set (cs := delaunay_connections (delaunay pts)) in *.
  intros E. assert (Ee : edges = map undirected (filter (no_point_within pts) cs)).
  { injection E as <-. unfold cs. apply map_ext. intros e. apply sort_pair_edge. }
  subst edges. rewrite map_map. rewrite (map_ext _ _ undirected_idem). conj.
  - apply nodup_map_filter; auto.
  - intros e He. apply in_map_iff in He as ((i & j) & <- & He). apply filter_In in He as [He _]. apply C2, entries_in in He.
    destruct (adjacent_bound He) as (Hi & Hj & N). unfold undirected, edge. cbn [fst snd]. lia.
  - intros i j Hij. rewrite in_map_iff. split.
    + intros ((a & b) & Eab & He). apply filter_In in He as [He Hc]. apply C2, entries_in in He. apply clear_spec in Hc.
      unfold undirected, edge in Eab. cbn [fst snd] in Eab. injection Eab as E1 E2.
      destruct (Nat.eq_dec a i) as [->|N].
      * assert (b = j) by lia. subst b. split; [left|]; auto.
      * assert (a = j /\ b = i) as [-> ->] by lia. split; [right; auto|]. apply clear_sym; auto.
    + intros [Ha Hc].
      assert (In (i, j) (map undirected cs)).
      { destruct Ha as [Ha|Ha]; apply entries_in, C3 in Ha; unfold undirected at 1, edge in Ha; cbn [fst snd] in Ha.
        - rewrite Nat.min_l, Nat.max_r in Ha by lia. exact Ha.
        - rewrite Nat.min_r, Nat.max_l in Ha by lia. exact Ha. }
      apply in_map_iff in H as ((a & b) & Eab & He). exists (a, b). split; auto. apply filter_In. split; auto.
      unfold undirected, edge in Eab. cbn [fst snd] in Eab. injection Eab as E1 E2. apply clear_spec.
      destruct (Nat.eq_dec a i) as [->|N].
      * assert (b = j) by lia. subst b. auto.
      * assert (a = j /\ b = i) as [-> ->] by lia. apply clear_sym; auto.
Qed.
Lemma consensus_connections t n edges : graph_connections delaunay (Consensus t) n pts = Some edges ->
  NoDup (map undirected edges) /\ (forall e, In e edges -> fst e <> snd e /\ fst e < length pts /\ snd e < length pts) /\
  (forall i j, i < j -> j < length pts -> (In (i, j) (map undirected edges) <->
     length pts <= 3 \/ (adjacent i j \/ adjacent j i) /\ clear_middle pts (nth i pts (0, 0)%Q) (nth j pts (0, 0)%Q))).
Proof.
  unfold graph_connections. destruct (Nat.ltb_spec 3 (length pts)) as [H3|H3].
  - intros E. destruct (gabriel_spec E) as (G1 & G2 & G3). conj; auto.
    + intros e He. apply G2 in He. lia.
    + intros i j Hij Hj. rewrite <- (G3 i j Hij). replace (map undirected edges) with edges.
      * split; [intros H; right; exact H|intros [H|H]; [lia|exact H]].
      * rewrite <- (map_id edges) at 1. apply map_ext_in. intros [a b] He. apply G2 in He. cbn [fst snd] in He. unfold undirected, edge. cbn [fst snd]. f_equal; lia.
  - destruct (Nat.eqb_spec (length pts) 3) as [E3|N3]; [|destruct (Nat.eqb_spec (length pts) 2) as [E2|N2]]; intros E; injection E as <-.
    + conj.
      * cbv. repeat constructor; cbv; intuition discriminate.
      * intros e [<-|[<-|[<-|[]]]]; cbn [fst snd]; lia.
      * intros i j Hij Hj. split; [auto|]. intros _. cbv [map undirected edge fst snd Nat.min Nat.max].
        assert (D : (i = 0 /\ j = 1) \/ (i = 1 /\ j = 2) \/ (i = 0 /\ j = 2)) by lia. destruct D as [[-> ->]|[[-> ->]|[-> ->]]]; simpl; auto.
    + conj.
      * cbv. repeat constructor; cbv; intuition discriminate.
      * intros e [<-|[]]; cbn [fst snd]; lia.
      * intros i j Hij Hj. split; [auto|]. intros _. assert (i = 0 /\ j = 1) as [-> ->] by lia. left. reflexivity.
    + conj.
      * constructor.
      * intros e [].
      * intros i j Hij Hj. split; [intros []|]. lia.
Qed.
End Edges.

(** * Several clusters *)
Lemma nth_skipn A (d : A) i : forall l t, nth t (skipn i l) d = nth (i + t) l d.
Proof. induction i as [|i IH]; intros [|x l] t; simpl; auto. destruct t; auto. Qed.
Lemma is_in_skipn i clusters c t o : is_in (map (skipn i) clusters) c t o <-> is_in clusters c (i + t) o.
Proof.
  unfold is_in. rewrite <- (nth_skipn [] i (nth c clusters []) t). 
  replace (nth c (map (skipn i) clusters) []) with (skipn i (nth c clusters [])); [reflexivity|].
  rewrite <- (map_nth (skipn i) clusters [] c). rewrite skipn_nil. reflexivity.
Qed.
Lemma exclusive_skipn i clusters : exclusive clusters -> exclusive (map (skipn i) clusters).
Proof. intros H c c' t o H1 H2. rewrite is_in_skipn in H1, H2. eapply H; eauto. Qed.
Lemma same_skipn i n clusters : same_samples n clusters -> same_samples (n - i) (map (skipn i) clusters).
Proof. unfold same_samples. rewrite !Forall_forall. intros H c Hc. apply in_map_iff in Hc as (c0 & <- & Hc). rewrite skipn_length, H; auto. Qed.
Lemma one_or_none (P : list (list bool) -> bool) clusters :
  (forall c c', nth_error clusters c <> None -> nth_error clusters c' <> None -> P (nth c clusters []) = true -> P (nth c' clusters []) = true -> c = c') ->
  list_sum (map (fun c => if P c then 1 else 0) clusters) + (if forallb (fun c => negb (P c)) clusters then 1 else 0) = 1.
Proof.
  induction clusters as [|x r IH]; intros H; auto. cbn [map forallb list_sum fold_right].
  change (fold_right Nat.add 0 (map (fun c => if P c then 1 else 0) r)) with (list_sum (map (fun c => if P c then 1 else 0) r)).
  assert (Hr : forall c c', nth_error r c <> None -> nth_error r c' <> None -> P (nth c r []) = true -> P (nth c' r []) = true -> c = c').
  { intros c c' A B Pc Pc'. assert (S c = S c'); [|lia]. apply H; auto. }
  specialize (IH Hr). destruct (P x) eqn:Ex; simpl; [|exact IH].
  assert (E : forallb (fun c => negb (P c)) r = true).
  { apply forallb_forall. intros y Hy. destruct (P y) eqn:Ey; auto. exfalso. apply (In_nth _ _ []) in Hy as (j & Hj & <-).
    assert (0 = S j); [|lia]. apply H; auto; simpl; try discriminate. apply nth_error_Some. auto. }
  rewrite E in IH. change (fold_right Nat.add 0 (map (fun c => if P c then 1 else 0) r)) with (list_sum (map (fun c => if P c then 1 else 0) r)). lia.
Qed.
Lemma sum_number_cons (P : list bool -> bool) n clusters : same_samples (S n) clusters ->
  list_sum (map (number P) clusters) = list_sum (map (fun c => if P (nth 0 c []) then 1 else 0) clusters) + list_sum (map (number P) (map (skipn 1) clusters)).
Proof.
  induction clusters as [|x r IH]; intros H; simpl; auto. inversion H as [|? ? Hx Hr]; subst. specialize (IH Hr).
  change (fold_right Nat.add 0 ?l) with (list_sum l) in *. unfold list_sum in *. destruct x as [|a x]; [discriminate|]. simpl. simpl in IH. lia.
Qed.
Lemma number_map A B (f : A -> B) P l : number P (map f l) = number (fun x => P (f x)) l.
Proof. induction l; simpl; auto. Qed.
Lemma count_partition o n : forall clusters, same_samples n clusters -> exclusive clusters ->
  list_sum (map (number (has o)) clusters) + number (in_none o clusters) (seq 0 n) = n.
Proof.
  induction n as [|n IH]; intros clusters Hs He.
  - simpl. rewrite Nat.add_0_r. induction clusters as [|c r IHc]; auto. inversion Hs as [|? ? Hc Hr]; subst.
    destruct c; [|discriminate]. simpl. apply IHc; auto. intros a b t x A B. assert (S a = S b); [|lia]. apply (He (S a) (S b) t x A B).
  - rewrite (sum_number_cons (has o) Hs). pose proof (same_skipn 1 Hs) as Hs1. rewrite Nat.sub_succ, Nat.sub_0_r in Hs1.
    specialize (IH _ Hs1 (@exclusive_skipn 1 _ He)). change (seq 0 (S n)) with (0 :: seq 1 n). cbn [number]. rewrite <- seq_shift, number_map.
    assert (E : number (in_none o (map (skipn 1) clusters)) (seq 0 n) = number (fun t => in_none o clusters (S t)) (seq 0 n)).
    { apply number_ext. intros t _. unfold in_none. clear. induction clusters as [|c r IHc]; cbn [map forallb]; auto. rewrite nth_skipn, IHc. reflexivity. }
    rewrite E in IH. pose proof (@one_or_none (fun c => has o (nth 0 c [])) clusters) as O.
    specialize (O (fun c c' _ _ A B => He c c' 0 o A B)).
    cbv beta in O. fold (in_none o clusters 0) in O. lia.
Qed.
Lemma sum_cons A (f : A -> nat) a r : list_sum (map f (a :: r)) = f a + list_sum (map f r).
Proof. reflexivity. Qed.
Lemma sum_one A (f : A -> nat) l : forall c x, nth_error l c = Some x -> f x <= list_sum (map f l).
Proof.
  induction l as [|a r IH]; intros [|c] x H; try discriminate H; rewrite sum_cons; cbn [nth_error] in H; [injection H as ->; lia|].
  apply IH in H. lia.
Qed.
Lemma sum_two A (f : A -> nat) l : forall c c' x y, nth_error l c = Some x -> nth_error l c' = Some y -> c <> c' -> f x + f y <= list_sum (map f l).
Proof.
  induction l as [|a r IH]; intros [|c] [|c'] x y H1 H2 N; try discriminate H1; try congruence; rewrite sum_cons; cbn [nth_error] in H1, H2.
  - injection H1 as ->. apply (sum_one f) in H2. lia.
  - injection H2 as ->. apply (sum_one f) in H1. lia.
  - assert (N' : c <> c') by congruence. pose proof (IH _ _ _ _ H1 H2 N'). lia.
Qed.
Lemma after_zero A (l : list A) : after_burn_in 0 l = l.
Proof. unfold after_burn_in. rewrite Qmult_0_r. reflexivity. Qed.
Lemma graph_member delaunay t locations cl g l o : clusters_to_graph delaunay (Consensus t) 0 locations cl = Some (g, l) -> nth o g false = true ->
  cl <> [] /\ (t <= frequency (has o) cl)%Q.
Proof.
  unfold clusters_to_graph. rewrite after_zero.
  destruct (graph_connections delaunay (Consensus t) (length locations) _) as [edges|]; [|discriminate].
  intros H Ho. assert (Eg : g = in_graph (Consensus t) (length locations) cl) by congruence. clear H. subst g. unfold in_graph in Ho.
  set (f := fun o => match ratio (count_member o cl) (length cl) with Some q => Qle_bool t q | None => false end) in *.
  destruct (Nat.lt_ge_cases o (length locations)) as [Hlt|Hge]; [|rewrite nth_overflow in Ho by (rewrite map_length, seq_length; auto); discriminate].
  rewrite (nth_indep _ false (f 0)) in Ho by (rewrite map_length, seq_length; auto). rewrite map_nth, seq_nth in Ho by auto. unfold f in Ho. cbn [Nat.add] in Ho.
  assert (Hne : cl <> []) by (intros ->; discriminate). split; auto. unfold count_member in Ho.
  rewrite (@ratio_frequency _ (fun s => nth o s false) cl Hne) in Ho. apply Qle_bool_iff in Ho. exact Ho.
Qed.
Lemma two_clusters n o clusters c c' x y : same_samples n clusters -> exclusive clusters -> nth_error clusters c = Some x -> nth_error clusters c' = Some y -> c <> c' ->
  x <> [] -> (frequency (has o) x + frequency (has o) y <= 1)%Q.
Proof.
  intros Hs He Hx Hy N Hne. pose proof (count_partition o Hs He) as P. pose proof (sum_two (number (has o)) Hx Hy N) as T.
  assert (Lx : length x = n) by (unfold same_samples in Hs; rewrite Forall_forall in Hs; apply Hs; eapply nth_error_In; eauto).
  assert (Ly : length y = n) by (unfold same_samples in Hs; rewrite Forall_forall in Hs; apply Hs; eapply nth_error_In; eauto).
  assert (Hney : y <> []) by (destruct y; [destruct x; simpl in *; congruence|discriminate]).
  apply (Qmult_le_r _ _ (inject_Z (Z.of_nat n))); [rewrite <- Lx; apply length_pos; auto|].
  rewrite Qmult_plus_distr_l. rewrite <- Lx at 1. rewrite <- Ly at 1. rewrite !frequency_eq, Qmult_1_l by auto. rewrite <- inject_Z_plus, <- Zle_Qle. lia.
Qed.
(** ** Pies *)
Lemma in_none_skipn o i clusters t : in_none o (map (skipn i) clusters) t = in_none o clusters (i + t).
Proof. unfold in_none. induction clusters as [|c r IH]; auto. cbn [map forallb]. rewrite IH, nth_skipn. reflexivity. Qed.
Lemma none_skipn o i n clusters : number (in_none o (map (skipn i) clusters)) (seq 0 n) = number (in_none o clusters) (seq i n).
Proof.
  replace (seq i n) with (map (fun t => i + t) (seq 0 n)); [rewrite number_map; apply number_ext; intros t _; apply in_none_skipn|].
  induction i as [|i IH]; [apply map_id|]. rewrite <- seq_shift, <- IH, map_map. apply map_ext. intros t. lia.
Qed.
Lemma zsum_of_nat A (f : A -> nat) l : fold_right Z.add 0%Z (map (fun x => Z.of_nat (f x)) l) = Z.of_nat (list_sum (map f l)).
Proof. induction l as [|x r IH]; auto. rewrite sum_cons, Nat2Z.inj_add, <- IH. reflexivity. Qed.
Lemma zsum_app l x : fold_right Z.add 0%Z (l ++ [x]) = (fold_right Z.add 0 l + x)%Z.
Proof. induction l as [|y r IH]; simpl; [lia|]. rewrite IH. lia. Qed.
Lemma ceil_div_bounds a b : 1 <= b -> a <= ceil_div a b * b /\ ceil_div a b * b < a + b.
Proof.
  intros H. unfold ceil_div. pose proof (Nat.div_mod (a + b - 1) b ltac:(lia)). pose proof (Nat.mod_upper_bound (a + b - 1) b ltac:(lia)). nia.
Qed.
