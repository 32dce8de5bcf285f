(** Lemmas for C65: Kruskal's algorithm gives the cheapest connection, in a strong sense. *)
From Coq Require Import QArith Reals Qreals Permutation Sorted Lqa.
From Verif Require Import S_geo.
Set Implicit Arguments.
Unset Strict Implicit.
Open Scope Q_scope.

Definition ends (x : edge) : nat * nat := fst x.
Definition within (n : nat) (x : edge) : Prop := (fst (fst x) < n)%nat /\ (snd (fst x) < n)%nat.

(** * Connection *)
Lemma joined_incl es es' u v : (forall x, In x es -> In x es') -> joined es u v -> joined es' u v.
Proof.
  intros H. induction 1; [apply j_refl|eapply j_edge; eauto|apply j_sym; auto|eapply j_trans; eauto].
Qed.
Lemma joined_sub es es' u v : (forall a b q, In (a, b, q) es -> joined es' a b) -> joined es u v -> joined es' u v.
Proof.
  intros H. induction 1; [apply j_refl|eauto|apply j_sym; auto|eapply j_trans; eauto].
Qed.
Lemma joined_snoc_cases es i j q u v : joined (es ++ [(i, j, q)]) u v ->
  joined es u v \/ (joined es u i /\ joined es j v) \/ (joined es u j /\ joined es i v).
Proof.
  induction 1 as [u|u v q' H|u v H IH|u v w H1 IH1 H2 IH2].
  - left; apply j_refl.
  - apply in_app_or in H as [H|[[= <- <- <-]|[]]]; [left; eapply j_edge; eauto|]. right; left. split; apply j_refl.
  - destruct IH as [IH|[[A B]|[A B]]]; [left; apply j_sym; auto|right; right|right; left]; split; apply j_sym; auto.
  - destruct IH1 as [A|[[A B]|[A B]]], IH2 as [C|[[C D]|[C D]]].
    + left; eapply j_trans; eauto.
    + right; left; split; auto; eapply j_trans; eauto.
    + right; right; split; auto; eapply j_trans; eauto.
    + right; left; split; auto; eapply j_trans; eauto.
    + right; left; split; auto.
    + left. eapply j_trans; eauto.
    + right; right; split; auto; eapply j_trans; eauto.
    + left. eapply j_trans; eauto.
    + right; right; split; auto.
Qed.

(** * Labels *)
Definition classes (lab : list nat) : nat := length (nodup Nat.eq_dec lab).
Definition rep (n : nat) (lab : list nat) (es : list edge) : Prop :=
  length lab = n /\ forall u v, (u < n)%nat -> (v < n)%nat -> (nth u lab 0%nat = nth v lab 0%nat <-> joined es u v).

Lemma rep_start n : rep n (seq 0 n) [].
Proof.
  split; [apply seq_length|]. intros u v Hu Hv. rewrite !seq_nth by auto. split.
  - intros H. simpl in H. subst. apply j_refl.
  - assert (G : forall u v, joined [] u v -> u = v) by (induction 1; simpl in *; try contradiction; congruence).
    intros H. rewrite (G _ _ H). reflexivity.
Qed.
Lemma nth_relabel a b lab u : (u < length lab)%nat ->
  nth u (relabel a b lab) 0%nat = if Nat.eqb (nth u lab 0%nat) a then b else nth u lab 0%nat.
Proof.
  intros H. unfold relabel. rewrite (nth_indep _ 0%nat (if Nat.eqb 0 a then b else 0%nat)) by (rewrite map_length; auto).
  rewrite (map_nth (fun l => if Nat.eqb l a then b else l)). reflexivity.
Qed.
Lemma rep_merge n lab es i j q : rep n lab es -> (i < n)%nat -> (j < n)%nat ->
  rep n (relabel (nth i lab 0%nat) (nth j lab 0%nat) lab) (es ++ [(i, j, q)]).
Proof.
  intros [Hl H] Hi Hj. split; [unfold relabel; rewrite map_length; auto|]. intros u v Hu Hv.
  rewrite !nth_relabel by lia.
  assert (W : forall a b, joined es a b -> joined (es ++ [(i, j, q)]) a b) by (intros a b; apply joined_incl; intros x Hx; apply in_or_app; auto).
  assert (E : joined (es ++ [(i, j, q)]) i j) by (apply (j_edge (q := q)); apply in_or_app; simpl; auto).
  split.
  - intros Huv. destruct (Nat.eqb_spec (nth u lab 0%nat) (nth i lab 0%nat)) as [Eu|Eu], (Nat.eqb_spec (nth v lab 0%nat) (nth i lab 0%nat)) as [Ev|Ev].
    + apply W. apply H; auto. congruence.
    + apply H in Eu; auto. apply H in Huv; auto. eapply j_trans; [apply W, Eu|]. eapply j_trans; [exact E|apply W; auto].
    + apply H in Ev; auto. apply H in Huv; auto. eapply j_trans; [apply W, Huv|]. eapply j_trans; [apply j_sym, E|apply W, j_sym; auto].
    + apply W, H; auto.
  - intros Huv. apply joined_snoc_cases in Huv as [A|[[A B]|[A B]]].
    + apply H in A; auto. rewrite A. reflexivity.
    + apply H in A; auto. apply H in B; auto. rewrite A, <- B, Nat.eqb_refl.
      destruct (Nat.eqb_spec (nth j lab 0%nat) (nth i lab 0%nat)); auto.
    + apply H in A; auto. apply H in B; auto. rewrite A, <- B, Nat.eqb_refl.
      destruct (Nat.eqb_spec (nth j lab 0%nat) (nth i lab 0%nat)); auto.
Qed.
Lemma rep_same n lab es i j q : rep n lab es -> (i < n)%nat -> (j < n)%nat -> nth i lab 0%nat = nth j lab 0%nat -> rep n lab (es ++ [(i, j, q)]).
Proof.
  intros [Hl H] Hi Hj E. split; auto. intros u v Hu Hv. rewrite (H u v Hu Hv). apply H in E; auto. split.
  - apply joined_incl. intros x Hx. apply in_or_app. auto.
  - intros G. apply joined_snoc_cases in G as [A|[[A B]|[A B]]]; auto.
    + eapply j_trans; [exact A|]. eapply j_trans; [exact E|exact B].
    + eapply j_trans; [exact A|]. eapply j_trans; [apply j_sym, E|exact B].
Qed.
Lemma classes_merge a b lab : In a lab -> In b lab -> a <> b -> S (classes (relabel a b lab)) = classes lab.
Proof.
  intros Ha Hb Hab. unfold classes. change (S (length ?l)) with (length (a :: l)). apply Permutation_length. apply NoDup_Permutation.
  - constructor; [|apply NoDup_nodup]. rewrite nodup_In. unfold relabel. intros H. apply in_map_iff in H as (l & H & _).
    destruct (Nat.eqb_spec l a); congruence.
  - apply NoDup_nodup.
  - intros x. simpl. rewrite !nodup_In. unfold relabel. rewrite in_map_iff. split.
    + intros [<-|(l & H & Hl)]; auto. destruct (Nat.eqb_spec l a); congruence.
    + intros Hx. destruct (Nat.eq_dec a x) as [->|Hne]; auto. right. exists x. split; auto. destruct (Nat.eqb_spec x a); congruence.
Qed.
Fixpoint index_of (a : nat) (l : list nat) : nat :=
  match l with [] => 0%nat | x :: r => if Nat.eqb x a then 0%nat else S (index_of a r) end.
Lemma index_of_spec a l : In a l -> (index_of a l < length l)%nat /\ nth (index_of a l) l 0%nat = a.
Proof.
  induction l as [|x r IH]; simpl; [contradiction|]. intros H. destruct (Nat.eqb_spec x a); [split; auto; lia|].
  destruct IH as [A B]; [destruct H; congruence|]. split; [lia|exact B].
Qed.
Lemma classes_coarser n lab lab' : length lab = n -> length lab' = n ->
  (forall u v, (u < n)%nat -> (v < n)%nat -> nth u lab 0%nat = nth v lab 0%nat -> nth u lab' 0%nat = nth v lab' 0%nat) ->
  (classes lab' <= classes lab)%nat.
Proof.
  intros Hl Hl' H. unfold classes. rewrite <- (map_length (fun a => nth (index_of a lab) lab' 0%nat) (nodup _ lab)).
  apply NoDup_incl_length; [apply NoDup_nodup|]. intros b Hb. apply nodup_In in Hb.
  apply (In_nth _ _ 0%nat) in Hb as (u & Hu & <-). apply in_map_iff. exists (nth u lab 0%nat).
  assert (Hin : In (nth u lab 0%nat) lab) by (apply nth_In; lia). destruct (index_of_spec Hin) as [A B]. split.
  - apply H; auto; lia.
  - apply nodup_In; auto.
Qed.

(** * The algorithm without the early end *)
Fixpoint kr (lab : list nat) (es : list edge) : list edge :=
  match es with
  | [] => []
  | ((i, j, q) as x) :: r =>
      let a := nth i lab 0%nat in let b := nth j lab 0%nat in
      if Nat.eqb a b then kr lab r else x :: kr (relabel a b lab) r
  end.
Fixpoint labels (lab : list nat) (es : list edge) : list nat :=
  match es with
  | [] => lab
  | (i, j, q) :: r =>
      let a := nth i lab 0%nat in let b := nth j lab 0%nat in
      if Nat.eqb a b then labels lab r else labels (relabel a b lab) r
  end.
Lemma relabel_length a b lab : length (relabel a b lab) = length lab.
Proof. apply map_length. Qed.
Lemma labels_length es : forall lab, length (labels lab es) = length lab.
Proof.
  induction es as [|[[i j] q] r IH]; intros lab; simpl; auto. destruct (Nat.eqb _ _); auto. rewrite IH. apply relabel_length.
Qed.
Lemma labels_app es es' : forall lab, labels lab (es ++ es') = labels (labels lab es) es'.
Proof. induction es as [|[[i j] q] r IH]; intros lab; simpl; auto. destruct (Nat.eqb _ _); auto. Qed.
Lemma kr_app es es' : forall lab, kr lab (es ++ es') = kr lab es ++ kr (labels lab es) es'.
Proof. induction es as [|[[i j] q] r IH]; intros lab; simpl; auto. destruct (Nat.eqb _ _); auto. simpl. f_equal. apply IH. Qed.
Lemma rep_labels n es : forall lab done, rep n lab done -> Forall (within n) es -> rep n (labels lab es) (done ++ es).
Proof.
  induction es as [|[[i j] q] r IH]; intros lab done H F; simpl; [rewrite app_nil_r; auto|]. inversion F as [|? ? [Hi Hj] F']; subst. simpl in Hi, Hj.
  change ((i, j, q) :: r) with ([(i, j, q)] ++ r). rewrite app_assoc. destruct (Nat.eqb_spec (nth i lab 0%nat) (nth j lab 0%nat)) as [E|E].
  - apply IH; auto. apply rep_same; auto.
  - apply IH; auto. apply rep_merge; auto.
Qed.
Lemma kr_count es : forall lab, Forall (within (length lab)) es -> (length (kr lab es) + classes (labels lab es) = classes lab)%nat.
Proof.
  induction es as [|[[i j] q] r IH]; intros lab F; simpl; auto. inversion F as [|? ? [Hi Hj] F']; subst. simpl in Hi, Hj.
  destruct (Nat.eqb_spec (nth i lab 0%nat) (nth j lab 0%nat)) as [E|E]; [auto|]. simpl.
  rewrite IH by (rewrite relabel_length; auto). apply classes_merge; auto; apply nth_In; auto.
Qed.
Lemma kr_incl es : forall lab x, In x (kr lab es) -> In x es.
Proof.
  induction es as [|[[i j] q] r IH]; intros lab x; simpl; auto. destruct (Nat.eqb _ _); simpl; [eauto|]. intros [H|H]; eauto.
Qed.
Lemma kr_length es : forall lab, (length (kr lab es) <= length es)%nat.
Proof. induction es as [|[[i j] q] r IH]; intros lab; simpl; auto. destruct (Nat.eqb _ _); simpl; [|apply le_n_S; auto]. apply le_S. auto. Qed.
Lemma kr_joined n es : forall lab done, rep n lab done -> Forall (within n) es -> forall u v, joined (done ++ es) u v -> joined (done ++ kr lab es) u v.
Proof.
  induction es as [|[[i j] q] r IH]; intros lab done H F u v; simpl; auto. inversion F as [|? ? [Hi Hj] F']; subst. simpl in Hi, Hj.
  change ((i, j, q) :: r) with ([(i, j, q)] ++ r). rewrite app_assoc. intros G. destruct (Nat.eqb_spec (nth i lab 0%nat) (nth j lab 0%nat)) as [E|E].
  - pose proof (IH _ _ (rep_same q H Hi Hj E) F' _ _ G) as K. destruct H as [_ H]. apply H in E; auto.
    revert K. apply joined_sub. intros a b c Hab. apply in_app_or in Hab as [Hab|Hab].
    + apply in_app_or in Hab as [Hab|[[= <- <- <-]|[]]].
      * eapply j_edge. apply in_or_app. eauto.
      * revert E. apply joined_incl. intros x Hx. apply in_or_app. auto.
    + eapply j_edge. apply in_or_app. eauto.
  - pose proof (IH _ _ (rep_merge q H Hi Hj) F' _ _ G) as K. rewrite <- app_assoc in K. exact K.
Qed.
Lemma classes_one lab i j : (classes lab <= 1)%nat -> (i < length lab)%nat -> (j < length lab)%nat -> nth i lab 0%nat = nth j lab 0%nat.
Proof.
  intros H Hi Hj. unfold classes in H. apply (nth_In lab 0%nat) in Hi, Hj. apply (nodup_In Nat.eq_dec) in Hi, Hj.
  destruct (nodup Nat.eq_dec lab) as [|a [|b l]]; simpl in *; [contradiction| |lia]. destruct Hi as [<-|[]], Hj as [<-|[]]. reflexivity.
Qed.
Lemma kr_none es : forall lab, (classes lab <= 1)%nat -> Forall (within (length lab)) es -> kr lab es = [].
Proof.
  induction es as [|[[i j] q] r IH]; intros lab H F; simpl; auto. inversion F as [|? ? [Hi Hj] F']; subst. simpl in Hi, Hj.
  rewrite (classes_one H Hi Hj), Nat.eqb_refl. auto.
Qed.
Lemma kruskal_kr es : forall left lab, (classes lab <= S left)%nat -> Forall (within (length lab)) es -> kruskal left lab es = kr lab es.
Proof.
  induction es as [|[[i j] q] r IH]; intros [|left] lab H F; simpl; auto.
  - inversion F as [|? ? [Hi Hj] F']; subst. simpl in Hi, Hj. rewrite (classes_one H Hi Hj), Nat.eqb_refl. symmetry. apply kr_none; auto.
  - inversion F as [|? ? [Hi Hj] F']; subst. simpl in Hi, Hj. destruct (Nat.eqb_spec (nth i lab 0%nat) (nth j lab 0%nat)) as [E|E].
    + rewrite <- (IH (S left) lab) by auto. reflexivity.
    + f_equal. apply IH; [|rewrite relabel_length; auto]. assert (S (classes (relabel (nth i lab 0%nat) (nth j lab 0%nat) lab)) = classes lab) by (apply classes_merge; auto; apply nth_In; auto). lia.
Qed.

(** * Strong minimality *)
Definition above (w : Q) (l : list Q) : nat := length (filter (fun q => negb (Qle_bool q w)) l).
Lemma sorted_split w es : StronglySorted (fun x y => cost_of x <= cost_of y) es ->
  es = filter (fun x => Qle_bool (cost_of x) w) es ++ filter (fun x => negb (Qle_bool (cost_of x) w)) es.
Proof.
  induction 1 as [|x r S IH F]; simpl; auto. destruct (Qle_bool (cost_of x) w) eqn:E; simpl; [f_equal; exact IH|].
  assert (Hn : forall y, In y r -> Qle_bool (cost_of y) w = false).
  { intros y Hy. rewrite Forall_forall in F. specialize (F y Hy). destruct (Qle_bool (cost_of y) w) eqn:Ey; auto.
    apply Qle_bool_iff in Ey. assert (Hx : cost_of x <= w) by (eapply Qle_trans; eauto). apply Qle_bool_iff in Hx. congruence. }
  assert (F0 : filter (fun x => Qle_bool (cost_of x) w) r = []).
  { clear -Hn. induction r as [|y r IH]; simpl; auto. rewrite (Hn y (or_introl eq_refl)). apply IH. intros z Hz. apply Hn. right; auto. }
  assert (F1 : filter (fun x => negb (Qle_bool (cost_of x) w)) r = r).
  { clear -Hn. induction r as [|y r IH]; simpl; auto. rewrite (Hn y (or_introl eq_refl)). simpl. f_equal. apply IH. intros z Hz. apply Hn. right; auto. }
  rewrite F0, F1. reflexivity.
Qed.
Lemma filter_all A (f : A -> bool) l : (forall x, In x l -> f x = true) -> filter f l = l.
Proof. induction l as [|x r IH]; simpl; intros H; auto. rewrite (H x) by auto. f_equal. auto. Qed.
Lemma filter_none A (f : A -> bool) l : (forall x, In x l -> f x = false) -> filter f l = [].
Proof. induction l as [|x r IH]; simpl; intros H; auto. rewrite (H x) by auto. auto. Qed.
Lemma filter_map A B (f : B -> bool) (g : A -> B) l : filter f (map g l) = map g (filter (fun x => f (g x)) l).
Proof. induction l as [|x r IH]; simpl; auto. destruct (f (g x)); simpl; f_equal; auto. Qed.

Section Tree.
Variables (n : nat) (es t : list edge).
Hypothesis Hes : Forall (within n) es.
Hypothesis Hso : StronglySorted (fun x y => cost_of x <= cost_of y) es.
Hypothesis Ht : forall x, In x t -> In x es.
Hypothesis Hc : forall u v, (u < n)%nat -> (v < n)%nat -> joined es u v -> joined t u v.

Lemma dominated w : (above w (map cost_of (kr (seq 0 n) es)) <= above w (map cost_of t))%nat.
Proof.
  set (lo := filter (fun x => Qle_bool (cost_of x) w) es). set (hi := filter (fun x => negb (Qle_bool (cost_of x) w)) es).
  set (th := filter (fun x => negb (Qle_bool (cost_of x) w)) t).
  unfold above. rewrite !filter_map, !map_length. fold th.
  assert (Flo : Forall (within n) lo) by (apply Forall_forall; intros x Hx; apply filter_In in Hx as [Hx _]; rewrite Forall_forall in Hes; auto).
  assert (Fhi : Forall (within n) hi) by (apply Forall_forall; intros x Hx; apply filter_In in Hx as [Hx _]; rewrite Forall_forall in Hes; auto).
  assert (Fth : Forall (within n) th) by (apply Forall_forall; intros x Hx; apply filter_In in Hx as [Hx _]; rewrite Forall_forall in Hes; auto).
  assert (Esp : es = lo ++ hi) by (apply sorted_split; auto).
  rewrite Esp, kr_app, filter_app.
  rewrite (@filter_none _ _ (kr (seq 0 n) lo)) by (intros x Hx; apply kr_incl in Hx; apply filter_In in Hx as [_ ->]; reflexivity).
  rewrite (@filter_all _ _ (kr (labels _ _) hi)) by (intros x Hx; apply kr_incl in Hx; apply filter_In in Hx as [_ Hx]; exact Hx).
  simpl. set (L := labels (seq 0 n) lo).
  assert (HL : length L = n) by (unfold L; rewrite labels_length, seq_length; auto).
  pose proof (@kr_count hi L) as C1. rewrite HL in C1. specialize (C1 Fhi).
  pose proof (@kr_count th L) as C2. rewrite HL in C2. specialize (C2 Fth).
  pose proof (@kr_length th L) as C3.
  assert (RL : rep n L lo) by (apply (@rep_labels n lo (seq 0 n) [] (rep_start n) Flo)).
  destruct (@rep_labels n hi L lo RL Fhi) as [L1 R1]. destruct (@rep_labels n th L lo RL Fth) as [L2 R2].
  assert (C4 : (classes (labels L th) <= classes (labels L hi))%nat).
  { apply (@classes_coarser n); auto. intros u v Hu Hv H. apply R1 in H; auto. apply R2; auto. rewrite <- Esp in H. apply Hc in H; auto.
    revert H. apply joined_incl. intros x Hx. apply in_or_app. destruct (Qle_bool (cost_of x) w) eqn:E; [left|right]; apply filter_In; auto.
    split; auto. rewrite E. reflexivity. }
  lia.
Qed.
End Tree.

(** * Sums and maxima of dominated lists *)
Lemma above_cons w a l : above w (a :: l) = if Qle_bool a w then above w l else S (above w l).
Proof. unfold above. simpl. destruct (Qle_bool a w); reflexivity. Qed.
Lemma above_perm w l l' : Permutation l l' -> above w l = above w l'.
Proof.
  induction 1; auto.
  - rewrite !above_cons, IHPermutation. reflexivity.
  - rewrite !above_cons. destruct (Qle_bool x w), (Qle_bool y w); reflexivity.
  - congruence.
Qed.
Lemma above_pos w l : (0 < above w l)%nat <-> exists a, In a l /\ w < a.
Proof.
  induction l as [|b l IH].
  - split; [unfold above; simpl; lia|intros (a & [] & _)].
  - rewrite above_cons. destruct (Qle_bool b w) eqn:E.
    + rewrite IH. split; intros (a & H & H'); exists a; split; simpl; auto. destruct H as [->|H]; auto.
      apply Qle_bool_iff in E. exfalso. apply (Qlt_not_le _ _ H' E).
    + split; [|lia]. intros _. exists b. split; simpl; auto. apply Qnot_le_lt. intros H. apply Qle_bool_iff in H. congruence.
Qed.
Lemma Qsum_perm l l' : Permutation l l' -> Qsum l == Qsum l'.
Proof. induction 1; simpl; unfold Qsum in *; simpl; try lra. Qed.
Lemma pick_max (l : list Q) : l <> [] -> exists m r, Permutation l (m :: r) /\ forall a, In a l -> a <= m.
Proof.
  induction l as [|x l IH]; [congruence|]. intros _. destruct l as [|y l'].
  - exists x, []. split; auto. intros a [<-|[]]. lra.
  - destruct IH as (m & r & P & H); [discriminate|]. destruct (Qlt_le_dec x m) as [L|L].
    + exists m, (x :: r). split; [rewrite P; apply perm_swap|]. intros a [<-|Ha]; auto. lra.
    + exists x, (m :: r). split; [rewrite P; auto|]. intros a [<-|Ha]; [lra|]. specialize (H a Ha). lra.
Qed.
Lemma dominated_sum k : forall l l', length l = k -> Forall (fun q => 0 <= q) l' -> (forall w, (above w l <= above w l')%nat) ->
  (forall a, In a l -> 0 <= a) -> Qsum l <= Qsum l'.
Proof.
  induction k as [|k IH]; intros l l' Hk Hn Hd H0.
  - destruct l; [|discriminate]. simpl. clear -Hn. induction Hn; unfold Qsum in *; simpl; lra.
  - destruct (@pick_max l) as (m & r & P & Hm); [intros ->; discriminate|].
    assert (Hmem : In m l) by (apply (Permutation_in _ (Permutation_sym P)); simpl; auto).
    destruct (Qlt_le_dec 0 m) as [Hpos|Hzero].
    + assert (Hw : exists a, In a l' /\ m <= a).
      { destruct (@pick_max l') as (m' & r' & P' & Hm').
        { intros ->. specialize (Hd 0). assert (0 < above 0 l)%nat by (apply above_pos; eauto). unfold above in Hd at 2. simpl in Hd. lia. }
        exists m'. split; [apply (Permutation_in _ (Permutation_sym P')); simpl; auto|]. destruct (Qlt_le_dec m' m) as [L|L]; auto. exfalso.
        specialize (Hd m'). assert (A : (0 < above m' l)%nat) by (apply above_pos; eauto).
        assert (B : (0 < above m' l')%nat) by lia. apply above_pos in B as (a & Ha & Hlt). specialize (Hm' a Ha). lra. }
      destruct Hw as (M & HM & HmM). apply in_split in HM as (l1 & l2 & ->).
      assert (P' : Permutation (l1 ++ M :: l2) (M :: l1 ++ l2)) by (symmetry; apply Permutation_middle).
      rewrite (Qsum_perm P), (Qsum_perm P'). unfold Qsum; simpl. fold (Qsum r) (Qsum (l1 ++ l2)).
      assert (Qsum r <= Qsum (l1 ++ l2)); [|lra]. apply IH.
      * apply Permutation_length in P. simpl in P. lia.
      * rewrite Forall_forall in Hn |- *. intros q Hq. apply Hn. apply in_app_or in Hq. apply in_or_app. simpl. tauto.
      * intros w. specialize (Hd w). rewrite (above_perm w P), (above_perm w P'), !above_cons in Hd.
        destruct (Qle_bool m w) eqn:E1.
        -- assert (A : above w r = 0%nat); [|lia]. destruct (above w r) eqn:E; auto. assert (Hp : (0 < above w r)%nat) by lia.
           apply above_pos in Hp as (a & Ha & Hlt). apply Qle_bool_iff in E1.
           assert (a <= m) by (apply Hm; apply (Permutation_in _ (Permutation_sym P)); simpl; auto). lra.
        -- destruct (Qle_bool M w) eqn:E2; [|lia]. apply Qle_bool_iff in E2. assert (Hle : m <= w) by lra. apply Qle_bool_iff in Hle. congruence.
      * intros a Ha. apply H0. apply (Permutation_in _ (Permutation_sym P)). simpl; auto.
    + assert (Z : Qsum l <= 0).
      { clear -Hm Hzero. assert (G : forall a, In a l -> a <= 0) by (intros a Ha; specialize (Hm a Ha); lra). clear Hm Hzero.
        induction l as [|x l IH]; unfold Qsum in *; simpl; [lra|]. pose proof (G x (or_introl eq_refl)).
        assert (fold_right Qplus 0 l <= 0) by (apply IH; intros; apply G; right; auto). lra. }
      assert (0 <= Qsum l') by (clear -Hn; induction Hn; unfold Qsum in *; simpl; lra). lra.
Qed.
Lemma kr_ends es : forall lab i j q, In (i, j, q) (kr lab es) -> i <> j.
Proof.
  induction es as [|[[a b] c] r IH]; intros lab i j q; simpl; [contradiction|]. destruct (Nat.eqb_spec (nth a lab 0%nat) (nth b lab 0%nat)) as [E|E]; [eauto|].
  intros [[= -> -> ->]|H]; [congruence|eauto].
Qed.
