(** Lemmas for C25, C28 and C56. *)
From Verif Require Import M_params S_params L_model.
From Coq Require Import Lqa Qfield.
Set Implicit Arguments.
Unset Strict Implicit.
Open Scope Q_scope.

(** * Sums *)
Lemma Qsum_cons q l : Qsum (q :: l) = q + Qsum l.
Proof. reflexivity. Qed.
Lemma Qsum_nonneg l : Forall (fun q => 0 <= q) l -> 0 <= Qsum l.
Proof. induction 1; simpl; [lra|]. unfold Qsum in *. simpl. lra. Qed.
Lemma Qsum_upd x l : forall i, (i < length l)%nat -> Qsum (upd i (fun _ => x) l) == Qsum l - nth i l 0 + x.
Proof.
  induction l as [|q l IH]; intros i Hi; simpl in Hi; [lia|]. destruct i as [|i]; cbn [upd nth]; rewrite !Qsum_cons.
  - lra.
  - rewrite IH by lia. lra.
Qed.
Lemma nth_upd {A} (l : list A) i j x d : nth j (upd i (fun _ => x) l) d = if (i =? j)%nat && (j <? length l)%nat then x else nth j l d.
Proof.
  revert i j. induction l as [|q l IH]; intros [|i] [|j]; simpl; auto.
  - rewrite andb_false_r. reflexivity.
  - rewrite IH. reflexivity.
Qed.
Lemma nth_upd_same {A} (l : list A) i x d : (i < length l)%nat -> nth i (upd i (fun _ => x) l) d = x.
Proof. intros H. rewrite nth_upd, Nat.eqb_refl. apply Nat.ltb_lt in H. rewrite H. reflexivity. Qed.
Lemma nth_upd_other {A} (l : list A) i j x d : i <> j -> nth j (upd i (fun _ => x) l) d = nth j l d.
Proof. intros H. rewrite nth_upd. apply Nat.eqb_neq in H. rewrite H. reflexivity. Qed.
Lemma Forall_upd {A} (P : A -> Prop) f l i : Forall P l -> (forall x, nth_error l i = Some x -> P (f x)) -> Forall P (upd i f l).
Proof.
  intros H Hf. apply Forall_forall. intros y Hy. apply In_nth_error in Hy as [j Hj]. rewrite nth_error_upd in Hj.
  destruct (Nat.eqb_spec i j) as [->|].
  - destruct (nth_error l j) eqn:E; [|discriminate]. injection Hj as <-. auto.
  - apply nth_error_In in Hj. rewrite Forall_forall in H. auto.
Qed.
Lemma Forall_nth_Q (P : Q -> Prop) l i : Forall P l -> P 0 -> P (nth i l 0).
Proof.
  intros H H0. destruct (Nat.lt_ge_cases i (length l)).
  - rewrite Forall_forall in H. apply H, nth_In; auto.
  - rewrite nth_overflow by auto. auto.
Qed.

Lemma set2_length i j a b v : length (set2 i j a b v) = length v.
Proof. unfold set2. rewrite !upd_length. reflexivity. Qed.
Lemma set2_other i j a b v s : s <> i -> s <> j -> nth s (set2 i j a b v) 0 = nth s v 0.
Proof. intros H1 H2. unfold set2. rewrite !nth_upd_other by auto. reflexivity. Qed.
Lemma set2_i i j a b v : (i < length v)%nat -> i <> j -> nth i (set2 i j a b v) 0 = a.
Proof. intros H1 H2. unfold set2. rewrite nth_upd_other by auto. apply nth_upd_same; auto. Qed.
Lemma set2_j i j a b v : (j < length v)%nat -> nth j (set2 i j a b v) 0 = b.
Proof. intros H1. unfold set2. apply nth_upd_same. rewrite upd_length; auto. Qed.
Lemma set2_sum i j a b v : (i < length v)%nat -> (j < length v)%nat -> i <> j ->
  Qsum (set2 i j a b v) == Qsum v - nth i v 0 - nth j v 0 + a + b.
Proof.
  intros Hi Hj Hij. unfold set2. rewrite Qsum_upd by (rewrite upd_length; auto).
  rewrite Qsum_upd by auto. rewrite nth_upd_other by auto. lra.
Qed.
Lemma set2_nonneg i j a b v : Forall (fun q => 0 <= q) v -> 0 <= a -> 0 <= b -> Forall (fun q => 0 <= q) (set2 i j a b v).
Proof. intros H Ha Hb. unfold set2. apply Forall_upd; auto. apply Forall_upd; auto. Qed.

(** * One pair *)
Lemma alter_pair_inv D (logpdf : list Q -> list Q -> D) prec row i j draw row' q qb :
  alter_pair logpdf prec row i j draw = Some (row', q, qb) ->
  let s := nth i row 0 + nth j row 0 in
  ~ s == 0 /\ exists w_new, draw = Some w_new /\ row' = set2 i j (nth 0 w_new 0 * Qsum [nth i row 0; nth j row 0]) (nth 1 w_new 0 * Qsum [nth i row 0; nth j row 0]) row /\
  q = logpdf w_new (step_alpha prec [nth i row 0 / Qsum [nth i row 0; nth j row 0]; nth j row 0 / Qsum [nth i row 0; nth j row 0]]) /\
  qb = logpdf [nth i row 0 / Qsum [nth i row 0; nth j row 0]; nth j row 0 / Qsum [nth i row 0; nth j row 0]] (step_alpha prec w_new).
Proof.
  unfold alter_pair, dirichlet_proposal. cbv zeta. set (s := Qsum [nth i row 0; nth j row 0]).
  destruct (Qeq_bool s 0) eqn:E; [discriminate|]. destruct draw as [w|]; [|discriminate].
  intros [= <- <- <-]. split.
  - intros H. apply Qeq_bool_neq in E. apply E. unfold s. cbn [Qsum fold_right]. lra.
  - exists w. auto.
Qed.
Lemma Qsum2 a b : Qsum [a; b] == a + b.
Proof. cbn. lra. Qed.
Lemma draw2 d : dirichlet_draw 2 d -> exists a b, d = [a; b] /\ 0 <= a /\ 0 <= b /\ a + b == 1.
Proof.
  intros (Hl & Hn & Hs). destruct d as [|a [|b [|c d]]]; try discriminate. exists a, b.
  inversion_clear Hn as [|? ? Ha Hn']. inversion_clear Hn' as [|? ? Hb _]. conj; auto. rewrite <- Hs. cbn. lra.
Qed.
Lemma alter_pair_ok D (logpdf : list Q -> list Q -> D) prec row i j draw row' q qb :
  alter_pair logpdf prec row i j draw = Some (row', q, qb) -> opt_draw 2 draw ->
  (i < length row)%nat -> (j < length row)%nat -> i <> j -> simplex row ->
  length row' = length row /\ simplex row' /\ (forall s, s <> i -> s <> j -> nth s row' 0 = nth s row 0).
Proof.
  intros H Hd Hi Hj Hij [Hn Hs]. apply alter_pair_inv in H as (H0 & w & -> & -> & _). simpl in Hd.
  apply draw2 in Hd as (a & b & -> & Ha & Hb & Hab). cbn [nth].
  assert (Hs2 := Qsum2 (nth i row 0) (nth j row 0)). set (s := Qsum [nth i row 0; nth j row 0]) in *.
  assert (0 <= nth i row 0) by (apply Forall_nth_Q; auto; lra).
  assert (0 <= nth j row 0) by (apply Forall_nth_Q; auto; lra).
  assert (0 <= s) by lra.
  conj.
  - apply set2_length.
  - split.
    + apply set2_nonneg; auto; apply Qmult_le_0_compat; auto.
    + rewrite set2_sum by auto. rewrite Hs.
      assert (E : a * s + b * s == s) by (transitivity ((a + b) * s); [ring|rewrite Hab; ring]). lra.
  - intros; apply set2_other; auto.
Qed.

(** * Gibbs weights *)
Lemma normalize_inv v u : normalize v = Some u -> u = map (fun q => q / Qsum v) v /\ ~ Qsum v == 0.
Proof.
  unfold normalize. cbv zeta. destruct (Qeq_bool (Qsum v) 0) eqn:E; [discriminate|]. intros [= <-]. split; auto.
  apply Qeq_bool_neq; auto.
Qed.
Lemma Qsum_div v s : ~ s == 0 -> Qsum (map (fun q => q / s) v) == Qsum v / s.
Proof.
  intros H. induction v as [|q v IH]; [cbn; field; auto|]. cbn [map]. rewrite !Qsum_cons, IH. field; auto.
Qed.
Lemma normalize_simplex v u : normalize v = Some u -> Forall (fun q => 0 <= q) v -> simplex u /\ length u = length v.
Proof.
  intros H Hn. apply normalize_inv in H as [-> H0]. split; [split|].
  - assert (0 < Qsum v) by (pose proof (Qsum_nonneg Hn); lra).
    apply Forall_forall. intros q Hq. apply in_map_iff in Hq as (x & <- & Hx). rewrite Forall_forall in Hn.
    apply Qle_shift_div_l; auto. specialize (Hn x Hx). lra.
  - rewrite Qsum_div by auto. field. auto.
  - apply map_length.
Qed.
Lemma gibbs_weights_row_ok i j d w : simplex w -> 0 <= fst d <= 1 ->
  simplex (gibbs_weights_row i j d w) /\ length (gibbs_weights_row i j d w) = length w.
Proof.
  intros [Hn Hs] Hd. unfold gibbs_weights_row, resample_row. cbv zeta. destruct (normalize _) as [u|] eqn:E.
  2:{ repeat split; auto. }
  destruct (snd d). 2:{ repeat split; auto. }
  apply normalize_simplex in E.
  - destruct E as [E1 E2]. split; auto. rewrite E2. apply set2_length.
  - assert (0 <= nth i w 0) by (apply Forall_nth_Q; auto; lra).
    assert (0 <= nth j w 0) by (apply Forall_nth_Q; auto; lra).
    apply set2_nonneg; auto; apply Qmult_le_0_compat; lra.
Qed.

(** * Gibbs effects *)
Lemma scatter_ok app : forall row draw, length row = length app -> length draw = n_true app ->
  (forall s, nth s app false = false -> nth s row 0 == 0) -> Forall (fun q => 0 <= q) draw ->
  length (scatter_q app row draw) = length app /\ Qsum (scatter_q app row draw) == Qsum draw /\
  Forall (fun q => 0 <= q) (scatter_q app row draw) /\
  (forall s, nth s app false = false -> nth s (scatter_q app row draw) 0 == 0).
Proof.
  induction app as [|b app IH]; intros [|x row] draw Hl Hd Hz Hn; simpl in Hl; try discriminate.
  - destruct draw; [|discriminate]. simpl. conj; auto; try reflexivity.
  - injection Hl as Hl. assert (Hz' : forall s, nth s app false = false -> nth s row 0 == 0) by (intros s; exact (Hz (S s))).
    destruct b; simpl.
    + unfold n_true in Hd. simpl in Hd. destruct draw as [|d draw]; [discriminate|]. injection Hd as Hd.
      inversion_clear Hn. destruct (IH row draw Hl Hd Hz') as (H1 & H2 & H3 & H4); auto.
      conj; [simpl; auto| |constructor; auto|].
      * rewrite ?Qsum_cons, H2. reflexivity.
      * intros [|s]; simpl; [discriminate|apply H4].
    + unfold n_true in Hd. simpl in Hd. destruct (IH row draw Hl Hd Hz' Hn) as (H1 & H2 & H3 & H4).
      assert (Hx : x == 0) by exact (Hz 0%nat eq_refl).
      conj; [simpl; auto| |constructor; auto; lra|].
      * rewrite ?Qsum_cons, H2. lra.
      * intros [|s]; simpl; [auto|apply H4].
Qed.
Lemma gibbs_effect_ok applicable p draws : effect_ok applicable p ->
  Forall2 (fun app d => dirichlet_draw (n_true app) d) applicable draws -> effect_ok applicable (gibbs_effect applicable p draws).
Proof.
  intros H; revert draws. induction H as [|app row applicable p Hr H IH]; intros draws Hd; inversion_clear Hd as [|? d ? draws' H1 H2]; simpl; constructor.
  - destruct Hr as (L & [N S] & Z), H1 as (L' & N' & S').
    destruct (scatter_ok (app := app) (row := row) (draw := d) L L' Z N') as (A1 & A2 & A3 & A4).
    unfold simplex_on, simplex. rewrite A2, S'. conj; auto. reflexivity.
  - apply IH; auto.
Qed.

(** * Histories *)
Lemma Forall2_upd {A B} (P : A -> B -> Prop) l r i x : Forall2 P l r ->
  (forall a, nth_error l i = Some a -> P a x) -> Forall2 P l (upd i (fun _ => x) r).
Proof.
  intros H; revert i. induction H as [|a b l r Hab H IH]; intros [|i] Hx; simpl; constructor; auto.
Qed.
Lemma Forall2_nth {A B} (P : A -> B -> Prop) l r i a : Forall2 P l r -> nth_error l i = Some a ->
  exists b, nth_error r i = Some b /\ P a b.
Proof.
  intros H; revert i. induction H as [|x y l r Hxy H IH]; intros [|i]; simpl; try discriminate; eauto.
  intros [= <-]; eauto.
Qed.
Lemma edit_effect_ok m applicable which g h p : params_ok m applicable p ->
  (forall e, effect_ok applicable e -> get_effect which g p = e -> effect_ok applicable (h e)) ->
  params_ok m applicable (edit_effect which g h p).
Proof.
  intros (H1 & H2 & H3 & H4) Hh. unfold params_ok. destruct which as [k|]; simpl in *; conj; auto.
  - apply Forall_upd; auto. intros l Hl. assert (Hk : Forall (effect_ok applicable) l).
    { rewrite Forall_forall in H4. apply H4. eapply nth_error_In; eauto. }
    apply Forall_upd; auto. intros e He. apply Hh.
    + rewrite Forall_forall in Hk. apply Hk. eapply nth_error_In; eauto.
    + rewrite (nth_error_nth _ _ _ Hl). apply nth_error_nth; auto.
  - apply Forall_upd; auto. intros e He. apply Hh.
    + rewrite Forall_forall in H3. apply H3. eapply nth_error_In; eauto.
    + apply nth_error_nth; auto.
Qed.
Lemma edit_effect_out which g h p : nth_error (match which with None => p_ce p | Some k => nth k (p_cf p) [] end) g = None ->
  edit_effect which g h p = p.
Proof.
  intros H. destruct p as [w ce cf], which as [k|]; simpl in *.
  - f_equal. apply upd_id. intros l Hl. apply upd_out. rewrite (nth_error_nth _ _ _ Hl) in H. apply nth_error_None; auto.
  - f_equal. apply upd_out. apply nth_error_None; auto.
Qed.
Lemma propose_ok m applicable op p p' : params_ok m applicable p -> draws_ok m applicable op ->
  propose_params applicable op p = Some p' -> params_ok m applicable p'.
Proof.
  intros Hp Hd H. destruct op as [f i j draw|i j draws|which g f i j draw|which g draws]; simpl in *.
  - destruct (alter_pair _ _ _ _ _ _) as [[[row q] qb]|] eqn:E; [|discriminate]. injection H as <-.
    destruct Hp as (H1 & H2 & H3 & H4), Hd as (D1 & D2 & D3 & D4 & D5). unfold params_ok; simpl.
    rewrite upd_length. conj; auto. apply Forall_upd; auto. intros w Hw.
    assert (Hf : length w = m /\ simplex w) by (rewrite Forall_forall in H2; apply H2; eapply nth_error_In; eauto).
    rewrite (nth_error_nth _ _ _ Hw) in E. destruct Hf as [<- Hf].
    destruct (alter_pair_ok E D5 D2 D3 D4 Hf) as (A & B & _). auto.
  - injection H as <-. destruct Hp as (H1 & H2 & H3 & H4), Hd as (D2 & D3 & D4 & D5 & D6). unfold params_ok; simpl.
    conj; auto.
    + rewrite map2_length, D5, H1. apply Nat.min_id.
    + clear H1 D5 H3 H4. revert draws D6. induction H2 as [|w l [Hl Hw] H IH]; intros [|d draws] D6; simpl; constructor.
      * inversion_clear D6. destruct (@gibbs_weights_row_ok i j d w) as [A B]; auto. rewrite B. auto.
      * inversion_clear D6. auto.
  - destruct (alter_pair _ _ _ _ _ _) as [[[row q] qb]|] eqn:E; [|discriminate]. injection H as <-.
    destruct Hd as (D1 & D2 & D3 & D4 & D5). apply edit_effect_ok; auto. intros e He Hg. rewrite Hg in E.
    apply Forall2_upd; auto. intros app Happ. rewrite (nth_error_nth _ _ _ Happ) in D2, D3.
    destruct (Forall2_nth He Happ) as (r & Hr & L & S & Z). rewrite (nth_error_nth _ _ _ Hr) in E.
    assert (I : forall s, nth s app false = true -> (s < length r)%nat).
    { intros s Hs. rewrite L. destruct (Nat.lt_ge_cases s (length app)); auto. rewrite nth_overflow in Hs by auto. discriminate. }
    destruct (alter_pair_ok E D5 (I _ D2) (I _ D3) D4 S) as (A & B & C).
    unfold simplex_on. rewrite A. conj; auto. intros s Hs. rewrite C; auto; intros ->; congruence.
  - injection H as <-. apply edit_effect_ok; auto. intros e He _. apply gibbs_effect_ok; auto.
Qed.
Lemma history_ok m applicable p p' : phistory m applicable p p' -> params_ok m applicable p -> params_ok m applicable p'.
Proof.
  induction 1; auto. intros Hp. eapply propose_ok; [|eassumption|eassumption]; auto.
Qed.

(** * Reversibility of the pair update *)
Lemma vec_eq_refl v : vec_eq v v.
Proof. induction v; constructor; auto. reflexivity. Qed.
Lemma vec_eq_nth u v : length u = length v -> (forall s, nth s u 0 == nth s v 0) -> vec_eq u v.
Proof.
  revert v; induction u as [|x u IH]; intros [|y v] Hl H; try discriminate; constructor.
  - exact (H 0%nat).
  - apply IH; [simpl in Hl; lia|]. intros s; exact (H (S s)).
Qed.
Lemma step_alpha_eq prec u v : vec_eq u v -> vec_eq (step_alpha prec u) (step_alpha prec v).
Proof. induction 1; simpl; constructor; auto. rewrite H. reflexivity. Qed.
Lemma alter_pair_reverse D (logpdf : list Q -> list Q -> D) prec row i j d row' q qb :
  (forall x x' a a', vec_eq x x' -> vec_eq a a' -> logpdf x a = logpdf x' a') ->
  dirichlet_draw 2 d -> (i < length row)%nat -> (j < length row)%nat -> i <> j ->
  alter_pair logpdf prec row i j (Some d) = Some (row', q, qb) ->
  let s := nth i row 0 + nth j row 0 in
  exists row'', alter_pair logpdf prec row' i j (Some [nth i row 0 / s; nth j row 0 / s]) = Some (row'', qb, q) /\
    vec_eq row'' row.
Proof.
  intros HP Hd Hi Hj Hij H. cbv zeta. apply alter_pair_inv in H as (H0 & w & [= <-] & -> & -> & ->).
  apply draw2 in Hd as (a & b & -> & Ha & Hb & Hab). cbn [nth].
  assert (Hs2 := Qsum2 (nth i row 0) (nth j row 0)). set (t := Qsum [nth i row 0; nth j row 0]) in *.
  set (x := nth i row 0) in *. set (y := nth j row 0) in *. set (row' := set2 i j (a * t) (b * t) row) in *.
  assert (Ei : nth i row' 0 = a * t) by (apply set2_i; auto).
  assert (Ej : nth j row' 0 = b * t) by (apply set2_j; auto).
  assert (Et : Qsum [nth i row' 0; nth j row' 0] == t).
  { rewrite Qsum2, Ei, Ej. transitivity ((a + b) * t); [ring|]. rewrite Hab. ring. }
  assert (T0 : ~ t == 0) by (rewrite Hs2; exact H0).
  unfold alter_pair, dirichlet_proposal. cbv zeta.
  destruct (Qeq_bool (Qsum [nth i row' 0; nth j row' 0]) 0) eqn:E.
  { apply Qeq_bool_eq in E. rewrite Et in E. contradiction. }
  eexists. split.
  - f_equal. f_equal; [f_equal|].
    + apply HP.
      * repeat constructor; rewrite Hs2; reflexivity.
      * apply step_alpha_eq. assert (V : forall c z, z == c * t -> z / Qsum [nth i row' 0; nth j row' 0] == c).
        { intros c z Hz. rewrite Et, Hz. field. auto. }
        repeat constructor; apply V; [rewrite Ei|rewrite Ej]; reflexivity.
    + apply HP.
      * assert (V : forall c z, z == c * t -> z / Qsum [nth i row' 0; nth j row' 0] == c).
        { intros c z Hz. rewrite Et, Hz. field. auto. }
        repeat constructor; apply V; [rewrite Ei|rewrite Ej]; reflexivity.
      * apply step_alpha_eq. repeat constructor; rewrite Hs2; reflexivity.
  - assert (L : length row' = length row) by apply set2_length. apply vec_eq_nth; [rewrite set2_length; auto|].
    intros s. cbn [nth]. destruct (Nat.eq_dec s i) as [->|Ni].
    + rewrite set2_i by (rewrite ?L; auto). rewrite Et, <- Hs2. unfold x. field. auto.
    + destruct (Nat.eq_dec s j) as [->|Nj].
      * rewrite set2_j by (rewrite ?L; auto). rewrite Et, <- Hs2. unfold y. field. auto.
      * rewrite set2_other by auto. unfold row'. rewrite set2_other by auto. reflexivity.
Qed.

(** * Categorical sampling *)
Lemma Qltb_spec a b : Qltb a b = true <-> a < b.
Proof. unfold Qltb. rewrite negb_true_iff. split; intros H.
  - apply Qnot_le_lt. intros L. apply Qle_bool_iff in L. congruence.
  - destruct (Qle_bool b a) eqn:E; auto. apply Qle_bool_iff in E. lra.
Qed.
Lemma Qltb_false a b : Qltb a b = false <-> b <= a.
Proof. unfold Qltb. rewrite negb_false_iff. apply Qle_bool_iff. Qed.
Lemma first_true_spec z : forall p acc, Forall (fun q => 0 <= q) p -> acc <= z -> z < acc + Qsum p ->
  exists i, first_true (map (Qltb z) (cumsum_from acc p)) = Some i /\ (i < length p)%nat /\
    acc + Qsum (firstn i p) <= z < acc + Qsum (firstn (S i) p).
Proof.
  induction p as [|q p IH]; intros acc Hn H1 H2.
  - cbn in H2. lra.
  - inversion_clear Hn. rewrite Qsum_cons in H2. cbn [cumsum_from map first_true]. destruct (Qltb z (acc + q)) eqn:E.
    + apply Qltb_spec in E. exists 0%nat. split; [reflexivity|]. split; [simpl; lia|]. cbn. lra.
    + apply Qltb_false in E. destruct (IH (acc + q)) as (i & Hi & Li & Ii); auto; [lra|].
      exists (S i). rewrite Hi. split; [reflexivity|]. split; [simpl; lia|].
      cbn [firstn]. rewrite !Qsum_cons. cbn [firstn] in Ii. lra.
Qed.
Lemma Qsum_firstn_mono p : Forall (fun q => 0 <= q) p -> forall i j, (i <= j)%nat -> Qsum (firstn i p) <= Qsum (firstn j p).
Proof.
  induction 1 as [|q p Hq Hp IH]; intros [|i] [|j] Hij; try lia; cbn [firstn]; rewrite ?Qsum_cons; try (cbn; lra).
  - pose proof (IH 0%nat j ltac:(lia)) as I. cbn in I |- *. lra.
  - pose proof (IH i j ltac:(lia)). lra.
Qed.
Lemma categorical_spec p z : Forall (fun q => 0 <= q) p -> Qsum p == 1 -> 0 <= z -> z < 1 ->
  forall i, categorical z (Some p) = i <-> (i < length p)%nat /\ Qsum (firstn i p) <= z /\ z < Qsum (firstn (S i) p).
Proof.
  intros Hn Hs H1 H2 i. unfold categorical, argmax, cumsum.
  destruct (@first_true_spec z p 0) as (k & Hk & Lk & Ik); auto; [lra|]. rewrite Hk. split.
  - intros <-. split; auto. lra.
  - intros (Li & I1 & I2). destruct (Nat.lt_trichotomy k i) as [L|[E|L]]; auto; exfalso.
    + pose proof (Qsum_firstn_mono Hn (i := S k) (j := i) ltac:(lia)). lra.
    + pose proof (Qsum_firstn_mono Hn (i := S i) (j := k) ltac:(lia)). lra.
Qed.
Lemma Qsum_firstn_S p i : Qsum (firstn (S i) p) == Qsum (firstn i p) + nth i p 0.
Proof.
  revert i. induction p as [|q p IH]; intros i; [destruct i; cbn; lra|]. destruct i as [|i]; [cbn; lra|].
  change (Qsum (q :: firstn (S i) p) == Qsum (q :: firstn i p) + nth i p 0). rewrite !Qsum_cons, IH. lra.
Qed.
