(** Probabilities of proposals: lemmas for C13 and C14. *)
From Coq Require Import Lqa Setoid Morphisms.
From Verif Require Import M_operators S_operators L_operators S_model L_model.
Set Implicit Arguments.
Unset Strict Implicit.
Open Scope Q_scope.

(** * Expectations *)
Lemma E_cons A (a : A) p d f : E ((a, p) :: d) f = p * f a + E d f. Proof. reflexivity. Qed.
Lemma E_app A (d1 d2 : dist A) f : E (d1 ++ d2) f == E d1 f + E d2 f.
Proof. unfold E. rewrite map_app. apply Qsum_app. Qed.
Lemma E_ret A (a : A) f : E (ret a) f == f a.
Proof. unfold ret. rewrite E_cons. unfold E; simpl. ring. Qed.
Lemma E_scale A p (d : dist A) f : E (scale p d) f == p * E d f.
Proof.
  induction d as [|[a q] d IH]; [unfold E; simpl; ring|]. simpl. rewrite !E_cons. unfold scale in IH. rewrite IH. ring.
Qed.
Lemma E_bind A B (d : dist A) (g : A -> dist B) f : E (bind d g) f == E d (fun a => E (g a) f).
Proof.
  induction d as [|[a q] d IH]; [reflexivity|]. unfold bind in *. simpl.
  rewrite E_app, E_scale, IH, E_cons. reflexivity.
Qed.
Lemma E_ext A (d : dist A) f g : (forall a p, In (a, p) d -> f a == g a) -> E d f == E d g.
Proof.
  induction d as [|[a p] d IH]; intros H; [reflexivity|]. rewrite !E_cons.
  rewrite (H a p) by (left; auto). rewrite IH; [reflexivity|]. intros b q Hb. apply (H b q); right; auto.
Qed.
Lemma E_uniform A (l : list A) f : E (uniform l) f == inv_nat (length l) * Qsum (map f l).
Proof.
  unfold uniform. fold (inv_nat (length l)). generalize (inv_nat (length l)). intros r.
  induction l as [|a l IH]; [unfold E; simpl; ring|]. simpl map. rewrite E_cons, IH, Qsum_cons. ring.
Qed.
Lemma E_flip p f : E (flip p) f == p * f true + (1 - p) * f false.
Proof. unfold flip. rewrite !E_cons. unfold E; simpl. ring. Qed.
Lemma E_zero A (d : dist A) f : (forall a, supp d a -> f a == 0) -> E d f == 0.
Proof.
  induction d as [|[a p] d IH]; intros H; [reflexivity|]. rewrite E_cons.
  rewrite IH by (intros b (q & Hin & Hq); apply H; exists q; split; [right|]; auto).
  destruct (Qeq_bool p 0) eqn:Ep.
  - apply Qeq_bool_eq in Ep. rewrite Ep. ring.
  - apply Qeq_bool_neq in Ep. rewrite H; [ring|]. exists p; split; [left|]; auto.
Qed.
Lemma E_ext_supp A (d : dist A) f g : (forall a, supp d a -> f a == g a) -> E d f == E d g.
Proof.
  induction d as [|[a p] d IH]; intros H; [reflexivity|]. rewrite !E_cons.
  rewrite IH by (intros b (q & Hin & Hq); apply H; exists q; split; [right|]; auto).
  destruct (Qeq_bool p 0) eqn:Ep.
  - apply Qeq_bool_eq in Ep. rewrite Ep. ring.
  - apply Qeq_bool_neq in Ep. rewrite H; [ring|]. exists p; split; [left|]; auto.
Qed.
(** Only one element contributes. *)
Lemma Qsum_single A (l : list A) f a v : NoDup l -> In a l -> f a == v ->
  (forall b, In b l -> b <> a -> f b == 0) -> Qsum (map f l) == v.
Proof.
  intros Hn. induction Hn as [|b l Hb _ IH]; intros Hin Hv H; [contradiction|].
  simpl map. rewrite Qsum_cons. destruct Hin as [->|Hin].
  - rewrite Hv. assert (Hz : Qsum (map f l) == 0).
    { clear IH Hv. induction l as [|c l IHl]; [reflexivity|]. simpl map. rewrite Qsum_cons, H, IHl; [ring|..].
      - intros Hc. apply Hb. right; auto.
      - intros d Hd Hne. apply H; auto. simpl in *; tauto.
      - right; left; auto.
      - intros ->. apply Hb. left; auto. }
    rewrite Hz. ring.
  - rewrite IH; auto; [|intros; apply H; auto; right; auto].
    rewrite H; [ring|left; auto|]. intros ->. auto.
Qed.

(** * Masses *)
Definition ind (y : cstate) (out : outcome) : Q :=
  if match out with Propose y' _ _ => if cstate_eq_dec y' y then true else false | _ => false end then 1 else 0.
Lemma mass_E d y : mass d y = E d (ind y). Proof. reflexivity. Qed.
Lemma ind_propose y q qb : ind y (Propose y q qb) = 1.
Proof. unfold ind. destruct (cstate_eq_dec y y); congruence. Qed.
Lemma ind_other y y' q qb : y' <> y -> ind y (Propose y' q qb) = 0.
Proof. intros H. unfold ind. destruct (cstate_eq_dec y' y); congruence. Qed.
Lemma mass_zero d y : (forall q qb, ~ supp d (Propose y q qb)) -> mass d y == 0.
Proof.
  intros H. rewrite mass_E. apply E_zero. intros [|y' q qb|] Ha; try reflexivity.
  destruct (cstate_eq_dec y' y) as [->|Hne]; [exfalso; eapply H; eauto|rewrite ind_other; auto; reflexivity].
Qed.
Lemma mass_ret_reject y : mass (ret Reject) y == 0.
Proof. rewrite mass_E, E_ret. reflexivity. Qed.
Lemma mass_bind A (d : dist A) g y : mass (bind d g) y == E d (fun a => mass (g a) y).
Proof. rewrite mass_E, E_bind. reflexivity. Qed.
Lemma mass_choose l g y a v : NoDup l -> In a l -> mass (g a) y == v ->
  (forall b, In b l -> b <> a -> mass (g b) y == 0) -> mass (choose l g) y == inv_nat (length l) * v.
Proof.
  intros Hn Hin Hv H. assert (Hl : choose l g = bind (uniform l) g) by (destruct l; [contradiction|reflexivity]).
  rewrite Hl, mass_bind, E_uniform. rewrite (@Qsum_single _ _ _ a v); auto. reflexivity.
Qed.
Lemma E_mapi (l : list Q) (f : nat -> Q) : forall k,
  E (mapi_from k (fun o (q : Q) => (o, q)) l) f == Qsum (map (fun i => nth i l 0 * f (k + i)%nat) (seq 0 (length l))).
Proof.
  induction l as [|q l IH]; intros k; [reflexivity|]. simpl mapi_from. rewrite E_cons, IH. simpl seq.
  rewrite map_cons, Qsum_cons, <- seq_shift, map_map. rewrite Nat.add_0_r. simpl nth.
  apply Qplus_comp; [reflexivity|]. apply Qsum_ext. intros i _. rewrite Nat.add_succ_r. reflexivity.
Qed.
Lemma mass_choose_p l g y a v : (a < length l)%nat -> mass (g a) y == v ->
  (forall b, (b < length l)%nat -> b <> a -> mass (g b) y == 0) -> mass (choose_p (Some l) g) y == nth a l 0 * v.
Proof.
  intros Ha Hv H. unfold choose_p. rewrite mass_bind. unfold mapi. rewrite E_mapi.
  apply (@Qsum_single _ _ _ a); [apply seq_NoDup|apply in_seq; lia| |].
  - simpl. rewrite Hv. reflexivity.
  - intros b Hb Hne. apply in_seq in Hb. simpl. rewrite H by (auto; lia). ring.
Qed.

(** * Products of independent draws *)
Section Prod.
Variable A : Type.
Variable dec : forall x y : A, {x = y} + {x <> y}.
Definition point (d : dist A) (x : A) : Q := E d (fun a => if dec a x then 1 else 0).
Lemma prod_point (ds : list (dist A)) (r : list A) : length ds = length r ->
  E (prod_dist ds) (fun l => if list_eq_dec dec l r then 1 else 0) == Qprod (map2 point ds r).
Proof.
  revert r; induction ds as [|d ds IH]; intros [|x r] Hl; simpl in Hl; try discriminate.
  - simpl prod_dist. rewrite E_ret. destruct (list_eq_dec dec [] []); [reflexivity|congruence].
  - simpl prod_dist. rewrite E_bind. simpl map2. rewrite Qprod_cons, <- (IH r) by lia.
    set (T := E (prod_dist ds) (fun l => if list_eq_dec dec l r then 1 else 0)).
    assert (Hx : forall a, E (bind (prod_dist ds) (fun xs => ret (a :: xs)))
               (fun l => if list_eq_dec dec l (x :: r) then 1 else 0) == (if dec a x then 1 else 0) * T).
    { intros a. rewrite E_bind. unfold T. destruct (dec a x) as [->|Hne].
      - rewrite Qmult_1_l. apply E_ext. intros l p _. rewrite E_ret.
        destruct (list_eq_dec dec (x :: l) (x :: r)) as [He|He], (list_eq_dec dec l r) as [He'|He']; try congruence; reflexivity.
      - rewrite Qmult_0_l. apply E_zero. intros l _. rewrite E_ret.
        destruct (list_eq_dec dec (a :: l) (x :: r)) as [He|He]; [congruence|reflexivity]. }
    clearbody T. unfold point. clear IH Hl. induction d as [|[b p] d IHd]; [unfold E; simpl; ring|].
    rewrite !E_cons, IHd, Hx. ring.
Qed.
End Prod.

Definition obs_dec : forall x y : list bool, {x = y} + {x <> y} := list_eq_dec Bool.bool_dec.
Definition row_dec : forall x y : list (list bool), {x = y} + {x <> y} := list_eq_dec obs_dec.

(** Agreement between the sampled distribution and the reported factor. *)
Section Source.
Variable e : env.
Definition hot (v : list bool) : Prop := exists c, (c < n_comps e)%nat /\ v = one_hot_row e c.
Definition row_ok (r : list (list bool)) : Prop := length r = e_nf e /\ Forall hot r.

Lemma nth_one_hot c d : (d < n_comps e)%nat -> nth_error (one_hot_row e c) d = Some (Nat.eqb c d).
Proof.
  intros H. unfold one_hot_row. rewrite nth_error_map, (nth_error_nth' _ 0%nat), seq_nth by (rewrite ?seq_length; lia). reflexivity.
Qed.
Lemma one_hot_inj c d : (c < n_comps e)%nat -> one_hot_row e c = one_hot_row e d -> c = d.
Proof.
  intros Hc H. pose proof (nth_one_hot c Hc) as H1. rewrite H, nth_one_hot, Nat.eqb_refl in H1 by auto.
  injection H1 as H1. apply Nat.eqb_eq in H1. auto.
Qed.

Lemma sample_obs_point l c : (length l <= n_comps e)%nat -> (c < n_comps e)%nat ->
  point obs_dec (sample_obs e (Some l)) (one_hot_row e c) == nth c l 0.
Proof.
  intros Hl Hc. unfold point, sample_obs, mapi.
  assert (H : forall k l', (k + length l' <= n_comps e)%nat ->
    E (mapi_from k (fun c q => (one_hot_row e c, q)) l') (fun a => if obs_dec a (one_hot_row e c) then 1 else 0) ==
    if (k <=? c)%nat then nth (c - k) l' 0 else 0).
  { intros k l'; revert k; induction l' as [|q l' IH]; intros k Hk.
    - unfold E; simpl. destruct (k <=? c)%nat; [destruct (c - k)%nat|]; reflexivity.
    - simpl mapi_from. simpl in Hk. rewrite E_cons, IH by lia.
      destruct (obs_dec (one_hot_row e k) (one_hot_row e c)) as [He|He].
      + apply one_hot_inj in He; [|lia]. subst k. rewrite Nat.sub_diag, Nat.leb_refl.
        destruct (Nat.leb_spec (S c) c); [lia|]. simpl. ring.
      + destruct (Nat.leb_spec (S k) c), (Nat.leb_spec k c); try lia.
        * replace (c - k)%nat with (S (c - S k)) by lia. simpl. ring.
        * assert (k = c) by lia. subst; congruence.
        * ring. }
  rewrite H by (simpl; lia). simpl. rewrite Nat.sub_0_r. reflexivity.
Qed.

Lemma omult_some a b q : omult a b = Some q -> exists x y, a = Some x /\ b = Some y /\ q = x * y.
Proof. destruct a, b; simpl; try discriminate. intros [= <-]; eauto. Qed.
Lemma fold_omult_some l q : fold_right omult (Some 1) l = Some q ->
  exists qs, l = map Some qs /\ q = Qprod qs.
Proof.
  revert q; induction l as [|x l IH]; simpl; intros q H.
  - injection H as <-. exists []; auto.
  - apply omult_some in H as (a & b & -> & Hb & ->). destruct (IH _ Hb) as (qs & -> & ->). exists (a :: qs); auto.
Qed.

Lemma obs_prob_hot p c q : (c < n_comps e)%nat -> obs_prob p (one_hot_row e c) = Some q ->
  exists l, p = Some l /\ q == nth c l 0.
Proof.
  intros Hc H. destruct p as [l|].
  - exists l; split; auto. unfold obs_prob in H. apply fold_omult_some in H as (qs & Hqs & ->).
    assert (Hq : qs = mapi (fun c (b : bool) => if b then nth c l 0 else 1) (one_hot_row e c)).
    { apply nth_error_ext. intros i. assert (Hi : nth_error (map Some qs) i = option_map Some (nth_error qs i)) by apply nth_error_map.
      rewrite <- Hqs, nth_error_mapi in Hi. rewrite nth_error_mapi.
      destruct (nth_error (one_hot_row e c) i) as [[]|], (nth_error qs i); simpl in *; congruence. }
    rewrite Hq. unfold mapi, one_hot_row.
    assert (H1 : forall m k, (k <= c < k + m)%nat ->
      Qprod (mapi_from k (fun d (b : bool) => if b then nth d l 0 else 1) (map (Nat.eqb c) (seq k m))) == nth c l 0).
    { induction m as [|m IH]; intros k Hk; [lia|]. simpl seq. simpl map. simpl mapi_from. rewrite Qprod_cons.
      destruct (Nat.eqb_spec c k) as [->|Hne].
      - assert (H2 : forall m' k', (k < k')%nat ->
          Qprod (mapi_from k' (fun d (b : bool) => if b then nth d l 0 else 1) (map (Nat.eqb k) (seq k' m'))) == 1).
        { induction m' as [|m' IH']; intros k' Hk'; [reflexivity|]. simpl seq. simpl map. simpl mapi_from.
          rewrite Qprod_cons. destruct (Nat.eqb_spec k k'); [lia|]. rewrite IH' by lia. ring. }
        rewrite H2 by lia. ring.
      - rewrite IH by lia. ring. }
    apply H1. lia.
  - exfalso. unfold obs_prob in H. apply fold_omult_some in H as (qs & Hqs & _).
    assert (Hi : nth_error (map Some qs) c = option_map Some (nth_error qs c)) by apply nth_error_map.
    rewrite <- Hqs, nth_error_mapi, nth_one_hot, Nat.eqb_refl in Hi by auto. simpl in Hi.
    destruct (nth_error qs c); discriminate.
Qed.

Definition probs_short (ps : list (option (list Q))) : Prop :=
  Forall (fun p => match p with Some l => (length l <= n_comps e)%nat | None => True end) ps.

Lemma row_point ps r q : probs_short ps -> length ps = length r -> Forall hot r -> row_prob ps r = Some q ->
  point row_dec (prod_dist (map (sample_obs e) ps)) r == q.
Proof.
  intros Hs Hl Hr Hq. unfold point, row_dec. rewrite prod_point by (rewrite map_length; auto).
  unfold row_prob in Hq. apply fold_omult_some in Hq as (qs & Hqs & ->).
  revert r qs Hl Hr Hqs. induction Hs as [|p ps Hp _ IH]; intros [|v r] qs Hl Hr Hqs; simpl in *; try discriminate.
  - destruct qs; [reflexivity|discriminate].
  - destruct qs as [|q qs]; [discriminate|]. simpl in Hqs. injection Hqs as H1 H2.
    inversion Hr as [|? ? (c & Hc & ->) Hr']; subst. rewrite !Qprod_cons, (IH r qs); auto.
    apply obs_prob_hot in H1 as (l & -> & ->); auto.
    rewrite sample_obs_point; auto. reflexivity.
Qed.

Lemma has_row_length cl o : length (has_row e cl o) = n_comps e.
Proof. unfold has_row. rewrite map_length. reflexivity. Qed.
Lemma normalize_row_length w h l : normalize_row w h = Some l -> (length l <= length h)%nat.
Proof.
  unfold normalize_row. destruct (Qeq_bool _ 0); [discriminate|]. intros [= <-]. rewrite map_length, map2_length. lia.
Qed.
Lemma source_probs_short cl o : probs_short (source_probs e cl o).
Proof.
  unfold probs_short, source_probs. apply Forall_map, Forall_forall. intros f _.
  destruct (e_from_prior e).
  - destruct (normalize_row _ _) eqn:En; auto. apply normalize_row_length in En. rewrite has_row_length in En. auto.
  - unfold source_posterior. destruct (normalize_row _ _) eqn:En; auto. apply normalize_row_length in En. rewrite has_row_length in En.
    unfold normalize. destruct (Qeq_bool _ 0); auto. rewrite map_length, mapi_length. auto.
Qed.
Lemma source_probs_length cl o : length (source_probs e cl o) = e_nf e.
Proof. unfold source_probs. rewrite map_length, seq_length. reflexivity. Qed.

Definition cube_dec : forall x y : list (list (list bool)), {x = y} + {x <> y} := list_eq_dec row_dec.

Definition rows_dist (cl : bmat) (objs : list nat) :=
  prod_dist (map (fun o => prod_dist (map (sample_obs e) (source_probs e cl o))) objs).

Lemma rows_point cl objs src q : Forall (fun o => row_ok (nth o src [])) objs ->
  rows_prob e cl objs src = Some q ->
  point cube_dec (rows_dist cl objs) (map (fun o => nth o src []) objs) == q.
Proof.
  intros Hok Hq. unfold point, cube_dec, rows_dist. rewrite prod_point by (rewrite !map_length; auto).
  unfold rows_prob in Hq. apply fold_omult_some in Hq as (qs & Hqs & ->).
  revert qs Hqs; induction Hok as [|o objs [Ho Hh] _ IH]; intros qs Hqs; simpl in *.
  - destruct qs; [reflexivity|discriminate].
  - destruct qs as [|q qs]; [discriminate|]. simpl in Hqs. injection Hqs as H1 H2.
    rewrite !Qprod_cons, (IH qs), (row_point (q := q)); auto; [reflexivity|apply source_probs_short|].
    rewrite source_probs_length; auto.
Qed.

(** Setting rows: the result determines the rows. *)
Lemma set_rows_length src : forall objs rows, length (set_rows src objs rows) = length src.
Proof.
  intros objs; revert src; induction objs as [|o objs IH]; intros src [|r rows]; simpl; auto.
  rewrite IH, upd_length. reflexivity.
Qed.
Lemma set_rows_other objs : forall src rows i, ~ In i objs -> nth i (set_rows src objs rows) [] = nth i src [].
Proof.
  induction objs as [|o objs IH]; intros src [|r rows] i Hi; simpl in *; auto.
  rewrite IH by tauto. apply nth_upd_other. tauto.
Qed.
Lemma set_rows_in objs : forall src rows, NoDup objs -> Forall (fun o => (o < length src)%nat) objs -> length rows = length objs ->
  map (fun o => nth o (set_rows src objs rows) []) objs = rows.
Proof.
  induction objs as [|o objs IH]; intros src [|r rows] Hn Hl Hlen; simpl in *; try discriminate; auto.
  inversion Hn; inversion Hl; subst. f_equal.
  - rewrite set_rows_other by auto. apply nth_upd_same; auto.
  - rewrite IH; auto. apply Forall_forall. intros x Hx. rewrite upd_length.
    match goal with H : Forall _ objs |- _ => rewrite Forall_forall in H; auto end.
Qed.
Lemma nth_ext_cube (a b : cube) : length a = length b -> (forall i, nth i a [] = nth i b []) -> a = b.
Proof.
  intros Hl H. apply (nth_ext a b [] []); auto.
Qed.
(** [src'] agrees with [src] outside of [objs]. *)
Definition agree (objs : list nat) (src src' : cube) : Prop :=
  length src' = length src /\ forall i, ~ In i objs -> nth i src' [] = nth i src [].
Lemma set_rows_agree src objs rows : agree objs src (set_rows src objs rows).
Proof. split; [apply set_rows_length|intros; apply set_rows_other; auto]. Qed.
Lemma set_rows_back objs : forall src src', NoDup objs -> agree objs src src' ->
  set_rows src objs (map (fun o => nth o src' []) objs) = src'.
Proof.
  intros src src' Hn [Hl Ha].
  apply nth_ext_cube; [rewrite set_rows_length; auto|]. intros i.
  destruct (in_dec Nat.eq_dec i objs) as [Hi|Hi].
  - destruct (Nat.lt_ge_cases i (length src')) as [Hlt|Hge].
    2:{ rewrite !nth_overflow; auto. rewrite set_rows_length; lia. }
    clear Ha. revert src Hl Hi. induction Hn as [|o objs Ho Hn IH]; intros src Hl Hi; [contradiction|].
    simpl. destruct Hi as [->|Hi].
    + rewrite set_rows_other by auto. apply nth_upd_same. lia.
    + apply IH; auto. rewrite upd_length; auto.
  - rewrite set_rows_other by auto. rewrite Ha; auto.
Qed.

(** The distribution of [finish] at a given target. *)
Lemma supp_rows_length cl objs rows : supp (rows_dist cl objs) rows -> length rows = length objs.
Proof. intros H. apply supp_prod_dist, Forall2_len in H. rewrite map_length in H. auto. Qed.

Definition src_factor (x : cstate) (cl' : bmat) (objs : list nat) (y : cstate) : option Q :=
  if e_resample e then match x_source y with Some s => rows_prob e cl' objs s | None => Some 1 end else Some 1.

(** [y] can be reached by setting sources of [objs] and the clusters [cl']. *)
Definition target (must : bool) (x : cstate) (cl' : bmat) (objs : list nat) (y : cstate) : Prop :=
  x_clusters y = cl' /\
  if e_resample e then
    match x_source x, x_source y with
    | Some s, Some s' => agree objs s s' /\ Forall (fun o => row_ok (nth o s' [])) objs
    | None, None => must = false
    | _, _ => False
    end
  else x_source y = x_source x.

Lemma finish_mass must x cl' objs q qb y s : NoDup objs -> target must x cl' objs y ->
  (forall src, x_source x = Some src -> Forall (fun o => (o < length src)%nat) objs) ->
  src_factor x cl' objs y = Some s ->
  mass (finish e must x cl' objs q qb) y == s.
Proof.
  intros Hn [Hc Ht] Hlt Hs. unfold finish, src_factor in *. destruct y as [ycl ysrc]; simpl in *; subst ycl.
  destruct (e_resample e).
  - destruct (x_source x) as [src|] eqn:Ex; destruct ysrc as [src'|] eqn:Ey; try contradiction.
    + destruct Ht as [Ha Hok]. rewrite mass_bind.
      rewrite <- (rows_point Hok Hs). unfold point, rows_dist.
      apply E_ext_supp. intros rows Hrows.
      rewrite mass_E, E_ret. unfold ind.
      destruct (cstate_eq_dec _ _) as [He|He].
      * injection He as He. destruct (cube_dec rows _) as [Hr|Hr]; [reflexivity|]. exfalso; apply Hr.
        rewrite <- He. symmetry. apply set_rows_in; auto. eapply supp_rows_length; exact Hrows.
      * destruct (cube_dec rows _) as [Hr|Hr]; [|reflexivity]. exfalso; apply He. f_equal. f_equal. subst rows.
        apply set_rows_back; auto.
    + subst must. injection Hs as <-. rewrite mass_E, E_ret. rewrite ind_propose. reflexivity.
  - subst ysrc. injection Hs as <-. rewrite mass_E, E_ret, ind_propose. reflexivity.
Qed.

Lemma finish_mass_other must x cl' objs q qb y : x_clusters y <> cl' -> mass (finish e must x cl' objs q qb) y == 0.
Proof.
  intros H. apply mass_zero. intros q' qb' Hs. apply supp_finish in Hs. auto.
Qed.

Definition oeq (a b : option Q) : Prop :=
  match a, b with Some x, Some y => x == y | None, None => True | _, _ => False end.
Lemma oeq_refl a : oeq a a. Proof. destruct a; simpl; auto; reflexivity. Qed.
Lemma omult_1 a : oeq a (omult a (Some 1)).
Proof. destruct a; simpl; auto. ring. Qed.

Lemma supp_sample_obs p v : supp (sample_obs e p) v -> match p with Some l => (length l <= n_comps e)%nat | None => True end -> hot v.
Proof.
  destruct p as [l|]; simpl; intros H Hl.
  - destruct H as (q & Hin & _). apply In_nth_error in Hin as (c & Hc). rewrite nth_error_mapi in Hc.
    destruct (nth_error l c) eqn:El; [|discriminate]. injection Hc as <- _. exists c; split; auto.
    assert (c < length l)%nat; [apply nth_error_Some; congruence|lia].
  - apply supp_ret in H. exists 0%nat. split; auto. unfold n_comps; lia.
Qed.
Lemma supp_row_ok cl o r : supp (prod_dist (map (sample_obs e) (source_probs e cl o))) r -> row_ok r.
Proof.
  intros H. apply supp_prod_dist in H. split.
  - apply Forall2_len in H. rewrite map_length, source_probs_length in H. auto.
  - pose proof (source_probs_short cl o) as Hs. revert r H. induction Hs as [|p ps Hp _ IH]; intros r H; inversion H; subst; constructor.
    + eapply supp_sample_obs; eauto.
    + apply IH; auto.
Qed.
Lemma supp_rows_ok cl objs rows : supp (rows_dist cl objs) rows -> Forall row_ok rows.
Proof.
  intros H. apply supp_prod_dist in H. revert rows H. induction objs as [|o objs IH]; intros rows H; inversion H; subst; constructor.
  - eapply supp_row_ok; eauto.
  - apply IH; auto.
Qed.

Lemma source_ok_rows x src o : source_ok e x -> x_source x = Some src -> (o < n_objects e)%nat -> row_ok (nth o src []).
Proof.
  unfold source_ok. intros H Hx Ho. rewrite Hx in H. destruct H as [Hl H]. rewrite Forall_forall in H. apply H.
  apply nth_In. congruence.
Qed.

(** Reported factors of [finish]. *)
Lemma supp_finish_full must x cl' objs q0 qb0 y q qb : source_ok e x -> NoDup objs ->
  Forall (fun o => (o < n_objects e)%nat) objs ->
  supp (finish e must x cl' objs q0 qb0) (Propose y q qb) ->
  target must x cl' objs y /\ oeq q (omult q0 (src_factor x cl' objs y)) /\
  oeq qb (omult qb0 (src_factor y (x_clusters x) objs x)) /\
  target must y (x_clusters x) objs x /\ source_ok e y.
Proof.
  intros Hok Hn Hobj. unfold finish, target, src_factor. destruct (e_resample e) eqn:Er.
  - destruct (x_source x) as [src|] eqn:Ex.
    + intros H. apply supp_bind in H as (rows & Hrows & H). apply supp_ret in H. injection H as -> -> ->. simpl.
      fold (rows_dist cl' objs) in Hrows. pose proof (supp_rows_ok Hrows) as Hro. pose proof (supp_rows_length Hrows) as Hlen.
      pose proof Hok as Hok'. unfold source_ok in Hok'. rewrite Ex in Hok'. destruct Hok' as [Hsl Hsr].
      pose proof (set_rows_agree src objs rows) as [Ha1 Ha2].
      assert (Hnew : Forall (fun o => row_ok (nth o (set_rows src objs rows) [])) objs).
      { assert (Hin : map (fun o => nth o (set_rows src objs rows) []) objs = rows).
        { apply set_rows_in; auto. rewrite Hsl; auto. }
        rewrite <- Hin in Hro. apply (proj1 (Forall_map _ _ _)) in Hro. exact Hro. }
      conj; auto; try apply oeq_refl.
      * split; auto.
      * split; [lia|]. intros i Hi. symmetry; auto.
      * apply Forall_forall. intros o Ho. eapply source_ok_rows; eauto. rewrite Forall_forall in Hobj; auto.
      * unfold source_ok; simpl. split; [rewrite set_rows_length; auto|].
        apply Forall_forall. intros r Hr. apply (In_nth _ _ []) in Hr as (i & Hi & <-).
        rewrite set_rows_length in Hi.
        destruct (in_dec Nat.eq_dec i objs) as [Hin|Hin].
        -- rewrite Forall_forall in Hnew. exact (Hnew i Hin).
        -- rewrite set_rows_other by auto. rewrite Forall_forall in Hsr. apply Hsr. apply nth_In; auto.
    + intros H. apply supp_ret in H. destruct must; [discriminate|]. injection H as -> -> ->. simpl.
      conj; auto; first [apply omult_1 | exact I].
  - intros H. apply supp_ret in H. injection H as -> -> ->. simpl. conj; auto; try apply omult_1.
Qed.

(** * The random-walk operator *)
Lemma add_object_nth cl z a : (z < length cl)%nat -> (a < length (nth z cl []))%nat ->
  nth_error (nth z (add_object cl z a) []) a = Some true.
Proof.
  intros Hz Ha. unfold add_object. rewrite nth_upd_same by auto. rewrite nth_error_upd_same.
  destruct (nth_error (nth z cl []) a) eqn:E; [reflexivity|]. apply nth_error_None in E; lia.
Qed.
Lemma remove_add cl z a : (z < length cl)%nat -> nth_error (nth z cl []) a = Some false ->
  remove_object (add_object cl z a) z a = cl.
Proof.
  intros Hz Ha. unfold remove_object, add_object. apply nth_error_ext. intros i. rewrite !nth_error_upd.
  destruct (Nat.eqb_spec z i) as [<-|]; auto. destruct (nth_error cl z) as [c|] eqn:E; auto. simpl. f_equal.
  rewrite (nth_error_nth _ _ [] E) in Ha. apply nth_error_ext. intros j. rewrite !nth_error_upd.
  destruct (Nat.eqb_spec a j) as [<-|]; auto. rewrite Ha. reflexivity.
Qed.
Lemma add_remove cl z a : (z < length cl)%nat -> nth_error (nth z cl []) a = Some true ->
  add_object (remove_object cl z a) z a = cl.
Proof.
  intros Hz Ha. unfold remove_object, add_object. apply nth_error_ext. intros i. rewrite !nth_error_upd.
  destruct (Nat.eqb_spec z i) as [<-|]; auto. destruct (nth_error cl z) as [c|] eqn:E; auto. simpl. f_equal.
  rewrite (nth_error_nth _ _ [] E) in Ha. apply nth_error_ext. intros j. rewrite !nth_error_upd.
  destruct (Nat.eqb_spec a j) as [<-|]; auto. rewrite Ha. reflexivity.
Qed.

(** The total number of memberships. *)
Definition total (cl : bmat) : nat := list_sum (map size cl).
Lemma total_upd cl f z c : nth_error cl z = Some c -> (total (upd z f cl) + size c = total cl + size (f c))%nat.
Proof.
  revert z; induction cl as [|r cl IH]; intros [|z] H; simpl in *; try discriminate.
  - injection H as ->. unfold total; simpl. lia.
  - specialize (IH _ H). unfold total in *; simpl. lia.
Qed.
Lemma total_add cl z a : (z < length cl)%nat -> nth_error (nth z cl []) a = Some false ->
  total (add_object cl z a) = S (total cl).
Proof.
  intros Hz Ha. destruct (nth_error cl z) as [c|] eqn:E; [|apply nth_error_None in E; lia].
  rewrite (nth_error_nth _ _ [] E) in Ha. pose proof (total_upd (upd a (fun _ => true)) E) as H.
  rewrite (size_upd_true Ha) in H. unfold add_object. lia.
Qed.
Lemma total_remove cl z a : (z < length cl)%nat -> nth_error (nth z cl []) a = Some true ->
  S (total (remove_object cl z a)) = total cl.
Proof.
  intros Hz Ha. destruct (nth_error cl z) as [c|] eqn:E; [|apply nth_error_None in E; lia].
  rewrite (nth_error_nth _ _ [] E) in Ha. pose proof (total_upd (upd a (fun _ => false)) E) as H.
  pose proof (size_upd_false Ha). unfold remove_object. lia.
Qed.

(** Distinct choices give distinct clusterings. *)
Lemma add_inj cl z a z' a' : (z < length cl)%nat -> (z' < length cl)%nat ->
  nth_error (nth z cl []) a = Some false -> nth_error (nth z' cl []) a' = Some false ->
  add_object cl z a = add_object cl z' a' -> z = z' /\ a = a'.
Proof.
  intros Hz Hz' Ha Ha' H.
  assert (H1 : nth_error (nth z (add_object cl z' a') []) a = Some true).
  { rewrite <- H. apply add_object_nth; auto. apply nth_error_Some; congruence. }
  unfold add_object in H1. destruct (Nat.eq_dec z' z) as [<-|Hne].
  - rewrite nth_upd_same, nth_error_upd in H1 by auto. destruct (Nat.eqb_spec a' a); auto. congruence.
  - rewrite nth_upd_other in H1 by auto. congruence.
Qed.
Lemma remove_inj cl z a z' a' : (z < length cl)%nat -> (z' < length cl)%nat ->
  nth_error (nth z cl []) a = Some true -> nth_error (nth z' cl []) a' = Some true ->
  remove_object cl z a = remove_object cl z' a' -> z = z' /\ a = a'.
Proof.
  intros Hz Hz' Ha Ha' H.
  assert (H1 : nth_error (nth z (remove_object cl z' a') []) a = Some false).
  { rewrite <- H. unfold remove_object. rewrite nth_upd_same, nth_error_upd_same, Ha by auto. reflexivity. }
  unfold remove_object in H1. destruct (Nat.eq_dec z' z) as [<-|Hne].
  - rewrite nth_upd_same, nth_error_upd in H1 by auto. destruct (Nat.eqb_spec a' a); auto. congruence.
  - rewrite nth_upd_other in H1 by auto. congruence.
Qed.

Lemma NoDup_nonzero c : NoDup (nonzero c).
Proof. unfold nonzero. apply NoDup_filter, seq_NoDup. Qed.
Lemma ids_length x : length (ids x) = length (x_clusters x).
Proof. unfold ids. apply seq_length. Qed.

Variable k : nat.
Section Grow.
Variables (x y : cstate) (z a : nat) (s : Q).
Let cl := x_clusters x.
Hypothesis Hshape : cluster_shape k (n_objects e) cl.
Hypothesis Hz : (z < length cl)%nat.
Hypothesis Ha : (a < n_objects e)%nat.
Hypothesis Hfree : any_group cl a = false.
Hypothesis Hy : x_clusters y = add_object cl z a.
Hypothesis Hs : forall must q qb, target must x (add_object cl z a) [a] y ->
  mass (finish e must x (add_object cl z a) [a] q qb) y == s.

Lemma free_cell z' a' : (z' < length cl)%nat -> (a' < n_objects e)%nat -> any_group cl a' = false ->
  nth_error (nth z' cl []) a' = Some false.
Proof.
  intros Hz' Ha' Hf. destruct Hshape as [_ Hn].
  eapply free_row; eauto. apply nth_error_nth'; auto.
Qed.

Lemma finish_other must z' a' q qb : (z' < length cl)%nat -> (a' < n_objects e)%nat -> any_group cl a' = false ->
  (z' <> z \/ a' <> a) -> mass (finish e must x (add_object cl z' a') [a'] q qb) y == 0.
Proof.
  intros Hz' Ha' Hf Hne. apply finish_mass_other. rewrite Hy. intros H. apply add_inj in H; auto using free_cell. intuition.
Qed.

Lemma grow_mass : target true x (add_object cl z a) [a] y -> (size (nth z cl []) < e_max e)%nat ->
  mass (alter_cluster e x) y ==
  (1#2) * inv_nat (length cl) *
   (((1 - e_pconn e) * inv_nat (size (bnot (any_cluster (n_objects e) cl))) +
    (if nth a (get_neighbours (nth z cl []) (any_cluster (n_objects e) cl) (e_adj e)) false
     then e_pconn e * inv_nat (size (get_neighbours (nth z cl []) (any_cluster (n_objects e) cl) (e_adj e))) else 0)) * s).
Proof.
  intros Ht Hmax. unfold alter_cluster. rewrite mass_bind, E_flip.
  assert (Hshr : mass (shrink e x) y == 0).
  { apply mass_zero. intros q qb Hsup. apply supp_shrink in Hsup as (z' & a' & Hz' & Ha' & _ & E).
    assert (T1 : total (x_clusters y) = S (total cl)) by (rewrite Hy; apply total_add; auto using free_cell).
    rewrite E in T1. pose proof (total_remove Hz' Ha') as T2. unfold cl in *. lia. }
  assert (Hgrow : mass (grow e x) y == inv_nat (length cl) *
    (((1 - e_pconn e) * inv_nat (size (bnot (any_cluster (n_objects e) cl))) +
    (if nth a (get_neighbours (nth z cl []) (any_cluster (n_objects e) cl) (e_adj e)) false
     then e_pconn e * inv_nat (size (get_neighbours (nth z cl []) (any_cluster (n_objects e) cl) (e_adj e))) else 0)) * s)).
  { unfold grow. unfold cl at 1. rewrite <- ids_length. apply (@mass_choose _ _ _ z).
    - unfold ids; apply seq_NoDup.
    - apply in_ids; auto.
    - unfold grow_at. fold cl. cbv zeta. destruct (Nat.leb_spec (e_max e) (size (nth z cl []))); [lia|].
      rewrite mass_bind, E_flip. set (nb := get_neighbours (nth z cl []) (any_cluster (n_objects e) cl) (e_adj e)).
      set (fr := bnot (any_cluster (n_objects e) cl)).
      assert (Hin : nth_error fr a = Some true).
      { unfold fr. apply nth_error_bnot. simpl. rewrite nth_error_any_cluster by auto. congruence. }
      assert (Hex : existsb (fun b : bool => b) fr = true).
      { apply existsb_exists. exists true; split; auto. eapply nth_error_In; eauto. }
      rewrite Hex. simpl negb.
      assert (H2 : forall Q1 Q2, mass (choose (nonzero fr) (fun a0 => finish e true x (add_object cl z a0) [a0] (Q1 a0) (Q2 a0))) y
               == inv_nat (size fr) * s).
      { intros Q1 Q2. rewrite <- nonzero_length. apply (@mass_choose _ _ _ a).
        - apply NoDup_nonzero.
        - apply in_nonzero; auto.
        - apply Hs; auto.
        - intros b Hb Hne. apply in_nonzero, free_true in Hb as [Hb1 Hb2]. apply finish_other; auto. }
      rewrite H2.
      assert (H1 : forall Q1 Q2, mass (if negb (existsb (fun b : bool => b) nb) then ret Reject else
          choose (nonzero nb) (fun a0 => finish e true x (add_object cl z a0) [a0] (Q1 a0) (Q2 a0))) y
               == (if nth a nb false then inv_nat (size nb) * s else 0)).
      { intros Q1 Q2. destruct (nth a nb false) eqn:En.
        - assert (Hn : nth_error nb a = Some true).
          { destruct (nth_error nb a) eqn:E; [rewrite (nth_error_nth _ _ false E) in En; congruence|].
            apply nth_error_None in E. rewrite nth_overflow in En by auto. discriminate. }
          assert (Hexn : existsb (fun b : bool => b) nb = true).
          { apply existsb_exists. exists true; split; auto. eapply nth_error_In; eauto. }
          rewrite Hexn. simpl negb. cbv iota. rewrite <- nonzero_length. apply (@mass_choose _ _ _ a).
          + apply NoDup_nonzero.
          + apply in_nonzero; auto.
          + apply Hs; auto.
          + intros b Hb Hne. apply in_nonzero, neighbours_free in Hb as [Hb1 Hb2]. apply finish_other; auto.
        - apply mass_zero. intros q qb Hsup. destruct (negb _); [apply supp_ret in Hsup; discriminate|].
          apply supp_choose in Hsup as [[Hx _]|(b & Hb & Hsup)]; [discriminate|]. apply supp_finish in Hsup.
          apply in_nonzero in Hb. pose proof Hb as Hb'. apply neighbours_free in Hb' as [Hb1 Hb2].
          rewrite Hy in Hsup. apply add_inj in Hsup as [_ <-]; auto using free_cell.
          rewrite (nth_error_nth _ _ false Hb) in En. discriminate. }
      rewrite H1. destruct (nth a nb false); ring.
    - intros z' Hz' Hne. apply in_ids in Hz'. apply mass_zero. intros q qb Hsup. unfold grow_at in Hsup. fold cl in Hsup. cbv zeta in Hsup.
      destruct (e_max e <=? _)%nat; [apply supp_ret in Hsup; discriminate|].
      apply supp_bind in Hsup as (c & _ & Hsup).
      destruct (negb _); [apply supp_ret in Hsup; discriminate|].
      apply supp_choose in Hsup as [[Hx _]|(b & Hb & Hsup)]; [discriminate|]. apply supp_finish in Hsup.
      assert (Hb' : (b < n_objects e)%nat /\ any_group cl b = false).
      { apply in_nonzero in Hb. destruct c; [eapply neighbours_free|eapply free_true]; eauto. }
      destruct Hb' as [Hb1 Hb2]. rewrite Hy in Hsup. apply add_inj in Hsup as [? _]; auto using free_cell. }
  rewrite Hshr, Hgrow. ring.
Qed.
End Grow.

Section Shrink.
Variables (x y : cstate) (z a : nat) (s : Q).
Let cl := x_clusters x.
Hypothesis Hshape : cluster_shape k (n_objects e) cl.
Hypothesis Hz : (z < length cl)%nat.
Hypothesis Ha : nth_error (nth z cl []) a = Some true.
Hypothesis Hy : x_clusters y = remove_object cl z a.
Hypothesis Hs : forall must q qb, target must x (remove_object cl z a) [a] y ->
  mass (finish e must x (remove_object cl z a) [a] q qb) y == s.

Lemma shrink_mass : target true x (remove_object cl z a) [a] y -> (e_min e < size (nth z cl []))%nat ->
  mass (alter_cluster e x) y == (1#2) * inv_nat (length cl) * (inv_nat (size (nth z cl [])) * s).
Proof.
  intros Ht Hmin. unfold alter_cluster. rewrite mass_bind, E_flip.
  assert (Hgrow : mass (grow e x) y == 0).
  { apply mass_zero. intros q qb Hsup. apply supp_grow in Hsup as (z' & a' & Hz' & Ha' & Hf & _ & E).
    pose proof (total_remove Hz Ha) as T1.
    assert (T2 : total (add_object cl z' a') = S (total cl)).
    { apply total_add; auto. destruct Hshape as [_ Hn]. eapply free_row; eauto. apply nth_error_nth'; auto. }
    unfold cl in *. rewrite Hy in E. rewrite E in T1. lia. }
  assert (Hshr : mass (shrink e x) y == inv_nat (length cl) * (inv_nat (size (nth z cl [])) * s)).
  { unfold shrink. unfold cl at 1. rewrite <- ids_length. apply (@mass_choose _ _ _ z).
    - unfold ids; apply seq_NoDup.
    - apply in_ids; auto.
    - unfold shrink_at. fold cl. cbv zeta. destruct (Nat.leb_spec (size (nth z cl [])) (e_min e)); [lia|].
      rewrite <- nonzero_length. apply (@mass_choose _ _ _ a).
      + apply NoDup_nonzero.
      + apply in_nonzero; auto.
      + apply Hs; auto.
      + intros b Hb Hne. apply in_nonzero in Hb. apply finish_mass_other. rewrite Hy. intros Heq.
        apply remove_inj in Heq as [_ Heq]; auto.
    - intros z' Hz' Hne. apply in_ids in Hz'. apply mass_zero. intros q qb Hsup. unfold shrink_at in Hsup. fold cl in Hsup. cbv zeta in Hsup.
      destruct (_ <=? e_min e)%nat; [apply supp_ret in Hsup; discriminate|].
      apply supp_choose in Hsup as [[Hx _]|(b & Hb & Hsup)]; [discriminate|]. apply supp_finish in Hsup.
      apply in_nonzero in Hb. rewrite Hy in Hsup. apply remove_inj in Hsup as [? _]; auto. }
  rewrite Hshr, Hgrow. ring.
Qed.
End Shrink.

Lemma oeq_some a b q : oeq a b -> a = Some q -> exists r, b = Some r /\ q == r.
Proof. intros H ->. destruct b as [r|]; simpl in H; [eauto|contradiction]. Qed.

Lemma target_finish x cl' objs y s : NoDup objs -> Forall (fun o => (o < n_objects e)%nat) objs -> source_ok e x ->
  src_factor x cl' objs y = Some s ->
  forall must' q qb, target must' x cl' objs y -> mass (finish e must' x cl' objs q qb) y == s.
Proof.
  intros Hn Hobj Hok Hs must' q qb Ht. apply finish_mass; auto.
  intros src Hsrc. unfold source_ok in Hok. rewrite Hsrc in Hok. destruct Hok as [-> _]. auto.
Qed.

(** From [x], an object [a] not in any cluster joins cluster [z]; [y] is the result. *)
Lemma free_after_remove cl z a : cluster_shape k (n_objects e) cl -> disjoint_groups cl -> (z < length cl)%nat ->
  nth_error (nth z cl []) a = Some true -> any_group (remove_object cl z a) a = false.
Proof.
  intros Hsh Hd Hz Ha. destruct (any_group (remove_object cl z a) a) eqn:E; auto.
  unfold any_group in E. apply existsb_exists in E as (c & Hc & Hac). apply (In_nth _ _ []) in Hc as (i & Hi & <-).
  pose proof Hac as Hac'. apply remove_sub in Hac'.
  assert (i = z). { eapply Hd; eauto. apply nth_error_nth; auto. } subst i.
  unfold remove_object in Hac. rewrite nth_upd_same in Hac by auto.
  assert (Hn : nth_error (upd a (fun _ => false) (nth z cl [])) a = Some false) by (rewrite nth_error_upd_same, Ha; reflexivity).
  rewrite (nth_error_nth _ _ false Hn) in Hac. discriminate.
Qed.
Lemma row_length cl z : cluster_shape k (n_objects e) cl -> (z < length cl)%nat -> length (nth z cl []) = n_objects e.
Proof. intros [_ H] Hz. rewrite Forall_forall in H. apply H, nth_In; auto. Qed.

Lemma two_k n q : (1#2) * inv_nat n * q == q / (2 * inject_Z (Z.of_nat n)).
Proof.
  unfold inv_nat. destruct n as [|n].
  - simpl. unfold Qdiv, inject_Z. simpl. unfold Qinv; simpl. ring.
  - field. unfold Qeq, inject_Z; simpl; lia.
Qed.

Lemma shrink_mass_at x y z a s : cluster_shape k (n_objects e) (x_clusters x) -> (z < length (x_clusters x))%nat ->
  nth_error (nth z (x_clusters x) []) a = Some true -> target true x (remove_object (x_clusters x) z a) [a] y ->
  source_ok e x -> src_factor x (remove_object (x_clusters x) z a) [a] y = Some s ->
  (e_min e < size (nth z (x_clusters x) []))%nat ->
  mass (alter_cluster e x) y == (1#2) * inv_nat (length (x_clusters x)) * (inv_nat (size (nth z (x_clusters x) [])) * s).
Proof.
  intros Hsh Hz Ha Ht Hok Hs Hmin. eapply shrink_mass; eauto; [apply Ht|].
  apply target_finish; auto; [repeat constructor; auto|].
  constructor; auto. rewrite <- (row_length Hsh Hz). apply nth_error_Some; congruence.
Qed.
Lemma grow_mass_at x y z a s : cluster_shape k (n_objects e) (x_clusters x) -> (z < length (x_clusters x))%nat ->
  (a < n_objects e)%nat -> any_group (x_clusters x) a = false -> target true x (add_object (x_clusters x) z a) [a] y ->
  source_ok e x -> src_factor x (add_object (x_clusters x) z a) [a] y = Some s ->
  (size (nth z (x_clusters x) []) < e_max e)%nat ->
  mass (alter_cluster e x) y == (1#2) * inv_nat (length (x_clusters x)) *
   (((1 - e_pconn e) * inv_nat (size (bnot (any_cluster (n_objects e) (x_clusters x)))) +
    (if nth a (get_neighbours (nth z (x_clusters x) []) (any_cluster (n_objects e) (x_clusters x)) (e_adj e)) false
     then e_pconn e * inv_nat (size (get_neighbours (nth z (x_clusters x) []) (any_cluster (n_objects e) (x_clusters x)) (e_adj e))) else 0)) * s).
Proof.
  intros Hsh Hz Ha Hf Ht Hok Hs Hmin. eapply grow_mass; eauto; [apply Ht|].
  apply target_finish; auto; repeat constructor; auto.
Qed.

Theorem alter_reversible x y q qb : cluster_shape k (n_objects e) (x_clusters x) -> disjoint_groups (x_clusters x) ->
  sizes_in (e_min e) (e_max e) (x_clusters x) -> source_ok e x ->
  supp (alter_cluster e x) (Propose y q qb) ->
  (forall r, q = Some r -> mass (alter_cluster e x) y == r / (2 * inject_Z (Z.of_nat k))) /\
  (forall r, qb = Some r -> mass (alter_cluster e y) x == r / (2 * inject_Z (Z.of_nat k))).
Proof.
  intros Hsh Hd Hsz Hok Hsup. pose proof Hsh as [Hk Hn].
  assert (Hsize : forall z, (z < length (x_clusters x))%nat -> (e_min e <= size (nth z (x_clusters x) []) <= e_max e)%nat).
  { intros z Hz. unfold sizes_in in Hsz. rewrite Forall_forall in Hsz. rewrite size_count. apply Hsz, nth_In; auto. }
  apply supp_alter in Hsup as [Hsup|Hsup].
  - (* shrink *)
    unfold shrink in Hsup. apply supp_choose in Hsup as [[Hx _]|(z & Hz & Hsup)]; [discriminate|]. apply in_ids in Hz.
    unfold shrink_at in Hsup. cbv zeta in Hsup.
    destruct (Nat.leb_spec (size (nth z (x_clusters x) [])) (e_min e)) as [Hm|Hm]; [apply supp_ret in Hsup; discriminate|].
    apply supp_choose in Hsup as [[Hx _]|(a & Ha & Hsup)]; [discriminate|]. apply in_nonzero in Ha.
    assert (Halt : (a < n_objects e)%nat) by (rewrite <- (row_length Hsh Hz); apply nth_error_Some; congruence).
    apply supp_finish_full in Hsup as (Ht & Hq & Hqb & Htb & Hoky); auto; [|repeat constructor; auto].
    split; intros r Hr.
    + destruct (oeq_some Hq Hr) as (t & Ht' & ->). apply omult_some in Ht' as (u & s & [= <-] & Hs & ->).
      rewrite (shrink_mass_at Hsh Hz Ha Ht Hok Hs Hm), nonzero_length, two_k, Hk. reflexivity.
    + destruct (oeq_some Hqb Hr) as (t & Ht' & ->). apply omult_some in Ht' as (u & s & [= <-] & Hs & ->).
      destruct Ht as [Hcl Ht]. set (cl' := remove_object (x_clusters x) z a) in *.
      assert (Hsh' : cluster_shape k (n_objects e) (x_clusters y)).
      { rewrite Hcl. apply shape_upd; auto. intros; apply upd_length. }
      assert (Hback : add_object (x_clusters y) z a = x_clusters x) by (rewrite Hcl; apply add_remove; auto).
      assert (Hzy : (z < length (x_clusters y))%nat) by (destruct Hsh' as [-> _]; lia).
      assert (Hfree : any_group (x_clusters y) a = false) by (rewrite Hcl; eapply free_after_remove; eauto).
      assert (Hsy : (size (nth z (x_clusters y) []) < e_max e)%nat).
      { rewrite Hcl. unfold cl', remove_object. rewrite nth_upd_same by auto. pose proof (size_upd_false Ha).
        specialize (Hsize z Hz). lia. }
      rewrite <- Hback in Htb, Hs.
      rewrite (grow_mass_at Hsh' Hzy Halt Hfree Htb Hoky Hs Hsy), two_k, (proj1 Hsh').
      rewrite Hcl. reflexivity.
  - (* grow *)
    unfold grow in Hsup. apply supp_choose in Hsup as [[Hx _]|(z & Hz & Hsup)]; [discriminate|]. apply in_ids in Hz.
    unfold grow_at in Hsup. cbv zeta in Hsup.
    destruct (Nat.leb_spec (e_max e) (size (nth z (x_clusters x) []))) as [Hm|Hm]; [apply supp_ret in Hsup; discriminate|].
    apply supp_bind in Hsup as (c & _ & Hsup). cbv zeta in Hsup.
    destruct (negb _); [apply supp_ret in Hsup; discriminate|].
    apply supp_choose in Hsup as [[Hx _]|(a & Ha & Hsup)]; [discriminate|].
    assert (Hf : (a < n_objects e)%nat /\ any_group (x_clusters x) a = false).
    { apply in_nonzero in Ha. destruct c; [eapply neighbours_free|eapply free_true]; eauto. }
    clear Ha. destruct Hf as [Ha Hf].
    apply supp_finish_full in Hsup as (Ht & Hq & Hqb & Htb & Hoky); auto; [|repeat constructor; auto].
    split; intros r Hr.
    + destruct (oeq_some Hq Hr) as (t & Ht' & ->). apply omult_some in Ht' as (u & s & [= <-] & Hs & ->).
      rewrite (grow_mass_at Hsh Hz Ha Hf Ht Hok Hs Hm), two_k, Hk. reflexivity.
    + destruct (oeq_some Hqb Hr) as (t & Ht' & ->). apply omult_some in Ht' as (u & s & [= <-] & Hs & ->).
      destruct Ht as [Hcl Ht]. set (cl' := add_object (x_clusters x) z a) in *.
      assert (Hcell : nth_error (nth z (x_clusters x) []) a = Some false).
      { eapply free_row; eauto. apply nth_error_nth'; auto. }
      assert (Hsh' : cluster_shape k (n_objects e) (x_clusters y)).
      { rewrite Hcl. apply shape_upd; auto. intros; apply upd_length. }
      assert (Hback : remove_object (x_clusters y) z a = x_clusters x) by (rewrite Hcl; apply remove_add; auto).
      assert (Hzy : (z < length (x_clusters y))%nat) by (destruct Hsh' as [-> _]; lia).
      assert (Hay : nth_error (nth z (x_clusters y) []) a = Some true).
      { rewrite Hcl. apply add_object_nth; auto. rewrite (row_length Hsh Hz); auto. }
      assert (Hsy : size (nth z (x_clusters y) []) = (size (nth z (x_clusters x) []) + 1)%nat).
      { rewrite Hcl. unfold cl', add_object. rewrite nth_upd_same by auto. rewrite (size_upd_true Hcell). lia. }
      rewrite <- Hback in Htb, Hs.
      assert (Hmy : (e_min e < size (nth z (x_clusters y) []))%nat) by (specialize (Hsize z Hz); lia).
      rewrite (shrink_mass_at Hsh' Hzy Hay Htb Hoky Hs Hmy), two_k, (proj1 Hsh'), Hsy. reflexivity.
Qed.
End Source.
