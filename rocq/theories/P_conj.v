(** C27: the Gibbs updates of effects sample from the full conditional. *)
From Coq Require Import Lra.
From Verif Require Import M_conj L_model L_source S_cache L_cache L_operators.
Set Implicit Arguments.
Unset Strict Implicit.
Open Scope R_scope.

(** * Sums *)
Lemma Rsum_app l r : Rsum (l ++ r) = Rsum l + Rsum r.
Proof. induction l; simpl; [lra|]. rewrite IHl. lra. Qed.
Lemma Rsum_concat (ls : list (list R)) : Rsum (concat ls) = Rsum (map Rsum ls).
Proof. induction ls; simpl; auto. rewrite Rsum_app, IHls. reflexivity. Qed.
Lemma Rsum_ext A (l : list A) (F G : A -> R) : (forall x, In x l -> F x = G x) -> Rsum (map F l) = Rsum (map G l).
Proof. intros H. f_equal. apply map_ext_in. exact H. Qed.
Lemma Rsum_0 A (l : list A) : Rsum (map (fun _ => 0) l) = 0.
Proof. induction l; simpl; lra. Qed.
Lemma Rsum_plus A (l : list A) (F G : A -> R) : Rsum (map (fun x => F x + G x) l) = Rsum (map F l) + Rsum (map G l).
Proof. induction l; simpl; [lra|]. rewrite IHl. lra. Qed.
Lemma Rsum_swap A B (l : list A) (r : list B) (F : A -> B -> R) :
  Rsum (map (fun a => Rsum (map (F a) r)) l) = Rsum (map (fun b => Rsum (map (fun a => F a b) l)) r).
Proof. induction l; simpl; [rewrite Rsum_0; auto|]. rewrite IHl, <- Rsum_plus. reflexivity. Qed.
Lemma Rsum_mult A (l : list A) (F : A -> R) c : Rsum (map (fun x => F x * c) l) = Rsum (map F l) * c.
Proof. induction l; simpl; [lra|]. rewrite IHl. lra. Qed.
Lemma Rsum_count A (P : A -> bool) (l : list A) : Rsum (map (fun x => if P x then 1 else 0) l) = INR (length (filter P l)).
Proof. induction l as [|a l IH]; auto. cbn [map Rsum fold_right filter]. fold (Rsum (map (fun x => if P x then 1 else 0) l)). rewrite IH. destruct (P a); cbn [length]; [rewrite S_INR|]; lra. Qed.
Lemma mapi_seq A B (h : nat -> A -> B) (d : A) l : mapi h l = map (fun i => h i (nth i l d)) (seq 0 (length l)).
Proof.
  apply nth_error_ext. intros i. rewrite nth_error_mapi, nth_error_map. destruct (nth_error l i) as [x|] eqn:E.
  - assert (Hi := nth_error_Some_lt _ _ E). rewrite nth_error_nth' with (d := 0%nat) by (rewrite seq_length; auto). rewrite seq_nth by auto. simpl. rewrite (nth_error_nth l i d E). reflexivity.
  - apply nth_error_None in E. rewrite (proj2 (nth_error_None _ _)) by (rewrite seq_length; auto). reflexivity.
Qed.
Lemma Rsum_concat_mapi A T (F : T -> R) (h : nat -> A -> list T) d l :
  Rsum (map F (concat (mapi h l))) = Rsum (map (fun i => Rsum (map F (h i (nth i l d)))) (seq 0 (length l))).
Proof. rewrite concat_map, Rsum_concat, (mapi_seq _ d), !map_map. reflexivity. Qed.
Lemma Rsum_pick (v : list bool) c x : Rsum (map (fun i => if nth i v false then if Nat.eqb i c then x else 0 else 0) (seq 0 (length v))) = if nth c v false then x else 0.
Proof.
  assert (H : forall k n (P : nat -> bool), Rsum (map (fun i => if P i then if Nat.eqb i c then x else 0 else 0) (seq k n)) = if (Nat.leb k c && Nat.ltb c (k + n) && P c)%bool then x else 0).
  { intros k n P. revert k. induction n as [|n IH]; intros k; cbn [seq map Rsum fold_right].
    - destruct (Nat.leb_spec k c), (Nat.ltb_spec c (k + 0)); simpl; auto; lia.
    - fold (Rsum (map (fun i => if P i then if Nat.eqb i c then x else 0 else 0) (seq (S k) n))). rewrite IH.
      destruct (Nat.eqb_spec k c) as [->|Hne].
      + destruct (Nat.leb_spec (S c) c); [lia|]. destruct (Nat.leb_spec c c); [|lia]. destruct (Nat.ltb_spec c (c + S n)); [|lia]. simpl. destruct (P c); lra.
      + assert (E : (Nat.leb (S k) c && Nat.ltb c (S k + n) = Nat.leb k c && Nat.ltb c (k + S n))%bool).
        { destruct (Nat.leb_spec (S k) c), (Nat.ltb_spec c (S k + n)), (Nat.leb_spec k c), (Nat.ltb_spec c (k + S n)); simpl; auto; lia. }
        rewrite E. destruct (P k), (Nat.leb k c && Nat.ltb c (k + S n) && P c)%bool; lra. }
  rewrite (H 0%nat (length v) (fun i => nth i v false)). simpl Nat.leb. rewrite Nat.add_0_l. destruct (Nat.ltb_spec c (length v)); simpl; auto.
  rewrite nth_overflow by auto. reflexivity.
Qed.
(** The sum over the positions of component [c] of a source. *)
Lemma sum_positions (G : nat -> nat -> R) c n nf (src : cube) : length src = n -> (forall o, (o < n)%nat -> length (nth o src []) = nf) ->
  Rsum (map (fun t => match t with (o, f, c') => if Nat.eqb c' c then G o f else 0 end) (source_positions src)) =
  Rsum (map (fun o => Rsum (map (fun f => if nth c (nth f (nth o src []) []) false then G o f else 0) (seq 0 nf))) (seq 0 n)).
Proof.
  intros Hn Hf. unfold source_positions. rewrite (Rsum_concat_mapi _ _ []), Hn. apply Rsum_ext. intros o Ho. apply in_seq in Ho.
  rewrite (Rsum_concat_mapi _ _ []), Hf by lia. apply Rsum_ext. intros f _.
  rewrite (Rsum_concat_mapi _ _ false). rewrite <- (Rsum_pick (nth f (nth o src []) []) c (G o f)). apply Rsum_ext. intros i _.
  destruct (nth i _ false); simpl; lra.
Qed.

(** * Factorisation of the likelihood *)
(** Observations have at most one state, among the applicable ones. *)
Definition coded_features (applicable : list (list bool)) (features : cube) : Prop :=
  forall o f s, nth s (nth f (nth o features []) []) false = true ->
    nth s (nth f applicable []) false = true /\ forall s', nth s' (nth f (nth o features []) []) false = true -> s' = s.
(** An effect with positive probabilities of the applicable states. *)
Definition positive_effect (nf : nat) (applicable : list (list bool)) (p : effect) : Prop :=
  length p = nf /\ forall f s, nth s (nth f applicable []) false = true -> (0 < nth s (nth f p []) 0)%Q.
(** Shapes of the arrays, groups without overlap, and an existing group [g]. *)
Record conj_setting (e : env) (cl : bmat) (src : cube) (which : option nat) (g : nat) : Prop := {
  cs_features : Forall (fun row => length row = e_nf e) (e_features e);
  cs_src : length src = length (e_features e);
  cs_src_f : forall o, (o < length (e_features e))%nat -> length (nth o src []) = e_nf e;
  cs_disjoint : disjoint_groups (groups_of e cl which);
  cs_group : (g < length (groups_of e cl which))%nat;
  cs_conf : forall k, which = Some k -> (k < length (e_conf e))%nat /\ length (e_cf e) = length (e_conf e);
  cs_effects : let probs := match which with None => e_ce e | Some k => nth k (e_cf e) [] end in
    length probs = length (groups_of e cl which) /\ Forall (fun p => length p = e_nf e) probs }.

Lemma state_prob_one v (p : list Q) s : nth s v false = true -> (forall s', nth s' v false = true -> s' = s) ->
  (state_prob v p == nth s p 0)%Q.
Proof.
  unfold state_prob. revert p s. induction v as [|b v IH]; intros p s Hs Hu; [destruct s; discriminate|].
  assert (Hz : forall v (p : list Q), (forall s', nth s' v false = false) -> (Qsum (map2 (fun (b : bool) q => if b then q else 0) v p) == 0)%Q).
  { clear. induction v as [|b v IH]; intros [|x p] H; simpl; try reflexivity. rewrite (IH p (fun i => H (S i))). assert (H0 := H 0%nat). simpl in H0. rewrite H0. ring. }
  destruct p as [|x p]; [destruct s; reflexivity|]. destruct s as [|s]; simpl in *.
  - subst b. rewrite Hz; [ring|]. intros s'. destruct (nth s' v false) eqn:E; auto. specialize (Hu (S s') E). discriminate.
  - destruct b; [specialize (Hu 0%nat eq_refl); discriminate|]. rewrite (IH p s Hs); [ring|]. intros s' H. specialize (Hu (S s') H). lia.
Qed.
Lemma Rsum_zero_in A (l : list A) (F : A -> R) : (forall x, In x l -> F x = 0) -> Rsum (map F l) = 0.
Proof. intros H. rewrite (Rsum_ext (G := fun _ => 0)); auto. apply Rsum_0. Qed.
Lemma nodup_sum_one (l : list nat) (F : nat -> R) s : NoDup l -> In s l -> (forall x, x <> s -> F x = 0) -> Rsum (map F l) = F s.
Proof.
  induction 1 as [|a l Ha Hl IH]; intros Hs HF; [destruct Hs|]. cbn [map Rsum fold_right]. fold (Rsum (map F l)). destruct Hs as [->|Hs].
  - rewrite Rsum_zero_in; [lra|]. intros x Hx. apply HF. intros ->. contradiction.
  - rewrite IH by auto. rewrite HF; [lra|]. intros ->. contradiction.
Qed.
Lemma nth_map2_component e (gs : list bmat) (ps : list (list effect)) k : length ps = length gs -> (k < length gs)%nat ->
  nth k (map2 (fun g p => component e p g) gs ps) [] = component e (nth k ps []) (nth k gs []).
Proof.
  revert ps k. induction gs as [|x gs IH]; intros [|y ps] k Hl Hk; simpl in *; try lia. destruct k as [|k]; auto. apply IH; lia.
Qed.
Lemma nth_map2_component_other e e' (gs : list bmat) (ps : list (list effect)) k h j : j <> k ->
  (forall p g, component e p g = component e' p g) ->
  nth j (map2 (fun g p => component e p g) gs (upd k h ps)) [] = nth j (map2 (fun g p => component e' p g) gs ps) [].
Proof.
  intros Hjk He. revert ps k j Hjk. induction gs as [|x gs IH]; intros [|y ps] k j Hjk; simpl; auto; destruct k as [|k]; simpl; auto.
  - destruct j as [|j]; [congruence|]. clear -He. revert ps j. induction gs as [|x' gs IH']; intros [|y' ps] j; simpl; auto. destruct j as [|j]; auto.
  - destruct j as [|j]; [apply He|]. apply IH. lia.
Qed.
Lemma component_with e which g p probs gs : component (with_effect e which g p) probs gs = component e probs gs.
Proof. reflexivity. Qed.
Lemma positions_in (src : cube) o f c : In (o, f, c) (source_positions src) -> (o < length src)%nat /\ (f < length (nth o src []))%nat.
Proof.
  unfold source_positions. intros H. apply in_concat in H. destruct H as (l & Hl & H). apply In_nth_error in Hl. destruct Hl as (o' & Ho).
  rewrite nth_error_mapi in Ho. destruct (nth_error src o') as [s_o|] eqn:Eo; [|discriminate]. simpl in Ho. injection Ho as <-.
  apply in_concat in H. destruct H as (l & Hl & H). apply In_nth_error in Hl. destruct Hl as (f' & Hf).
  rewrite nth_error_mapi in Hf. destruct (nth_error s_o f') as [s_f|] eqn:Ef; [|discriminate]. simpl in Hf. injection Hf as <-.
  apply in_concat in H. destruct H as (l & Hl & H). apply In_nth_error in Hl. destruct Hl as (c' & Hc).
  rewrite nth_error_mapi in Hc. destruct (nth_error s_f c') as [b|] eqn:Ec; [|discriminate]. simpl in Hc. injection Hc as <-.
  destruct b; [|destruct H]. destruct H as [E|[]]. injection E as -> -> ->.
  rewrite (nth_error_nth src o [] Eo). split; [eapply nth_error_Some_lt; eauto|eapply nth_error_Some_lt; eauto].
Qed.
Lemma Q2R_Qprod (l : list Q) : Q2R (Qprod l) = fold_right Rmult 1 (map Q2R l).
Proof. induction l as [|q l IH]; simpl; [unfold Q2R; simpl; lra|]. rewrite Q2R_mult, IH. reflexivity. Qed.
Definition Rprod (l : list R) : R := fold_right Rmult 1 l.
Lemma Rprod_factor A (l : list A) (F C : A -> R) (G : A -> R) : (forall x, In x l -> F x = C x * exp (G x)) ->
  Rprod (map F l) = Rprod (map C l) * exp (Rsum (map G l)).
Proof.
  induction l as [|a l IH]; intros H; simpl; [rewrite exp_0; lra|]. fold (Rprod (map F l)) (Rprod (map C l)) (Rsum (map G l)).
  rewrite IH by (intros x Hx; apply H; right; auto). rewrite (H a (or_introl eq_refl)), exp_plus. ring.
Qed.
Lemma Rprod_nonneg A (l : list A) (F : A -> R) : (forall x, In x l -> 0 <= F x) -> 0 <= Rprod (map F l).
Proof.
  induction l as [|a l IH]; intros H; simpl; [lra|]. apply Rmult_le_pos; [apply H; left; auto|apply IH; intros x Hx; apply H; right; auto].
Qed.

Lemma nth_set_same A (l : list A) g x d : (g < length l)%nat -> nth g (upd g (fun _ => x) l) d = x.
Proof. revert g; induction l as [|y l IH]; intros [|g] H; simpl in *; try lia; auto. apply IH. lia. Qed.
Lemma nth_set_other A (l : list A) g x d i : i <> g -> nth i (upd g (fun _ => x) l) d = nth i l d.
Proof. revert g i; induction l as [|y l IH]; intros [|g] [|i] H; simpl; try congruence; auto. Qed.

Section Factor.
Variable (e : env) (cl : bmat) (src : cube) (which : option nat) (g : nat) (applicable : list (list bool)).
Hypothesis HS : conj_setting e cl src which g.
Hypothesis HA : coded_features applicable (e_features e).
Notation c := (source_index which).
Notation groups := (groups_of e cl which).
Let probs := match which with None => e_ce e | Some k => nth k (e_cf e) [] end.

Lemma lhs_component p : length p = e_nf e -> 
  nth c (component_lhs (with_effect e which g p) cl) [] = spec_component (e_nf e) (e_features e) (upd g (fun _ => p) probs) groups.
Proof.
  intros Hp. destruct (cs_effects HS) as (Hl & Hpf). fold probs in Hl, Hpf. rewrite <- component_spec; [|rewrite upd_length; exact Hl|apply (cs_disjoint HS)].
  unfold component_lhs, with_effect. destruct which as [k|] eqn:E; cbn [e_ce e_conf e_cf source_index nth]; [|reflexivity].
  destruct (cs_conf HS eq_refl) as (Hk & Hcf). change (nth k (map2 (fun g0 p0 => component e p0 g0) (e_conf e) (upd k (upd g (fun _ => p)) (e_cf e))) [] = component e (upd g (fun _ => p) probs) (nth k (e_conf e) [])).
  rewrite nth_map2_component by (auto; rewrite upd_length; auto). f_equal. unfold probs.
  destruct (nth_error (e_cf e) k) as [ps|] eqn:Ek; [|apply nth_error_None in Ek; lia].
  rewrite (nth_error_nth (e_cf e) k [] Ek). apply nth_error_nth. unfold effect in *. rewrite nth_error_upd_same. unfold effect in *. rewrite Ek. reflexivity.
Qed.
Lemma lhs_other p c' : c' <> c -> nth c' (component_lhs (with_effect e which g p) cl) [] = nth c' (component_lhs e cl) [].
Proof.
  intros Hc. unfold component_lhs, with_effect. destruct which as [k|]; cbn [e_ce e_conf e_cf source_index] in *.
  - destruct c' as [|j]; [reflexivity|]. cbn [nth]. apply nth_map2_component_other; auto.
  - destruct c' as [|j]; [congruence|]. reflexivity.
Qed.
Definition attributed (o c' : nat) : bool := (Nat.eqb c' c && nth o (nth g groups []) false)%bool.
(** The log-probability of the observation at ([o], [f]) under [p]: its state is the only one. *)
Definition obs_log (p : effect) (o f : nat) : R :=
  Rsum (map (fun s => (if nth s (nth f (nth o (e_features e) []) []) false then 1 else 0) * ln (Q2R (nth s (nth f p []) 0%Q))) (nonzero (nth f applicable []))).
Lemma cell p p' o f c' : positive_effect (e_nf e) applicable p -> positive_effect (e_nf e) applicable p' -> (o < length (e_features e))%nat -> (f < e_nf e)%nat ->
  Q2R (lh_at (component_lhs (with_effect e which g p) cl) o f c') =
  (if attributed o c' then 1 else Q2R (lh_at (component_lhs (with_effect e which g p') cl) o f c')) * exp (if attributed o c' then obs_log p o f else 0).
Proof.
  intros (Hp & Hpos) (Hp' & Hpos') Ho Hf. unfold attributed. destruct (Nat.eqb_spec c' c) as [->|Hc].
  2:{ simpl. rewrite exp_0. unfold lh_at. rewrite !lhs_other by auto. lra. }
  destruct (cs_effects HS) as (Hl & Hpf). fold probs in Hl, Hpf.
  destruct (nth_error (e_features e) o) as [f_o|] eqn:Eo; [|apply nth_error_None in Eo; lia].
  assert (Hfo : length f_o = e_nf e) by (assert (H := cs_features HS); rewrite Forall_forall in H; apply H; eapply nth_error_In; eauto).
  assert (Hv : forall q : effect, length q = e_nf e -> lh_at (component_lhs (with_effect e which g q) cl) o f c =
    if forallb negb (nth f f_o []) then 1%Q else match group_of groups o with None => 0%Q | Some i => state_prob (nth f f_o []) (nth f (nth i (upd g (fun _ => q) probs) []) []) end).
  { intros q Hq. unfold lh_at. rewrite lhs_component by auto. apply spec_value; auto.
    - rewrite upd_length. exact Hl.
    - apply Forall_forall. intros x Hx. apply In_nth_error in Hx. destruct Hx as (i & Hi). rewrite nth_error_upd in Hi.
      destruct (Nat.eqb g i); [destruct (nth_error (A := effect) probs i) eqn:E'; [simpl in Hi; injection Hi as <-; auto|discriminate]|].
      rewrite Forall_forall in Hpf. apply Hpf. eapply nth_error_In; eauto. }
  rewrite (Hv p Hp), (Hv p' Hp'). cbn [andb].
  destruct (nth o (nth g groups []) false) eqn:Eg.
  - assert (Hg := @group_of_unique _ _ _ (cs_disjoint HS) Eg). rewrite Hg.
    assert (Hup : nth g (upd g (fun _ => p) probs) [] = p).
    { apply nth_set_same. assert (Hlt := cs_group HS). unfold effect, bmat in *. lia. }
    rewrite Hup. unfold obs_log. rewrite (nth_error_nth _ o [] Eo). destruct (forallb negb (nth f f_o [])) eqn:En.
    + rewrite Rsum_zero_in; [rewrite exp_0; unfold Q2R; simpl; lra|]. intros s _. destruct (nth s (nth f f_o []) false) eqn:Es; [|lra].
      exfalso. rewrite forallb_forall in En. destruct (nth_in_or_default s (nth f f_o []) false) as [Hin|E']; [|congruence]. rewrite Es in Hin. specialize (En _ Hin). discriminate.
    + destruct (not_na En) as (s & Hs). assert (HAo := HA (o := o) (f := f) (s := s)). rewrite (nth_error_nth _ o [] Eo) in HAo. destruct (HAo Hs) as (Happ & Hu).
      rewrite (nodup_sum_one (s := s)).
      * rewrite Hs. rewrite Rmult_1_l, Rmult_1_l. rewrite exp_ln.
        -- apply Qeq_eqR. apply state_prob_one; auto.
        -- replace 0 with (Q2R 0) by (unfold Q2R; simpl; lra). apply Qlt_Rlt. apply Hpos, Happ.
      * apply L_reverse.NoDup_nonzero.
      * apply in_nonzero. destruct (nth_error (nth f applicable []) s) as [b|] eqn:Eb; [rewrite (nth_error_nth _ s false Eb) in Happ; congruence|].
        apply nth_error_None in Eb. rewrite nth_overflow in Happ by auto. discriminate.
      * intros x Hx. destruct (nth x (nth f f_o []) false) eqn:E'; [apply Hu in E'; contradiction|lra].
  - rewrite exp_0, Rmult_1_r. destruct (forallb negb (nth f f_o [])); auto. destruct (group_of groups o) as [i|] eqn:Ei; auto.
    assert (Hgi : i <> g). { intros ->. apply group_of_in in Ei. congruence. }
    assert (Hn : forall q : effect, nth i (upd g (fun _ => q) probs) [] = nth i probs []).
    { intros q. apply nth_set_other, Hgi. }
    rewrite !Hn. reflexivity.
Qed.
Lemma factor p0 : positive_effect (e_nf e) applicable p0 -> e_from_prior e = false ->
  exists K, forall p, positive_effect (e_nf e) applicable p ->
    exists L, source_likelihood (with_effect e which g p) cl src = Some L /\
    Q2R L = K * exp (Rsum (map (fun f => Rsum (map (fun s => INR (feature_count e groups src c g f s) * ln (Q2R (nth s (nth f p []) 0%Q))) (nonzero (nth f applicable [])))) (seq 0 (e_nf e)))).
Proof.
  intros Hp0 Hfp. exists (Rprod (map (fun t => match t with (o, f, c') => if attributed o c' then 1 else Q2R (lh_at (component_lhs (with_effect e which g p0) cl) o f c') end) (source_positions src))).
  intros p Hp. unfold source_likelihood. cbn [e_from_prior with_effect]. rewrite Hfp. unfold oprod, source_lhs.
  rewrite (@all_some_map _ _ _ (fun t => match t with (o, f, c') => lh_at (component_lhs (with_effect e which g p) cl) o f c' end)) by (intros [[o f] c'] _; reflexivity).
  eexists. split; [reflexivity|]. rewrite Q2R_Qprod, map_map.
  fold (Rprod (map (fun x => Q2R (let '(o, f, c') := x in lh_at (component_lhs (with_effect e which g p) cl) o f c')) (source_positions src))).
  rewrite (@Rprod_factor _ _ _ (fun t => match t with (o, f, c') => if attributed o c' then 1 else Q2R (lh_at (component_lhs (with_effect e which g p0) cl) o f c') end)
    (fun t => match t with (o, f, c') => if Nat.eqb c' c then (if nth o (nth g groups []) false then obs_log p o f else 0) else 0 end)).
  - f_equal. f_equal. rewrite (@sum_positions (fun o f => if nth o (nth g groups []) false then obs_log p o f else 0) c (length (e_features e)) (e_nf e)); [|apply (cs_src HS)|apply (cs_src_f HS)].
    rewrite Rsum_swap. apply Rsum_ext. intros f _.
    transitivity (Rsum (map (fun o => Rsum (map (fun s => (if (nth c (nth f (nth o src []) []) false && nth o (nth g groups []) false && nth s (nth f (nth o (e_features e) []) []) false)%bool then 1 else 0) * ln (Q2R (nth s (nth f p []) 0%Q))) (nonzero (nth f applicable [])))) (seq 0 (length (e_features e))))).
    + apply Rsum_ext. intros o _. unfold obs_log.
      destruct (nth c (nth f (nth o src []) []) false); cbn [andb]; [|symmetry; apply Rsum_zero_in; intros; lra].
      destruct (nth o (nth g groups []) false); cbn [andb]; [reflexivity|symmetry; apply Rsum_zero_in; intros; lra].
    + rewrite Rsum_swap. apply Rsum_ext. intros s _. rewrite Rsum_mult, Rsum_count. unfold feature_count. rewrite Hfp. reflexivity.
  - intros [[o f] c'] Hin. apply positions_in in Hin. rewrite (cs_src HS) in Hin. destruct Hin as (Ho & Hf). rewrite (cs_src_f HS) in Hf by auto.
    rewrite (cell c' Hp Hp0 Ho Hf). unfold attributed. destruct (Nat.eqb c' c); reflexivity.
Qed.
End Factor.

(** * Conjugacy *)
(** One row of concentrations per feature, one entry per applicable state. *)
Definition concentration_shape (nf : nat) (applicable : list (list bool)) (pr : effect_prior) : Prop :=
  length applicable = nf /\ match pr with
  | UniformPrior => True
  | DirichletPrior counts => length counts = nf /\ forall f, (f < nf)%nat -> length (nth f counts []) = size (nth f applicable [])
  end.
Lemma nth_concentration nf applicable pr f : concentration_shape nf applicable pr -> (f < nf)%nat ->
  length (nth f (concentration applicable pr) []) = length (nonzero (nth f applicable [])).
Proof.
  intros (Ha & Hc) Hf. rewrite nonzero_length. destruct pr as [|counts]; simpl.
  - rewrite (nth_indep _ [] (repeat 1 (size []))) by (rewrite map_length; lia). rewrite (map_nth (fun app => repeat 1 (size app))), repeat_length. reflexivity.
  - destruct Hc as (Hl & Hc). change ([] : list R) with (map (fun c => 1 + c) []) at 1. rewrite map_nth, map_length. auto.
Qed.
Lemma nth_uniform applicable f : nth f (concentration applicable UniformPrior) [] = repeat 1 (length (nonzero (nth f applicable []))).
Proof.
  simpl. rewrite nonzero_length. destruct (Nat.lt_ge_cases f (length applicable)).
  - rewrite (nth_indep _ [] (repeat 1 (size []))) by (rewrite map_length; lia). apply (map_nth (fun app => repeat 1 (size app))).
  - rewrite !nth_overflow; auto; try (rewrite map_length; auto). 
Qed.
Lemma logpdf_sum lnB (conc : list R) (idx : list nat) (N F : nat -> R) : length conc = length idx ->
  dirichlet_logpdf lnB (map F idx) (map2 Rplus conc (map N idx)) =
  - lnB (map2 Rplus conc (map N idx)) + Rsum (map2 (fun a y => (a - 1) * ln y) conc (map F idx)) + Rsum (map (fun s => N s * ln (F s)) idx).
Proof.
  intros Hl. unfold dirichlet_logpdf. rewrite Rplus_assoc. f_equal. revert conc Hl. induction idx as [|s idx IH]; intros [|a conc] Hl; simpl in *; try lia; [lra|].
  specialize (IH conc ltac:(lia)). rewrite IH. lra.
Qed.
Lemma gibbs_alpha_eq e cl src applicable pr which g f : (which = None -> pr = UniformPrior) ->
  gibbs_alpha e cl src applicable pr which g f =
  map2 Rplus (nth f (concentration applicable pr) []) (map (fun s => INR (feature_count e (groups_of e cl which) src (source_index which) g f s)) (nonzero (nth f applicable []))).
Proof.
  intros H. unfold gibbs_alpha, feature_counts. destruct which as [k|]; [reflexivity|]. rewrite (H eq_refl), nth_uniform.
  induction (nonzero (nth f applicable [])) as [|s l IH]; [reflexivity|]. cbn [map length repeat map2]. rewrite IH. reflexivity.
Qed.
Lemma sum_log_prior lnB nf applicable pr (p : effect) : length p = nf -> concentration_shape nf applicable pr ->
  log_prior_effect lnB applicable pr p =
  (match pr with UniformPrior => 0 | _ => Rsum (map (fun f => - lnB (nth f (concentration applicable pr) [])) (seq 0 nf)) end) +
  Rsum (map (fun f => Rsum (map2 (fun a y => (a - 1) * ln y) (nth f (concentration applicable pr) []) (applicable_probs applicable p f))) (seq 0 nf)).
Proof.
  intros Hp Hs. destruct pr as [|counts].
  - unfold log_prior_effect. rewrite Rsum_zero_in; [lra|]. intros f _. rewrite nth_uniform. unfold applicable_probs.
    induction (nonzero (nth f applicable [])) as [|s l IH]; [reflexivity|]. cbn [map length repeat map2]. unfold Rsum in *. cbn [fold_right]. rewrite IH. lra.
  - unfold log_prior_effect, compute_group_effect_prior. rewrite Hp, <- Rsum_plus. apply Rsum_ext. reflexivity.
Qed.
(** As a function of the effect [p] of group [g] of the clusters or of a confounder, prior density times likelihood given
    the source is proportional to the density from which the operator samples: the Gibbs update draws from the full
    conditional, so that always accepting is correct.  The same holds when sampling from the prior. *)
Theorem C27_conjugate lnB e cl src which g applicable pr : conj_setting e cl src which g -> coded_features applicable (e_features e) ->
  concentration_shape (e_nf e) applicable pr -> (which = None -> pr = UniformPrior) ->
  exists K, forall p, positive_effect (e_nf e) applicable p ->
    exists L, source_likelihood (with_effect e which g p) cl src = Some L /\
    exp (log_prior_effect lnB applicable pr p) * Q2R L = K * exp (gibbs_logpdf lnB e cl src applicable pr which g p) /\
    ((0 < L)%Q -> 0 < K).
Proof.
  intros HS HA HC Hcl.
  assert (Hp0 : positive_effect (e_nf e) applicable (map (map (fun _ => 1%Q)) applicable)).
  { destruct HC as (Ha & _). split; [rewrite map_length; auto|]. intros f s Hs. change ([] : list Q) with (map (fun _ : bool => 1%Q) []). rewrite map_nth.
    rewrite (nth_indep _ 0%Q 1%Q); [|rewrite map_length; destruct (Nat.lt_ge_cases s (length (nth f applicable []))) as [H|H]; auto; rewrite nth_overflow in Hs by auto; discriminate].
    rewrite (map_nth (fun _ : bool => 1%Q) _ false). reflexivity. }
  set (cnt := feature_count e (groups_of e cl which) src (source_index which) g).
  assert (HF : exists K0, forall p, positive_effect (e_nf e) applicable p -> exists L, source_likelihood (with_effect e which g p) cl src = Some L /\
    Q2R L = K0 * exp (Rsum (map (fun f => Rsum (map (fun s => INR (cnt f s) * ln (Q2R (nth s (nth f p []) 0%Q))) (nonzero (nth f applicable [])))) (seq 0 (e_nf e))))).
  { destruct (e_from_prior e) eqn:Efp.
    - exists 1. intros p _. exists 1%Q. unfold source_likelihood. cbn [e_from_prior with_effect]. rewrite Efp. split; auto.
      rewrite Rsum_zero_in; [rewrite exp_0; unfold Q2R; simpl; lra|]. intros f _. apply Rsum_zero_in. intros s _. unfold cnt, feature_count. rewrite Efp. simpl. lra.
    - apply (factor HS HA Hp0 Efp). }
  destruct HF as (K0 & HF).
  set (A := match pr with UniformPrior => 0 | _ => Rsum (map (fun f => - lnB (nth f (concentration applicable pr) [])) (seq 0 (e_nf e))) end).
  set (B := Rsum (map (fun f => - lnB (gibbs_alpha e cl src applicable pr which g f)) (seq 0 (e_nf e)))).
  exists (K0 * exp (A - B)). intros p Hp. destruct (HF p Hp) as (L & HL & E). exists L. split; auto.
  assert (Hmain : exp (log_prior_effect lnB applicable pr p) * Q2R L = K0 * exp (A - B) * exp (gibbs_logpdf lnB e cl src applicable pr which g p)).
  { rewrite E. rewrite (sum_log_prior lnB (nf := e_nf e)) by (auto; apply Hp). fold A.
    unfold gibbs_logpdf.
    rewrite (@Rsum_ext _ _ (fun f => dirichlet_logpdf lnB (applicable_probs applicable p f) (gibbs_alpha e cl src applicable pr which g f)) (fun f => - lnB (gibbs_alpha e cl src applicable pr which g f) +
      (Rsum (map2 (fun a y => (a - 1) * ln y) (nth f (concentration applicable pr) []) (applicable_probs applicable p f)) +
       Rsum (map (fun s => INR (cnt f s) * ln (Q2R (nth s (nth f p []) 0%Q))) (nonzero (nth f applicable [])))))).
    2:{ intros f Hf. apply in_seq in Hf. rewrite gibbs_alpha_eq by auto. unfold applicable_probs.
        rewrite (@logpdf_sum lnB _ _ (fun s => INR (feature_count e (groups_of e cl which) src (source_index which) g f s)) (fun s => Q2R (nth s (nth f p []) 0%Q))); [fold cnt; lra|].
        eapply nth_concentration; [exact HC|lia]. }
    rewrite !Rsum_plus. fold B. rewrite Rmult_assoc, <- exp_plus.
    match goal with |- exp ?a * (K0 * exp ?b) = K0 * exp ?c => replace c with (a + b) by lra; rewrite (exp_plus a b); ring end. }
  split; auto. intros HLpos. apply Qlt_Rlt in HLpos. replace (Q2R 0) with 0 in HLpos by (unfold Q2R; simpl; lra).
  assert (0 < exp (log_prior_effect lnB applicable pr p) * Q2R L) by (apply Rmult_lt_0_compat; auto; apply exp_pos).
  rewrite Hmain in H. apply (Rmult_lt_reg_r (exp (gibbs_logpdf lnB e cl src applicable pr which g p))); [apply exp_pos|]. rewrite Rmult_0_l. exact H.
Qed.
Print Assumptions C27_conjugate.

(** The draws fill the applicable entries of the effect; the others keep their value. *)
Lemma nonzero_cons b v : nonzero (b :: v) = if b then 0%nat :: map S (nonzero v) else map S (nonzero v).
Proof.
  unfold nonzero. simpl. rewrite <- seq_shift. 
  assert (E : forall l, filter (fun o => match o with O => b | S m => nth m v false end) (map S l) = map S (filter (fun o => nth o v false) l)).
  { induction l as [|x l IH]; simpl; auto. rewrite IH. destruct (nth x v false); reflexivity. }
  rewrite E. reflexivity.
Qed.
Lemma scatter_spec app : forall row draw, length row = length app -> length draw = size app ->
  map (fun s => nth s (scatter_q app row draw) 0%Q) (nonzero app) = draw /\
  forall s, nth s app false = false -> nth s (scatter_q app row draw) 0%Q = nth s row 0%Q.
Proof.
  induction app as [|b app IH]; intros [|x row] draw Hr Hd; simpl in *; try lia.
  - destruct draw; [|simpl in Hd; unfold size in Hd; simpl in Hd; lia]. split; auto. 
  - rewrite nonzero_cons. unfold size in Hd. simpl in Hd. destruct b.
    + destruct draw as [|d draw]; simpl in Hd; [lia|]. destruct (IH row draw ltac:(lia) ltac:(unfold size; lia)) as (H1 & H2). split.
      * simpl. f_equal. rewrite map_map. exact H1.
      * intros [|s] Hs; [discriminate|]. simpl in *. apply H2, Hs.
    + destruct (IH row draw ltac:(lia) ltac:(unfold size; lia)) as (H1 & H2). split.
      * rewrite map_map. exact H1.
      * intros [|s] Hs; simpl in *; auto.
Qed.
Theorem C27_draws applicable : forall (p : effect) draws, length p = length applicable -> length draws = length applicable ->
  (forall f, (f < length applicable)%nat -> length (nth f p []) = length (nth f applicable []) /\ length (nth f draws []) = size (nth f applicable [])) ->
  forall f, (f < length applicable)%nat ->
    map (fun s => nth s (nth f (gibbs_effect applicable p draws) []) 0%Q) (nonzero (nth f applicable [])) = nth f draws [] /\
    forall s, nth s (nth f applicable []) false = false -> nth s (nth f (gibbs_effect applicable p draws) []) 0%Q = nth s (nth f p []) 0%Q.
Proof.
  induction applicable as [|app applicable IH]; intros [|row p] [|d draws] Hp Hd H f Hf; cbn [length] in *; try lia.
  destruct f as [|f]; cbn [gibbs_effect nth].
  - destruct (H 0%nat ltac:(lia)) as (H1 & H2). apply scatter_spec; auto.
  - apply IH; try lia. intros f' Hf'. apply (H (S f')). lia.
Qed.
Print Assumptions C27_draws.

(** Two clusters, one confounder with two groups, an observation missing, a state that is not applicable. *)
Definition conj_env : env :=
  {| e_features := [[[true; false; false]; [false; true; false]]; [[false; false; true]; [false; false; false]]; [[true; false; false]; [true; false; false]]];
     e_nf := 2; e_conf := [[[true; false; true]; [false; true; false]]]; e_weights := [[1#2; 1#2]; [1#2; 1#2]]%Q;
     e_ce := [[[1#2; 1#4; 1#4]; [1#2; 1#2; 0]]; [[1#3; 1#3; 1#3]; [1#2; 1#2; 0]]]%Q;
     e_cf := [[[[1#2; 1#4; 1#4]; [1#2; 1#2; 0]]; [[1#3; 1#3; 1#3]; [1#2; 1#2; 0]]]]%Q;
     e_adj := []; e_pconn := 0; e_min := 1; e_max := 3; e_resample := true; e_from_prior := false |}.
Definition conj_cl : bmat := [[true; true; false]; [false; false; true]].
Definition conj_src : cube := [[[true; false]; [false; true]]; [[true; false]; [true; false]]; [[false; true]; [false; true]]].
Definition conj_app : list (list bool) := [[true; true; true]; [true; true; false]].
Example C27_demo_setting : conj_setting conj_env conj_cl conj_src None 0 /\ conj_setting conj_env conj_cl conj_src (Some 0%nat) 1 /\
  coded_features conj_app (e_features conj_env) /\ concentration_shape 2 conj_app (DirichletPrior [[1; 2; 3]; [0; 4]]).
Proof.
  assert (D : forall gs : bmat, forallb (fun o => Nat.leb (length (filter (fun g => nth o g false) gs)) 1) (seq 0 3) = true -> Forall (fun g => length g = 3%nat) gs -> length gs = 2%nat -> disjoint_groups gs).
  { intros [|g0 [|g1 [|? ?]]] H HF Hl; simpl in Hl; try lia. intros o i j Hi Hj. inversion HF as [|? ? H0 HF']; subst. inversion HF' as [|? ? H1 _]; subst.
    assert (Ho : (o < 3)%nat). { destruct (Nat.lt_ge_cases o 3) as [|Hge]; auto. exfalso. destruct i as [|[|i]]; cbn [nth] in Hi; rewrite nth_overflow in Hi; try discriminate; try lia. destruct i; simpl; lia. }
    rewrite forallb_forall in H. specialize (H o ltac:(apply in_seq; lia)). cbn [filter] in H.
    destruct i as [|[|i]]; destruct j as [|[|j]]; cbn [nth] in Hi, Hj; auto; try (destruct i; destruct o; discriminate); try (destruct j; destruct o; discriminate); rewrite Hi, Hj in H; discriminate. }
  conj.
  - constructor; try reflexivity; try discriminate.
    + repeat constructor.
    + intros o Ho. destruct o as [|[|[|o]]]; try reflexivity. simpl in Ho. lia.
    + apply D; try reflexivity. repeat constructor.
    + simpl. lia.
    + cbv zeta. split; [reflexivity|]. unfold conj_env; cbn [e_ce e_cf nth e_nf]. repeat (apply Forall_cons; [reflexivity|]); apply Forall_nil.
  - constructor; try reflexivity.
    + repeat constructor.
    + intros o Ho. destruct o as [|[|[|o]]]; try reflexivity. simpl in Ho. lia.
    + apply D; try reflexivity. repeat constructor.
    + simpl. lia.
    + intros k E. injection E as <-. simpl. lia.
    + cbv zeta. split; [reflexivity|]. unfold conj_env; cbn [e_ce e_cf nth e_nf]. repeat (apply Forall_cons; [reflexivity|]); apply Forall_nil.
  - intros o f s H. destruct o as [|[|[|o]]]; destruct f as [|[|f]]; destruct s as [|[|[|s]]]; simpl in H; try discriminate; try (destruct s; discriminate); try (destruct f; discriminate);
      try (destruct f; destruct s; discriminate); try (destruct o; discriminate);
      (split; [reflexivity|]; intros s' H'; destruct s' as [|[|[|s']]]; simpl in H'; try discriminate; auto; destruct s'; discriminate).
  - unfold concentration_shape. conj; [reflexivity|reflexivity|]. intros [|[|f]] Hf; try reflexivity. lia.
Qed.
Example C27_demo : positive_effect 2 conj_app (nth 0 (e_ce conj_env) []) /\
  (exists L, source_likelihood (with_effect conj_env None 0 (nth 0 (e_ce conj_env) [])) conj_cl conj_src = Some L /\ (0 < L)%Q) /\
  map (fun f => map (feature_count conj_env (groups_of conj_env conj_cl None) conj_src 0 0 f) (nonzero (nth f conj_app []))) [0; 1]%nat = [[1; 0; 1]; [0; 0]]%nat.
Proof.
  conj.
  - split; [reflexivity|]. intros f s H. destruct f as [|[|f]]; destruct s as [|[|[|s]]]; simpl in H; try discriminate; try reflexivity; try (destruct s; discriminate); destruct f; discriminate.
  - eexists. split; [vm_compute; reflexivity|reflexivity].
  - reflexivity.
Qed.
