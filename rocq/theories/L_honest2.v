(** Lemmas for C63: honest reports of the cluster operators and the finite set of states. *)
From Coq Require Import Reals Qreals Lra.
From Verif Require Import M_operators S_model S_operators S_mcmc S_honest L_model L_operators L_reverse L_gibbsish L_gibbsish2 L_source L_balance L_honest.
Set Implicit Arguments.
Unset Strict Implicit.
Open Scope R_scope.

Section Honest.
Variables (e : env) (k : nat) (o : operator).
Hypothesis He : valid_env e.
Let good := good e k.
Let props := op_props e o.

Lemma props_nonneg x out p : In (out, p) (props x) -> 0 <= p.
Proof.
  unfold props, op_props. intros H. apply in_map_iff in H as ([a q] & [= <- <-] & H). pose proof (run_op_nonneg He H) as Hq.
  apply Qle_Rle in Hq. rewrite RMicromega.Q2R_0 in Hq. exact Hq.
Qed.
Lemma Q2R_0 : Q2R 0 = 0. Proof. apply RMicromega.Q2R_0. Qed.
Lemma Q2R_1 : Q2R 1 = 1. Proof. apply RMicromega.Q2R_1. Qed.
Lemma mass_real x y : mass_r cstate_eq_dec props x y = Q2R (mass (run_op e o x) y).
Proof.
  unfold mass_r, props, op_props. rewrite mass_E. unfold E. induction (run_op e o x) as [|[out p] d IH]; simpl.
  - symmetry. apply Q2R_0.
  - unfold Rsum, Qsum in *; simpl. rewrite Q2R_plus, Q2R_mult, IH. f_equal. f_equal. unfold ind.
    destruct out as [|y' q qb|]; simpl; try (symmetry; apply Q2R_0). destruct (cstate_eq_dec y' y); symmetry; [apply Q2R_1|apply Q2R_0].
Qed.
Lemma in_props x y q qb p : In (Some (y, q, qb), p) (props x) -> 0 < p ->
  exists q' qb', supp (run_op e o x) (Propose y q' qb') /\ q = xq q' /\ qb = xq qb'.
Proof.
  unfold props, op_props. intros H Hp. apply in_map_iff in H as ([out r] & H & Hin). injection H as Ho Hr.
  destruct out as [|y' q' qb'|]; try discriminate. injection Ho as -> <- <-. exists q', qb'. conj; auto. exists r. split; auto.
  intros E. apply Qeq_eqR in E. rewrite Q2R_0 in E. lra.
Qed.

(** The factor both operators omit: choice of the direction and of the cluster. *)
Definition factor : Q := match o with OpGibbsish2 => inject_Z (Z.of_nat k) | _ => 2 * inject_Z (Z.of_nat k) end.
Lemma reversible x y q qb : good x -> supp (run_op e o x) (Propose y q qb) ->
  (forall r, q = Some r -> (mass (run_op e o x) y == r / factor)%Q) /\ (forall r, qb = Some r -> (mass (run_op e o y) x == r / factor)%Q).
Proof.
  intros (H1 & H2 & H3 & H4) H. unfold factor. destruct o; simpl in *.
  - eapply alter_reversible; eauto.
  - eapply gibbsish_reversible; eauto.
  - eapply gibbsish2_reversible; eauto.
Qed.
Lemma factor_pos x y q qb : good x -> supp (run_op e o x) (Propose y q qb) -> (0 < factor)%Q.
Proof.
  intros (H1 & H2 & H3 & H4) H. assert (Hk : (0 < k)%nat).
  { destruct k; [|lia]. destruct H1 as [Hl _]. apply length_zero_iff_nil in Hl. 
    assert (Hids : ids x = []) by (unfold ids; rewrite Hl; reflexivity).
    destruct o; simpl in H.
    - apply supp_alter in H as [H|H]; unfold shrink, grow in H; rewrite Hids in H; apply supp_ret in H; discriminate.
    - apply supp_gibbsish in H as [H|H]; unfold gibbsish_shrink, gibbsish_grow in H; rewrite Hids in H; apply supp_ret in H; discriminate.
    - unfold gibbsish2 in H. rewrite Hids in H. apply supp_ret in H. discriminate. }
  assert (0 < inject_Z (Z.of_nat k))%Q by (change 0%Q with (inject_Z 0); rewrite <- Zlt_Qlt; lia).
  unfold factor. destruct o; auto; apply Qmult_lt_0_compat; auto; reflexivity.
Qed.
Lemma report_value r m : (0 < factor)%Q -> (m == r / factor)%Q -> xln (Q2R r) = xln (Q2R factor * Q2R m) /\ (0 < m -> 0 < r)%Q.
Proof.
  intros Hf Hm. assert (E : (r == factor * m)%Q) by (rewrite Hm; field; intros E; rewrite E in Hf; discriminate Hf).
  split.
  - rewrite <- Q2R_mult. f_equal. apply Qeq_eqR. exact E.
  - intros H. rewrite E. apply Qmult_lt_0_compat; auto.
Qed.

Definition nan_b (x y : cstate) : bool :=
  existsb (fun '(out, p) => match out with
    | Propose y' q qb => (if cstate_eq_dec y' y then true else false) && negb (Qeq_bool p 0) &&
                         (match q, qb with Some _, Some _ => false | _, _ => true end)
    | _ => false end) (run_op e o x).
Lemma nan_b_true x y : nan_b x y = true -> exists q qb, supp (run_op e o x) (Propose y q qb) /\ nan q qb.
Proof.
  unfold nan_b. intros H. apply existsb_exists in H as ([out p] & Hin & H). destruct out as [|y' q qb|]; try discriminate.
  apply andb_true_iff in H as [H Hn]. apply andb_true_iff in H as [Hy Hp]. destruct (cstate_eq_dec y' y) as [->|]; [|discriminate].
  exists q, qb. split.
  - exists p. split; auto. intros E. apply Qeq_bool_iff in E. rewrite E in Hp. discriminate.
  - unfold nan. destruct q, qb; auto. discriminate.
Qed.
Lemma nan_b_false x y q qb : nan_b x y = false -> supp (run_op e o x) (Propose y q qb) -> exists a b, q = Some a /\ qb = Some b.
Proof.
  intros H (p & Hin & Hp). destruct q as [a|], qb as [b|]; eauto; exfalso;
    (assert (H' : nan_b x y = true); [|congruence]); unfold nan_b; apply existsb_exists; eexists; (split; [exact Hin|]); simpl;
    destruct (cstate_eq_dec y y); try congruence; simpl; destruct (Qeq_bool p 0) eqn:E; auto; apply Qeq_bool_iff in E; contradiction.
Qed.
Lemma nan_all x y : good x -> good y -> (nan_b x y = true \/ nan_b y x = true) -> nan_reports props x y.
Proof.
  intros Hx Hy Hn q qb p Hin Hp. destruct (in_props Hin Hp) as (q' & qb' & Hs & -> & ->).
  assert (N : nan q' qb').
  { destruct Hn as [Hn|Hn]; apply nan_b_true in Hn as (u & v & Hu & Hv).
    - exact (proj1 (status_same Hx Hy Hu (or_introl Hs)) Hv).
    - exact (proj1 (status_same Hy Hx Hu (or_intror Hs)) Hv). }
  destruct N as [ -> | -> ]; [left; reflexivity|]. destruct q' as [r|]; [|left; reflexivity]. right. split; [reflexivity|].
  destruct (reversible Hx Hs) as [R _]. specialize (R r eq_refl).
  pose proof (factor_pos Hx Hs) as Hf. destruct (report_value Hf R) as [_ Hr].
  specialize (Hr (mass_pos (@run_op_nonneg _ He o x) Hs)). apply Qlt_Rlt in Hr. rewrite Q2R_0 in Hr.
  simpl. rewrite xln_pos by auto. discriminate.
Qed.
Lemma exact_all x y : good x -> nan_b x y = false -> exact_reports cstate_eq_dec props (Q2R factor) x y.
Proof.
  intros Hx Hn q qb p Hin Hp. destruct (in_props Hin Hp) as (q' & qb' & Hs & -> & ->).
  destruct (nan_b_false Hn Hs) as (a & b & -> & ->). destruct (reversible Hx Hs) as [R1 R2].
  pose proof (factor_pos Hx Hs) as Hf. rewrite !mass_real. simpl. split.
  - apply (report_value Hf (R1 a eq_refl)).
  - apply (report_value Hf (R2 b eq_refl)).
Qed.
Theorem op_honest x y : good x -> good y -> honest cstate_eq_dec props (Q2R factor) x y.
Proof.
  intros Hx Hy. destruct (nan_b x y) eqn:E1; [|destruct (nan_b y x) eqn:E2].
  - right. split; apply nan_all; auto.
  - right. split; apply nan_all; auto.
  - left. split; apply exact_all; auto.
Qed.
(** A positive factor in all cases (without clusters there are no proposals). *)
Definition factor' : R := if Rlt_dec 0 (Q2R factor) then Q2R factor else 1.
Lemma factor'_pos : 0 < factor'.
Proof. unfold factor'. destruct (Rlt_dec 0 (Q2R factor)); lra. Qed.
Lemma op_honest' x y : good x -> good y -> honest cstate_eq_dec props factor' x y.
Proof.
  intros Hx Hy. unfold factor'. destruct (Rlt_dec 0 (Q2R factor)) as [H|H]; [apply op_honest; auto|].
  left. split; intros q qb p Hin Hp; exfalso; destruct (in_props Hin Hp) as (q' & qb' & Hs & _); apply H; rewrite <- Q2R_0; apply Qlt_Rlt;
    [exact (factor_pos Hx Hs)|exact (factor_pos Hy Hs)].
Qed.

(** Proposals lead to states of the same set. *)
Lemma good_closed x y : good x -> can_propose e o x y -> good y.
Proof.
  intros (H1 & H2 & H3 & H4) H. pose proof (propose_change H H1) as Hc. unfold good, S_honest.good. conj.
  - eapply change_shape; eauto.
  - eapply change_disjoint; eauto.
  - eapply propose_sizes; eauto.
  - destruct (propose_finishes H H1) as (must & cl' & objs & q0 & qb0 & q & qb & Hs & Hnd & Hlt & _).
    apply supp_finish_full in Hs; auto. tauto.
Qed.
End Honest.

(** * The set of states is finite *)
Fixpoint lists_of A (alphabet : list A) (n : nat) : list (list A) :=
  match n with O => [[]] | S m => flat_map (fun a => map (cons a) (lists_of alphabet m)) alphabet end.
Lemma lists_of_in A (alphabet : list A) l : Forall (fun a => In a alphabet) l -> In l (lists_of alphabet (length l)).
Proof.
  induction 1 as [|a l Ha _ IH]; simpl; auto. apply in_flat_map. exists a. split; auto. apply in_map; auto.
Qed.
Lemma lists_of_in' A (alphabet : list A) l n : length l = n -> (forall a, In a l -> In a alphabet) -> In l (lists_of alphabet n).
Proof. intros <- H. apply lists_of_in. apply Forall_forall. auto. Qed.
Lemma select T (P : T -> Prop) (dec : forall x, {P x} + {~ P x}) (dt : forall x y : T, {x = y} + {x <> y}) l :
  (forall x, P x -> In x l) -> exists l', NoDup l' /\ forall x, In x l' <-> P x.
Proof.
  intros H. exists (nodup dt (filter (fun x => if dec x then true else false) l)). split; [apply NoDup_nodup|].
  intros x. rewrite nodup_In, filter_In. destruct (dec x) as [p|p]; split; [intros _; exact p|intros _; split; auto|intros [_ H0]; discriminate H0|intros H0; contradiction].
Qed.
Lemma forall_lt_dec (P : nat -> Prop) (dec : forall i, {P i} + {~ P i}) n : {forall i, (i < n)%nat -> P i} + {~ forall i, (i < n)%nat -> P i}.
Proof.
  induction n as [|n [IH|IH]].
  - left. lia.
  - destruct (dec n) as [H|H]; [left|right; intros H'; apply H, H'; lia]. intros i Hi. destruct (Nat.eq_dec i n) as [->|]; auto. apply IH. lia.
  - right. intros H. apply IH. intros i Hi. apply H. lia.
Qed.
Lemma and_dec (P Q : Prop) : {P} + {~ P} -> {Q} + {~ Q} -> {P /\ Q} + {~ (P /\ Q)}.
Proof. tauto. Qed.
Definition all_lt (k n : nat) (cl : bmat) : Prop :=
  forall o, (o < n)%nat -> forall i, (i < k)%nat -> forall j, (j < k)%nat ->
    (nth o (nth i cl []) false && nth o (nth j cl []) false)%bool = false \/ i = j.
Lemma disjoint_lt k n cl : cluster_shape k n cl -> disjoint_groups cl <-> all_lt k n cl.
Proof.
  intros [Hk Hn]. assert (R : forall o i, nth o (nth i cl []) false = true -> (o < n)%nat /\ (i < k)%nat).
  { intros o i H. destruct (Nat.lt_ge_cases i (length cl)) as [Hi|Hi]; [|rewrite (nth_overflow cl) in H by auto; destruct o; discriminate].
    split; [|lia]. rewrite Forall_forall in Hn. rewrite <- (Hn (nth i cl [])) by (apply nth_In; auto).
    destruct (Nat.lt_ge_cases o (length (nth i cl []))); auto. rewrite nth_overflow in H by auto. discriminate. }
  split.
  - intros H o Ho i Hi j Hj. destruct (nth o (nth i cl []) false) eqn:E1, (nth o (nth j cl []) false) eqn:E2; auto. right. eapply H; eauto.
  - intros H o i j Hi Hj. destruct (R _ _ Hi), (R _ _ Hj). destruct (H o ltac:(auto) i ltac:(auto) j ltac:(auto)) as [E|E]; auto.
    rewrite Hi, Hj in E. discriminate.
Qed.
Definition row_good (e : env) (r : list (list bool)) : Prop :=
  length r = e_nf e /\ Forall (fun v => In v (map (fun c => map (Nat.eqb c) (seq 0 (n_comps e))) (seq 0 (n_comps e)))) r.
Lemma source_good e x : source_ok e x <-> match x_source x with None => True | Some s => length s = n_objects e /\ Forall (row_good e) s end.
Proof.
  unfold source_ok. destruct (x_source x) as [s|]; [|tauto].
  assert (H : forall r, (length r = e_nf e /\ Forall (fun v => exists c, (c < n_comps e)%nat /\ v = map (Nat.eqb c) (seq 0 (n_comps e))) r) <-> row_good e r).
  { intros r. unfold row_good. rewrite !Forall_forall. split; intros [H1 H2]; split; auto; intros v Hv.
    - destruct (H2 v Hv) as (c & Hc & ->). apply in_map_iff. exists c. split; auto. apply in_seq. lia.
    - specialize (H2 v Hv). apply in_map_iff in H2 as (c & <- & Hc). apply in_seq in Hc. exists c. split; auto. lia. }
  rewrite !Forall_forall. split; intros [H1 H2]; split; auto; intros r Hr; apply H; auto.
Qed.
Lemma good_dec e k x : {good e k x} + {~ good e k x}.
Proof.
  destruct (and_dec (Nat.eq_dec (length (x_clusters x)) k) (Forall_dec (fun c => length c = n_objects e) (fun c => Nat.eq_dec (length c) (n_objects e)) (x_clusters x))) as [Hs|Hs].
  2:{ right. intros (H & _). auto. }
  assert (D : {all_lt k (n_objects e) (x_clusters x)} + {~ all_lt k (n_objects e) (x_clusters x)}).
  { unfold all_lt. do 3 (apply forall_lt_dec; intros ?).
    match goal with |- {?b = false \/ ?i = ?j} + {_} => destruct (Bool.bool_dec b false) as [E|E]; [left; auto|]; destruct (Nat.eq_dec i j) as [E'|E']; [left; auto|right; tauto] end. }
  assert (Z : {sizes_in (e_min e) (e_max e) (x_clusters x)} + {~ sizes_in (e_min e) (e_max e) (x_clusters x)}).
  { unfold sizes_in. apply Forall_dec. intros c. apply and_dec; apply le_dec. }
  assert (S : {source_ok e x} + {~ source_ok e x}).
  { assert (S' : {match x_source x with None => True | Some s => length s = n_objects e /\ Forall (row_good e) s end} +
                 {~ match x_source x with None => True | Some s => length s = n_objects e /\ Forall (row_good e) s end}).
    { destruct (x_source x) as [s|]; [|left; exact I]. apply and_dec; [apply Nat.eq_dec|]. apply Forall_dec. intros r. apply and_dec; [apply Nat.eq_dec|].
      apply Forall_dec. intros v. apply in_dec. repeat decide equality. }
    destruct S' as [S'|S']; [left|right]; rewrite source_good; auto. }
  destruct (and_dec D (and_dec Z S)) as [H|H].
  - left. split; [exact Hs|]. rewrite (disjoint_lt Hs). exact H.
  - right. intros (_ & H1 & H2). apply H. split; auto. apply (disjoint_lt Hs). auto.
Qed.
Theorem good_finite e k : exists states, NoDup states /\ forall x, In x states <-> good e k x.
Proof.
  set (cls := lists_of (lists_of [true; false] (n_objects e)) k).
  set (rows := lists_of (map (fun c => map (Nat.eqb c) (seq 0 (n_comps e))) (seq 0 (n_comps e))) (e_nf e)).
  set (srcs := None :: map Some (lists_of rows (n_objects e))).
  apply (select (@good_dec e k) cstate_eq_dec (l := flat_map (fun cl => map (fun s => {| x_clusters := cl; x_source := s |}) srcs) cls)).
  intros x ([Hk Hn] & _ & _ & H). apply source_good in H. apply in_flat_map. exists (x_clusters x). split.
  - apply lists_of_in'; auto. intros c Hc. rewrite Forall_forall in Hn. apply lists_of_in'; auto. intros b _. destruct b; simpl; auto.
  - apply in_map_iff. exists (x_source x). split; [destruct x; reflexivity|]. unfold srcs. destruct (x_source x) as [s|]; [|left; auto].
    right. apply in_map. destruct H as [Hl Hr]. apply lists_of_in'; auto. intros r Hin. rewrite Forall_forall in Hr.
    destruct (Hr r Hin) as [H1 H2]. apply lists_of_in'; auto. rewrite Forall_forall in H2. auto.
Qed.
