(** Lemmas for C75 and C78: a chain with a capable cluster operator reaches all clusterings. *)
From Coq Require Import Relations.
From Verif Require Import M_source S_model S_operators S_source S_mcmc S_honest S_gsource S_ergodic
  L_model L_cache L_operators L_reverse L_progress L_labels L_reach1 L_reach2.
Set Implicit Arguments.
Unset Strict Implicit.
Close Scope R_scope.

Section Labels.
Variables (e : env) (k : nat) (o : operator).
Hypothesis P : positive_env e.
Hypothesis Hpc : (0 <= e_pconn e <= 1)%Q.
Hypothesis Hce : length (e_ce e) = k.
Hypothesis C : capable e o.
(** States of the chain, states with positive probabilities, and reachability. *)
Variables (G adm : cstate -> Prop) (reach : cstate -> cstate -> Prop).
Hypothesis Hfin : forall x, G x -> adm x -> finishes_at e k adm x.
Hypothesis reach_refl : forall x, reach x x.
Hypothesis reach_trans : forall x y z, G x -> G y -> G z -> reach x y -> reach y z -> reach x z.
Hypothesis Hstep : forall x cl', G x -> adm x -> steps_to e adm o x cl' -> exists y, reach x y /\ G y /\ adm y /\ x_clusters y = cl'.

(** * Moves of labels *)
Let n := n_objects e.
Let labels := lab_ok k (e_min e) (e_max e) n.
Definition at_labels (x : cstate) (u : lab) : Prop := G x /\ adm x /\ labels u /\ x_clusters x = mat k u.
Lemma add_step x u i a : at_labels x u -> (i < k)%nat -> nth_error u a = Some None -> (cnt (Some i) u < e_max e)%nat ->
  steps_to e adm o x (mat k (setl a (Some i) u)).
Proof.
  intros (Gx & A & Lu & Eu) Hi Ha Hc. pose proof C as C0. destruct o; simpl in C0.
  - destruct C0 as [C1 C2]. pose proof (proj1 Hpc) as C3. apply alter_add; auto.
  - apply gibbsish_add; auto.
  - apply (@gibbsish2_to e k P Hce adm x u (Hfin Gx A) Lu Eu _ i); auto.
    + eapply lmove_ok; [exact Lu|]. apply lm_add; auto.
    + intros j _ Hj. symmetry. apply lrow_same with None; auto. rewrite is_lab_other by auto. reflexivity.
    + intros E. assert (T : nth a (lrow i (setl a (Some i) u)) false = true) by (apply nth_lrow_true, nth_setl_same, nth_error_Some; congruence).
      rewrite <- E in T. apply nth_lrow_true in T. congruence.
Qed.
Lemma remove_step x u i a : at_labels x u -> (i < k)%nat -> nth_error u a = Some (Some i) -> (e_min e < cnt (Some i) u)%nat ->
  steps_to e adm o x (mat k (setl a None u)).
Proof.
  intros (Gx & A & Lu & Eu) Hi Ha Hc. pose proof C as C0. destruct o; simpl in C0.
  - destruct C0 as [C1 C2]. pose proof (proj1 Hpc) as C3. apply alter_remove with i; auto.
  - apply gibbsish_remove with i; auto.
  - apply (@gibbsish2_to e k P Hce adm x u (Hfin Gx A) Lu Eu _ i); auto.
    + eapply lmove_ok; [exact Lu|]. eapply lm_remove; eauto.
    + intros j _ Hj. symmetry. apply lrow_same with (Some i); auto. rewrite is_lab_other by auto. reflexivity.
    + intros E. assert (T : nth a (lrow i u) false = true) by (apply nth_lrow_true; auto).
      rewrite E in T. apply nth_lrow_true in T. rewrite nth_setl_same in T by (apply nth_error_Some; congruence). discriminate.
Qed.
Lemma label_move x u v : at_labels x u -> lmove k (e_min e) (e_max e) u v -> exists y, reach x y /\ at_labels y v.
Proof.
  intros X Hm. pose proof X as (Gx & A & Lu & Eu). pose proof (lmove_ok Lu Hm) as Lv.
  assert (One : forall x u v, at_labels x u -> labels v -> steps_to e adm o x (mat k v) -> exists y, reach x y /\ at_labels y v).
  { intros x0 u0 v0 (G0 & A0 & _ & _) L0 S. destruct (Hstep G0 A0 S) as (y & R & Gy & Ay & Ey). exists y. unfold at_labels. auto. }
  destruct Hm as [u a i Hi Ha Hc|u a i Hi Ha Hc|u a c i Hi Ha Hc].
  - apply (One x u); auto. eapply remove_step; eauto.
  - apply (One x u); auto. apply add_step; auto.
  - assert (Hac : a <> c) by congruence. destruct (Lu) as (Ln & Lk & Lc). specialize (Lc i Hi). 
    assert (La : (a < length u)%nat) by (apply nth_error_Some; congruence). assert (Lcc : (c < length u)%nat) by (apply nth_error_Some; congruence).
    assert (Two : forall u1, labels u1 -> (forall x, at_labels x u -> steps_to e adm o x (mat k u1)) ->
      (forall x, at_labels x u1 -> steps_to e adm o x (mat k (setl c (Some i) (setl a None u)))) -> exists y, reach x y /\ at_labels y (setl c (Some i) (setl a None u))).
    { intros u1 L1 S1 S2. destruct (One x u u1 X L1 (S1 x X)) as (y & R1 & Y). destruct (One y u1 _ Y Lv (S2 y Y)) as (z & R2 & Z).
      exists z. split; auto. apply reach_trans with y; auto; [apply Y|apply Z]. }
    assert (Cases : o = OpGibbsish2 \/ (e_min e < e_max e)%nat) by (clear -C; destruct o; simpl in C; tauto).
    destruct Cases as [Eo|Hmm].
    + apply (One x u); auto. rewrite Eo. apply (@gibbsish2_to e k P Hce adm x u (Hfin Gx A) Lu Eu _ i); auto.
      * intros j _ Hj. symmetry. rewrite (@lrow_same j c (Some i) (setl a None u) None).
        -- apply lrow_same with (Some i); auto. rewrite is_lab_other by auto. reflexivity.
        -- rewrite nth_setl_other; auto.
        -- rewrite is_lab_other by auto. reflexivity.
      * intros E. assert (T : nth a (lrow i u) false = true) by (apply nth_lrow_true; auto).
        rewrite E in T. apply nth_lrow_true in T. rewrite nth_setl_other, nth_setl_same in T by auto. discriminate.
    + destruct (Nat.eq_dec (cnt (Some i) u) (e_max e)) as [Hx|Hx].
      * apply (Two (setl a None u)).
        -- eapply lmove_ok; [exact Lu|]. apply lm_remove with i; auto. lia.
        -- intros x0 X0. eapply remove_step; eauto. lia.
        -- intros x0 X0. apply add_step; auto.
           ++ rewrite nth_setl_other; auto.
           ++ pose proof (@cnt_lose u a None (Some i) Ha ltac:(discriminate)). lia.
      * apply (Two (setl c (Some i) u)).
        -- eapply lmove_ok; [exact Lu|]. apply lm_add; auto. lia.
        -- intros x0 X0. apply add_step; auto. lia.
        -- intros x0 X0. rewrite setl_comm by auto. apply remove_step with i; auto.
           ++ rewrite nth_setl_other; auto.
           ++ pose proof (@cnt_gain u c (Some i) None Hc ltac:(discriminate)). lia.
Qed.
Lemma label_reach u v : lreach k (e_min e) (e_max e) u v -> forall x, at_labels x u -> exists y, reach x y /\ at_labels y v.
Proof.
  induction 1 as [u v H|u|u v w _ IH1 _ IH2]; intros x X.
  - eapply label_move; eauto.
  - exists x. split; auto.
  - destruct (IH1 x X) as (y & R1 & Y). destruct (IH2 y Y) as (z & R2 & Z). exists z. split; auto.
    apply reach_trans with y; auto; [apply X|apply Y|apply Z].
Qed.
End Labels.
