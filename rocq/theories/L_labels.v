(** Lemmas for C75: disjoint clusters as labels of objects, and how single moves connect them. *)
From Coq Require Import Permutation Relations.
From Verif Require Import Base.
Set Implicit Arguments.
Unset Strict Implicit.

Definition lab := list (option nat).
Definition lab_dec : forall a b : option nat, {a = b} + {a <> b}.
Proof. decide equality. apply Nat.eq_dec. Defined.
Definition cnt (l : option nat) (u : lab) : nat := count_occ lab_dec u l.
Definition setl (a : nat) (l : option nat) (u : lab) : lab := upd a (fun _ => l) u.

Lemma setl_length a l u : length (setl a l u) = length u.
Proof. apply upd_length. Qed.
Lemma nth_setl_same a l u : a < length u -> nth_error (setl a l u) a = Some l.
Proof.
  intros H. unfold setl. destruct (nth_error u a) as [v|] eqn:E; [|apply nth_error_None in E; lia].
  rewrite nth_error_upd_same, E. reflexivity.
Qed.
Lemma nth_setl_other a b l u : a <> b -> nth_error (setl a l u) b = nth_error u b.
Proof. intros H. unfold setl. apply nth_error_upd_other. auto. Qed.
Lemma setl_in l u a : a < length u -> In l (setl a l u).
Proof. intros H. apply nth_error_In with a. apply nth_setl_same. auto. Qed.

Lemma cnt_setl u : forall a l v, nth_error u a = Some v ->
  cnt l (setl a l u) + (if lab_dec v l then 1 else 0) = S (cnt l u) /\
  (forall l', l' <> l -> cnt l' (setl a l u) + (if lab_dec v l' then 1 else 0) = cnt l' u).
Proof.
  unfold cnt, setl. induction u as [|w u IH]; intros [|a] l v H; try discriminate; simpl in H.
  - injection H as ->. simpl. split.
    + destruct (lab_dec l l); [|congruence]. destruct (lab_dec v l); lia.
    + intros l' Hl. destruct (lab_dec l l'); [congruence|]. destruct (lab_dec v l'); lia.
  - destruct (IH a l v H) as [H1 H2]. simpl. split.
    + destruct (lab_dec w l); lia.
    + intros l' Hl. specialize (H2 l' Hl). destruct (lab_dec w l'); lia.
Qed.
Lemma cnt_set u a l v l' : nth_error u a = Some v -> l' <> l -> l' <> v -> cnt l' (setl a l u) = cnt l' u.
Proof. intros H H1 H2. destruct (cnt_setl l H) as [_ C]. specialize (C l' H1). destruct (lab_dec v l'); [congruence|lia]. Qed.
Lemma cnt_gain u a l v : nth_error u a = Some v -> v <> l -> cnt l (setl a l u) = S (cnt l u).
Proof. intros H H1. destruct (cnt_setl l H) as [C _]. destruct (lab_dec v l); [congruence|lia]. Qed.
Lemma cnt_lose u a l v : nth_error u a = Some v -> v <> l -> S (cnt v (setl a l u)) = cnt v u.
Proof. intros H H1. destruct (cnt_setl l H) as [_ C]. specialize (C v H1). destruct (lab_dec v v); [lia|congruence]. Qed.

Lemma lt_search (P : nat -> Prop) (dec : forall i, {P i} + {~ P i}) n : (forall i, i < n -> P i) \/ exists i, i < n /\ ~ P i.
Proof.
  induction n as [|n [IH|(i & Hi & H)]]; [left; lia| |right; exists i; split; auto].
  destruct (dec n) as [H|H]; [left|right; exists n; split; auto]. intros i Hi. destruct (Nat.eq_dec i n) as [->|]; auto. apply IH. lia.
Qed.
Lemma cnt_bound l u : cnt l u <= length u.
Proof. unfold cnt. induction u as [|x u IH]; simpl; auto. destruct (lab_dec x l); lia. Qed.

Section Moves.
Variables (k mn mx : nat).
(** Labels of [k] clusters with sizes in the range. *)
Definition lab_ok (n : nat) (u : lab) : Prop :=
  length u = n /\ (forall i, In (Some i) u -> i < k) /\ forall i, i < k -> mn <= cnt (Some i) u <= mx.

(** Remove an object, add a free object, exchange a member for a free object. *)
Inductive lmove : lab -> lab -> Prop :=
| lm_remove : forall u a i, i < k -> nth_error u a = Some (Some i) -> mn < cnt (Some i) u -> lmove u (setl a None u)
| lm_add : forall u a i, i < k -> nth_error u a = Some None -> cnt (Some i) u < mx -> lmove u (setl a (Some i) u)
| lm_swap : forall u a c i, i < k -> nth_error u a = Some (Some i) -> nth_error u c = Some None -> lmove u (setl c (Some i) (setl a None u)).
Definition lreach : lab -> lab -> Prop := clos_refl_trans lab lmove.

Lemma lmove_ok n u v : lab_ok n u -> lmove u v -> lab_ok n v.
Proof.
  intros (L & R & C) H. destruct H as [u a i Hi Ha Hc|u a i Hi Ha Hc|u a c i Hi Ha Hf].
  - unfold lab_ok. rewrite setl_length. conj; auto.
    + intros j Hj. apply In_nth_error in Hj as (b & Hb). destruct (Nat.eq_dec a b) as [->|Hab].
      * rewrite nth_setl_same in Hb by (apply nth_error_Some; congruence). discriminate.
      * rewrite nth_setl_other in Hb by auto. apply R. eapply nth_error_In; eauto.
    + intros j Hj. destruct (Nat.eq_dec j i) as [->|Hne].
      * assert (S (cnt (Some i) (setl a None u)) = cnt (Some i) u) by (apply cnt_lose; auto; discriminate). specialize (C i Hi). lia.
      * rewrite (@cnt_set u a None (Some i)) by (auto; try discriminate; congruence). apply C; auto.
  - unfold lab_ok. rewrite setl_length. conj; auto.
    + intros j Hj. apply In_nth_error in Hj as (b & Hb). destruct (Nat.eq_dec a b) as [->|Hab].
      * rewrite nth_setl_same in Hb by (apply nth_error_Some; congruence). congruence.
      * rewrite nth_setl_other in Hb by auto. apply R. eapply nth_error_In; eauto.
    + intros j Hj. destruct (Nat.eq_dec j i) as [->|Hne].
      * rewrite (@cnt_gain u a (Some i) None) by (auto; discriminate). specialize (C i Hi). lia.
      * rewrite (@cnt_set u a (Some i) None) by (auto; try discriminate; congruence). apply C; auto.
  - assert (Hac : a <> c) by congruence.
    assert (Hf' : nth_error (setl a None u) c = Some None) by (rewrite nth_setl_other; auto).
    unfold lab_ok. rewrite !setl_length. conj; auto.
    + intros j Hj. apply In_nth_error in Hj as (b & Hb). destruct (Nat.eq_dec c b) as [->|Hcb].
      * rewrite nth_setl_same in Hb by (rewrite setl_length; apply nth_error_Some; congruence). congruence.
      * rewrite nth_setl_other in Hb by auto. destruct (Nat.eq_dec a b) as [->|Hab].
        -- rewrite nth_setl_same in Hb by (apply nth_error_Some; congruence). discriminate.
        -- rewrite nth_setl_other in Hb by auto. apply R. eapply nth_error_In; eauto.
    + intros j Hj. destruct (Nat.eq_dec j i) as [->|Hne].
      * rewrite (@cnt_gain _ c (Some i) None) by (auto; discriminate). rewrite (@cnt_lose u a None (Some i)) by (auto; discriminate). apply C; auto.
      * rewrite (@cnt_set _ c (Some i) None) by (auto; try discriminate; congruence). rewrite (@cnt_set u a None (Some i)) by (auto; try discriminate; congruence). apply C; auto.
Qed.

Lemma setl_back a l v u : nth_error u a = Some v -> setl a v (setl a l u) = u.
Proof.
  intros H. assert (a < length u) by (apply nth_error_Some; congruence). apply nth_error_ext. intros b.
  destruct (Nat.eq_dec a b) as [<-|Hb]; [rewrite nth_setl_same by (rewrite setl_length; auto); auto|]. rewrite !nth_setl_other; auto.
Qed.
Lemma setl_comm a b l m u : a <> b -> setl a l (setl b m u) = setl b m (setl a l u).
Proof.
  intros H. apply nth_error_ext. intros c. destruct (Nat.lt_ge_cases c (length u)) as [Hc|Hc].
  2:{ transitivity (@None (option nat)); [|symmetry]; apply nth_error_None; rewrite !setl_length; auto. }
  destruct (Nat.eq_dec a c) as [->|Ha].
  - rewrite nth_setl_same by (rewrite setl_length; auto). rewrite nth_setl_other by auto. rewrite nth_setl_same by auto. reflexivity.
  - destruct (Nat.eq_dec b c) as [->|Hb].
    + rewrite nth_setl_other, nth_setl_same by auto. rewrite nth_setl_same by (rewrite setl_length; auto). reflexivity.
    + rewrite !nth_setl_other by auto. reflexivity.
Qed.
Lemma lmove_sym n u v : lab_ok n u -> lmove u v -> lmove v u.
Proof.
  intros (L & R & C) H. destruct H as [u a i Hi Ha Hc|u a i Hi Ha Hc|u a c i Hi Ha Hf].
  - rewrite <- (setl_back None Ha) at 2. apply lm_add; auto.
    + apply nth_setl_same. apply nth_error_Some; congruence.
    + assert (S (cnt (Some i) (setl a None u)) = cnt (Some i) u) by (apply cnt_lose; auto; discriminate). specialize (C i Hi). lia.
  - rewrite <- (setl_back (Some i) Ha) at 2. apply lm_remove with i; auto.
    + apply nth_setl_same. apply nth_error_Some; congruence.
    + rewrite (@cnt_gain u a (Some i) None) by (auto; discriminate). specialize (C i Hi). lia.
  - assert (Hac : a <> c) by congruence.
    assert (Hu : u = setl a (Some i) (setl c None (setl c (Some i) (setl a None u)))).
    { rewrite (@setl_back c (Some i) None (setl a None u)) by (rewrite nth_setl_other; auto). symmetry. apply setl_back. auto. }
    rewrite Hu at 2. apply lm_swap; auto.
    + apply nth_setl_same. rewrite setl_length. apply nth_error_Some; congruence.
    + rewrite nth_setl_other by auto. apply nth_setl_same. apply nth_error_Some; congruence.
Qed.
Lemma lreach_ok n u v : lab_ok n u -> lreach u v -> lab_ok n v.
Proof. intros H R. revert H. induction R; intros; eauto using lmove_ok. Qed.
Lemma lreach_sym n u v : lab_ok n u -> lreach u v -> lreach v u.
Proof.
  intros H R. revert H. induction R as [u v H|u|u v w R1 IH1 R2 IH2]; intros Hu.
  - apply rt_step. eapply lmove_sym; eauto.
  - apply rt_refl.
  - eapply rt_trans; [apply IH2; eapply lreach_ok; eauto|apply IH1; auto].
Qed.

(** * Shrinking all clusters to the minimal size *)
Lemma shrink_all n : forall m u, lab_ok n u -> n - cnt None u <= m ->
  exists v, lreach u v /\ lab_ok n v /\ forall i, i < k -> cnt (Some i) v = mn.
Proof.
  induction m as [|m IH]; intros u Hu Hm.
  - exists u. conj; auto; [apply rt_refl|]. intros i Hi. destruct Hu as (L & R & C). specialize (C i Hi).
    destruct (Nat.eq_dec (cnt (Some i) u) 0) as [|Hne]; [lia|]. exfalso.
    assert (Hin : In (Some i) u) by (apply (count_occ_In lab_dec); unfold cnt in Hne; lia). apply In_nth_error in Hin as (a & Ha).
    destruct (cnt_setl None Ha) as [E _]. destruct (lab_dec (Some i) None) as [|]; [discriminate|].
    assert (cnt None (setl a None u) <= n).
    { rewrite <- L, <- (setl_length a None u). apply cnt_bound. }
    lia.
  - destruct (@lt_search (fun i => cnt (Some i) u = mn) (fun i => Nat.eq_dec _ _) k) as [H|(i & Hi & Hne)].
    + exists u. conj; auto. apply rt_refl.
    + assert (Hgt : mn < cnt (Some i) u) by (destruct Hu as (_ & _ & C); specialize (C i Hi); lia).
      assert (Hin : In (Some i) u) by (apply (count_occ_In lab_dec); unfold cnt in Hgt; lia). apply In_nth_error in Hin as (a & Ha).
      assert (M : lmove u (setl a None u)) by (eapply lm_remove; eauto).
      destruct (IH (setl a None u)) as (v & V1 & V2 & V3).
      * eapply lmove_ok; eauto.
      * rewrite (@cnt_gain u a None (Some i)) by (auto; discriminate). lia.
      * exists v. conj; auto. eapply rt_trans; [apply rt_step; exact M|exact V1].
Qed.

(** * Permuting the labels *)
Lemma transpose n u a b x y : lab_ok n u -> In None u -> a <> b -> nth_error u a = Some x -> nth_error u b = Some y ->
  lreach u (setl a y (setl b x u)).
Proof.
  intros Hu Hn Hab Ha Hb.
  assert (La : a < length u) by (apply nth_error_Some; congruence). assert (Lb : b < length u) by (apply nth_error_Some; congruence).
  assert (Rk : forall i c, nth_error u c = Some (Some i) -> i < k) by (intros i c Hc; apply (proj1 (proj2 Hu)); eapply nth_error_In; eauto).
  destruct x as [i|], y as [j|].
  - destruct (Nat.eq_dec i j) as [<-|Hij].
    { replace (setl a (Some i) (setl b (Some i) u)) with u; [apply rt_refl|]. apply nth_error_ext. intros c.
      destruct (Nat.eq_dec a c) as [<-|Hac]; [rewrite nth_setl_same by (rewrite setl_length; auto); auto|]. rewrite nth_setl_other by auto.
      destruct (Nat.eq_dec b c) as [<-|Hbc]; [rewrite nth_setl_same by auto; auto|]. rewrite nth_setl_other by auto. reflexivity. }
    apply In_nth_error in Hn as (c & Hc). assert (Hac : a <> c) by congruence. assert (Hbc : b <> c) by congruence.
    assert (Lc : c < length u) by (apply nth_error_Some; congruence).
    set (u1 := setl c (Some i) (setl a None u)). set (u2 := setl a (Some j) (setl b None u1)). set (u3 := setl b (Some i) (setl c None u2)).
    assert (M1 : lmove u u1) by (apply lm_swap; eauto).
    assert (M2 : lmove u1 u2).
    { apply lm_swap; eauto; unfold u1; rewrite nth_setl_other by auto.
      - rewrite nth_setl_other by auto. auto.
      - apply nth_setl_same; auto. }
    assert (M3 : lmove u2 u3).
    { apply lm_swap; eauto; unfold u2.
      - rewrite !nth_setl_other by auto. unfold u1. apply nth_setl_same. rewrite setl_length. auto.
      - rewrite nth_setl_other by auto. apply nth_setl_same. unfold u1. rewrite !setl_length. auto. }
    replace (setl a (Some j) (setl b (Some i) u)) with u3.
    { eapply rt_trans; [apply rt_step, M1|]. eapply rt_trans; [apply rt_step, M2|apply rt_step, M3]. }
    unfold u3, u2, u1. apply nth_error_ext. intros d. destruct (Nat.eq_dec b d) as [<-|Hbd].
    { rewrite nth_setl_same by (rewrite !setl_length; auto). rewrite nth_setl_other, nth_setl_same by auto. reflexivity. }
    rewrite nth_setl_other by auto. destruct (Nat.eq_dec c d) as [<-|Hcd].
    { rewrite nth_setl_same by (rewrite !setl_length; auto). rewrite !nth_setl_other by auto. auto. }
    rewrite nth_setl_other by auto. destruct (Nat.eq_dec a d) as [<-|Had].
    { rewrite !nth_setl_same by (rewrite ?setl_length; auto). reflexivity. }
    rewrite !nth_setl_other by auto. reflexivity.
  - rewrite setl_comm by auto. apply rt_step. apply lm_swap; eauto.
  - apply rt_step. apply lm_swap; eauto.
  - replace (setl a None (setl b None u)) with u; [apply rt_refl|]. apply nth_error_ext. intros c.
    destruct (Nat.eq_dec a c) as [<-|Hac]; [rewrite nth_setl_same by (rewrite setl_length; auto); auto|]. rewrite nth_setl_other by auto.
    destruct (Nat.eq_dec b c) as [<-|Hbc]; [rewrite nth_setl_same by auto; auto|]. rewrite nth_setl_other by auto. reflexivity.
Qed.
Lemma permute n u v : Permutation u v -> forall pre, lab_ok n (pre ++ u) -> In None (pre ++ u) -> lreach (pre ++ u) (pre ++ v).
Proof.
  induction 1 as [|x u v H IH|x y u|u v w H1 IH1 H2 IH2]; intros pre Hok Hn.
  - apply rt_refl.
  - specialize (IH (pre ++ [x])). rewrite <- !app_assoc in IH. apply IH; auto.
  - assert (Hy : nth_error (pre ++ y :: x :: u) (length pre) = Some y) by (rewrite nth_error_app2, Nat.sub_diag by lia; reflexivity).
    assert (Hx : nth_error (pre ++ y :: x :: u) (S (length pre)) = Some x).
    { rewrite nth_error_app2 by lia. replace (S (length pre) - length pre) with 1 by lia. reflexivity. }
    assert (Hne : length pre <> S (length pre)) by lia.
    pose proof (transpose Hok Hn Hne Hy Hx) as T.
    replace (pre ++ x :: y :: u) with (setl (length pre) x (setl (S (length pre)) y (pre ++ y :: x :: u))); auto.
    clear. unfold setl. induction pre as [|z pre IH]; [reflexivity|]. simpl in *. f_equal. exact IH.
  - eapply rt_trans; [apply IH1; auto|]. apply IH2.
    + eapply lreach_ok; [exact Hok|]. apply IH1; auto.
    + apply in_app_or in Hn as [Hn|Hn]; apply in_or_app; [left; auto|right]. eapply Permutation_in; eauto.
Qed.

(** * All labellings are connected when some object must be free *)
Lemma cnt_sum (u : lab) : (forall i, In (Some i) u -> i < k) -> length u = cnt None u + list_sum (map (fun i => cnt (Some i) u) (seq 0 k)).
Proof.
  induction u as [|l u IH]; intros H; [simpl; clear; induction (seq 0 k); auto|].
  assert (Hu : forall i, In (Some i) u -> i < k) by (intros; apply H; right; auto). specialize (IH Hu). simpl length.
  assert (G : forall l', cnt l' (l :: u) = (if lab_dec l l' then 1 else 0) + cnt l' u) by (intros l'; unfold cnt; simpl; destruct (lab_dec l l'); auto).
  rewrite G. rewrite (map_ext _ (fun i => (if lab_dec l (Some i) then 1 else 0) + cnt (Some i) u) (fun i => G (Some i))).
  assert (A : forall (f g : nat -> nat) r, list_sum (map (fun i => f i + g i) r) = list_sum (map f r) + list_sum (map g r)).
  { intros f g r. induction r as [|i r IHr]; simpl; auto. rewrite IHr. lia. }
  rewrite A. destruct l as [i|].
  - destruct (lab_dec (Some i) None); [discriminate|]. assert (Hi : i < k) by (apply H; left; auto).
    assert (B : list_sum (map (fun j => if lab_dec (Some i) (Some j) then 1 else 0) (seq 0 k)) = 1).
    { clear -Hi. assert (E : forall m s, s <= i < s + m -> list_sum (map (fun j => if lab_dec (Some i) (Some j) then 1 else 0) (seq s m)) = 1).
      { induction m as [|m IH]; intros s Hs; [lia|]. cbn [seq map list_sum fold_right]. unfold list_sum in IH. destruct (lab_dec (Some i) (Some s)) as [[= ->]|Hne].
        - change (1 + list_sum (map (fun j => if lab_dec (Some s) (Some j) then 1 else 0) (seq (S s) m)) = 1).
          assert (Z : forall m t, s < t -> list_sum (map (fun j => if lab_dec (Some s) (Some j) then 1 else 0) (seq t m)) = 0).
          { clear. induction m as [|m IH]; intros t Ht; auto. cbn [seq map]. change (list_sum (?a :: ?b)) with (a + list_sum b).
            destruct (lab_dec (Some s) (Some t)) as [[= ->]|]; [lia|]. rewrite IH by lia. auto. }
          rewrite Z by lia. auto.
        - rewrite IH; auto. assert (s <> i) by congruence. lia. }
      apply E. lia. }
    rewrite B. lia.
  - destruct (lab_dec None None); [|congruence].
    assert (B : list_sum (map (fun j => if lab_dec None (Some j) then 1 else 0) (seq 0 k)) = 0).
    { clear. induction (seq 0 k) as [|j r IH]; auto. }
    rewrite B. lia.
Qed.
Theorem labels_connected n u v : k * mn < n -> lab_ok n u -> lab_ok n v -> lreach u v.
Proof.
  intros Hn Hu Hv. destruct (@shrink_all n n u Hu) as (u' & U1 & U2 & U3); [lia|]. destruct (@shrink_all n n v Hv) as (v' & V1 & V2 & V3); [lia|].
  eapply rt_trans; [exact U1|]. eapply rt_trans; [|eapply lreach_sym; eauto].
  assert (N : forall w, lab_ok n w -> (forall i, i < k -> cnt (Some i) w = mn) -> cnt None w = n - k * mn).
  { intros w (L & R & _) C. pose proof (cnt_sum R) as E. rewrite L in E.
    rewrite (map_ext_in _ (fun _ => mn)) in E by (intros i Hi; apply in_seq in Hi; apply C; lia).
    assert (S : forall s m, list_sum (map (fun _ => mn) (seq s m)) = m * mn).
    { intros s m. revert s. induction m as [|m IH]; intros s; auto. cbn [seq map]. change (list_sum (?a :: ?b)) with (a + list_sum b). rewrite IH. auto. }
    rewrite S in E. lia. }
  assert (P : Permutation u' v').
  { apply (Permutation_count_occ lab_dec). intros [i|].
    - destruct (Nat.lt_ge_cases i k) as [Hi|Hi]; [fold (cnt (Some i) u') (cnt (Some i) v'); rewrite U3, V3; auto|].
      assert (Z : forall w, lab_ok n w -> count_occ lab_dec w (Some i) = 0).
      { intros w (_ & R & _). apply count_occ_not_In. intros Hin. apply R in Hin. lia. }
      rewrite !Z by auto. reflexivity.
    - fold (cnt None u') (cnt None v'). rewrite !N by auto. reflexivity. }
  apply (@permute n u' v' P []); auto. simpl. apply (count_occ_In lab_dec). fold (cnt None u'). rewrite N by auto. lia.
Qed.
End Moves.
