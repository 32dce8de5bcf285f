(** Lemmas on analyses on a file system. *)
From Coq Require Import QArith Lia.
From Verif Require Import L_config L_text.
From Verif Require Import L_settings.
From Verif Require Export S_experiment.
Set Implicit Arguments.
Unset Strict Implicit.
Open Scope nat_scope.

(** * Paths *)
Lemma path_eq_dec (p q : dir) : {p = q} + {p <> q}.
Proof. apply list_eq_dec, list_eq_dec, ascii_dec. Qed.
Lemma path_eqb_refl p : path_eqb p p = true. Proof. apply path_eqb_eq. reflexivity. Qed.
Lemma path_eqb_neq p q : p <> q -> path_eqb p q = false.
Proof. intros H. destruct (path_eqb p q) eqn:E; auto. apply path_eqb_eq in E. contradiction. Qed.
Lemma store_same p n s : store p n s p = Some n. Proof. unfold store. rewrite path_eqb_refl. reflexivity. Qed.
Lemma store_other p q n s : q <> p -> store p n s q = s q. Proof. intros H. unfold store. rewrite path_eqb_neq; auto. Qed.
Lemma below_refl p : below p p. Proof. exists []. rewrite app_nil_r. reflexivity. Qed.
Lemma below_app p r : below p (p ++ r). Proof. exists r. reflexivity. Qed.
Lemma below_trans p q r : below p q -> below q r -> below p r.
Proof. intros (a & ->) (b & ->). exists (a ++ b). apply app_assoc_reverse. Qed.
Lemma below_two p q r : below p r -> below q r -> below p q \/ below q p.
Proof.
  intros (a & ->) (b & E). revert q a b E. induction p as [|x p IH]; intros q a b E; [left; exists q; reflexivity|].
  destruct q as [|y q]; [right; exists (x :: p); reflexivity|]. cbn [app] in E. injection E as -> E.
  destruct (IH q a b E) as [(c & ->)|(c & ->)]; [left|right]; exists c; reflexivity.
Qed.
Lemma below_antisym p q : below p q -> below q p -> p = q.
Proof.
  intros (a & ->) (b & E). rewrite <- app_assoc in E. rewrite <- (app_nil_r p) in E at 1. apply app_inv_head in E.
  destruct a; [rewrite app_nil_r; reflexivity|discriminate].
Qed.
Lemma below_last p q x : below p (q ++ [x]) -> below p q \/ p = q ++ [x].
Proof.
  intros (r & E). destruct r as [|y r] using rev_ind; [right; rewrite app_nil_r in E; auto|]. left. rewrite app_assoc in E. apply app_inj_tail in E as (-> & _). exists r. reflexivity.
Qed.
Lemma below_child p x y : x <> y -> ~ below (p ++ [x]) (p ++ [y]).
Proof. intros H (r & E). rewrite <- app_assoc in E. apply app_inv_head in E. cbn [app] in E. injection E as E _. congruence. Qed.
Lemma in_prefixes p q : In q (prefixes p) <-> below q p.
Proof.
  unfold prefixes. rewrite in_map_iff. split.
  - intros (n & <- & _). exists (skipn n p). symmetry. apply firstn_skipn.
  - intros (r & ->). exists (length q). split; [rewrite firstn_app, Nat.sub_diag, firstn_O, app_nil_r; apply firstn_all|]. apply in_seq. rewrite app_length. lia.
Qed.
Lemma parent_last p (x : str) : parent (p ++ [x]) = p. Proof. apply removelast_last. Qed.

(** * Operations on the disk *)
Lemma make_one_spec p s s' : make_one p s = Some s' -> (s p <> None -> s' p = s p) /\ s' p = Some Directory /\ (forall q, q <> p -> s' q = s q).
Proof.
  unfold make_one. destruct (s p) as [[|t]|] eqn:E; intros H; try discriminate; injection H as <-.
  - rewrite E. auto.
  - rewrite store_same. conj; auto; try congruence. intros q Hq. apply store_other, Hq.
Qed.
Lemma make_all_spec ps : forall s s', make_all ps s = Some s' ->
  (forall q, In q ps -> s' q = Some Directory) /\ (forall q, ~ In q ps -> s' q = s q) /\ (forall q, s q <> None -> s' q = s q).
Proof.
  induction ps as [|p ps IH]; intros s s' H; cbn [make_all] in H; [injection H as <-; conj; simpl; tauto|].
  destruct (make_one p s) as [s1|] eqn:E; [|discriminate]. cbn [bind] in H. apply make_one_spec in E. destruct E as (E1 & E2 & E3).
  destruct (IH _ _ H) as (H1 & H2 & H3). conj.
  - intros q [<-|Hq]; auto. rewrite H3; auto. rewrite E2. discriminate.
  - intros q Hq. rewrite H2 by (simpl in Hq; tauto). apply E3. intros ->. apply Hq. left. reflexivity.
  - intros q Hq. destruct (path_eq_dec q p) as [->|N].
    + rewrite H3; [auto|]. rewrite E2. discriminate.
    + rewrite H3; [apply E3, N|]. rewrite E3; auto.
Qed.
Lemma make_all_works ps : forall s, (forall q t, In q ps -> s q <> Some (File t)) -> exists s', make_all ps s = Some s'.
Proof.
  induction ps as [|p ps IH]; intros s H; [eexists; reflexivity|]. cbn [make_all].
  assert (E : exists s1, make_one p s = Some s1 /\ forall q t, In q ps -> s1 q <> Some (File t)).
  { unfold make_one. destruct (s p) as [[|t]|] eqn:E.
    - exists s. split; auto. intros q t Hq. apply H. right. auto.
    - destruct (H p t); simpl; auto.
    - exists (store p Directory s). split; auto. intros q t Hq. unfold store. destruct (path_eqb q p); [discriminate|]. apply H. right. auto. }
  destruct E as (s1 & -> & E). apply IH, E.
Qed.
Lemma makedirs_spec p s s' : makedirs p s = Some s' ->
  (forall q, below q p -> s' q = Some Directory) /\ (forall q, ~ below q p -> s' q = s q) /\ (forall q, s q <> None -> s' q = s q).
Proof.
  intros H. apply make_all_spec in H. destruct H as (H1 & H2 & H3). conj; auto.
  - intros q Hq. apply H1, in_prefixes, Hq.
  - intros q Hq. apply H2. rewrite in_prefixes. exact Hq.
Qed.
Lemma makedirs_works p s : (forall q t, below q p -> s q <> Some (File t)) -> exists s', makedirs p s = Some s'.
Proof. intros H. apply make_all_works. intros q t Hq. apply H, in_prefixes, Hq. Qed.
Lemma can_make_dirs p s : (forall q, below q p -> s q = Some Directory) -> can_make s p = true.
Proof. intros H. unfold can_make. destruct (@makedirs_works p s) as (s' & ->); auto. intros q t Hq. rewrite (H q Hq). discriminate. Qed.
Lemma is_dir_true s p : is_dir s p = true <-> s p = Some Directory.
Proof. unfold is_dir. destruct (s p) as [[|]|]; split; congruence. Qed.
Lemma is_file_true s p : is_file s p = true <-> exists t, s p = Some (File t).
Proof. unfold is_file. destruct (s p) as [[|t]|]; split; try discriminate; try (intros (t' & E); discriminate); eauto. Qed.
Lemma write_spec p t s s' : write_file p t s = Some s' -> s (parent p) = Some Directory /\ s p <> Some Directory /\ s' p = Some (File t) /\ (forall q, q <> p -> s' q = s q).
Proof.
  unfold write_file. destruct (is_dir s (parent p)) eqn:E1; [|discriminate]. destruct (is_dir s p) eqn:E2; [discriminate|]. intros H. injection H as <-.
  apply is_dir_true in E1. conj; auto.
  - intros E. apply is_dir_true in E. congruence.
  - apply store_same.
  - intros q Hq. apply store_other, Hq.
Qed.
Lemma write_works p t s : s (parent p) = Some Directory -> s p <> Some Directory -> exists s', write_file p t s = Some s'.
Proof.
  intros H1 H2. unfold write_file. rewrite (proj2 (is_dir_true _ _) H1). destruct (is_dir s p) eqn:E; [apply is_dir_true in E; contradiction|]. eexists. reflexivity.
Qed.
Lemma append_spec p t s s' : append_file p t s = Some s' -> s (parent p) = Some Directory /\ s p <> Some Directory /\
  (exists t', s' p = Some (File (match s p with Some (File old) => old | _ => [] end ++ t')) /\ t' = t) /\ (forall q, q <> p -> s' q = s q).
Proof.
  intros H. apply write_spec in H. destruct H as (H1 & H2 & H3 & H4). conj; auto. exists t. split; auto. rewrite H3. destruct (s p) as [[|old]|]; reflexivity.
Qed.
Lemma copy_spec src dst s s' : copy_file src dst s = Some s' -> s dst <> Some Directory ->
  exists t, s src = Some (File t) /\ src <> dst /\ s (parent dst) = Some Directory /\ s' dst = Some (File t) /\ (forall q, q <> dst -> s' q = s q).
Proof.
  unfold copy_file. intros H N. destruct (is_dir s dst) eqn:E; [apply is_dir_true in E; contradiction|].
  destruct (s src) as [[|t]|]; try discriminate. destruct (path_eqb src dst) eqn:P; [discriminate|]. apply write_spec in H. destruct H as (H1 & H2 & H3 & H4).
  exists t. conj; auto. intros ->. rewrite path_eqb_refl in P. discriminate.
Qed.
Lemma copy_works src dst s t : s src = Some (File t) -> src <> dst -> s (parent dst) = Some Directory -> s dst <> Some Directory -> exists s', copy_file src dst s = Some s'.
Proof.
  intros H1 H2 H3 H4. unfold copy_file. destruct (is_dir s dst) eqn:E; [apply is_dir_true in E; contradiction|]. rewrite H1, path_eqb_neq by auto. apply write_works; auto.
Qed.
Lemma mkdir_spec p s s' : mkdir p s = Some s' -> s (parent p) = Some Directory /\ (forall t, s p <> Some (File t)) /\ s' p = Some Directory /\ (forall q, q <> p -> s' q = s q).
Proof.
  unfold mkdir. destruct (is_dir s (parent p)) eqn:E; [|discriminate]. apply is_dir_true in E. intros H. conj; auto.
  - intros t Et. unfold make_one in H. rewrite Et in H. discriminate.
  - apply make_one_spec in H. tauto.
  - apply make_one_spec in H. tauto.
Qed.
Lemma mkdir_works p s : s (parent p) = Some Directory -> (forall t, s p <> Some (File t)) -> exists s', mkdir p s = Some s'.
Proof.
  intros H1 H2. unfold mkdir. rewrite (proj2 (is_dir_true _ _) H1). unfold make_one. destruct (s p) as [[|t]|] eqn:E; eauto. destruct (H2 t); auto.
Qed.

(** * Texts *)
Lemma str_Z_inj k k' : str_Z k = str_Z k' -> k = k'.
Proof.
  assert (H : forall n m, str_nat n <> "-"%char :: str_nat m).
  { intros n m E. apply (@str_nat_no "-"%char n); [intros D; unfold digit_char in D; simpl in D; intuition discriminate|]. rewrite E. left. reflexivity. }
  unfold str_Z. destruct (Z.ltb_spec k 0), (Z.ltb_spec k' 0); intros E.
  - injection E as E. apply str_nat_inj in E. lia.
  - symmetry in E. apply H in E. destruct E.
  - apply H in E. destruct E.
  - apply str_nat_inj in E. lia.
Qed.

Definition kinds : list (string * string) := [("stats", ".txt"); ("clusters", ".txt"); ("operator_stats", ".txt"); ("likelihood", ".h5")]%string.
Lemma run_file_spec kind k i ending : [K_name k; run_file kind k i ending] = results_file kind ending k i.
Proof. unfold results_file, K_name, run_file. cbn [join]. unfold underscore. rewrite <- !app_assoc. reflexivity. Qed.
Lemma results_file_inj a b k k' i i' : In a kinds -> In b kinds -> results_file (fst a) (snd a) k i = results_file (fst b) (snd b) k' i' -> a = b /\ k = k' /\ i = i'.
Proof.
  intros Ha Hb E. unfold results_file in E. injection E as Ek Ef. apply str_Z_inj in Ek. subst k'. cbn [join] in Ef. rewrite <- !app_assoc in Ef.
  assert (H : a = b).
  { simpl in Ha, Hb. decompose [or] Ha; decompose [or] Hb; try contradiction; subst a; subst b; try reflexivity; cbn in Ef; discriminate Ef. }
  subst b. conj; auto. apply app_inv_head in Ef. injection Ef as Ef. apply app_inv_tail in Ef. apply app_inv_head in Ef. injection Ef as Ef. apply str_nat_inj, Ef.
Qed.

Lemma digit_plain n : n < 10 -> digit n <> "."%char /\ digit n <> ":"%char /\ digit n <> " "%char /\ digit n <> "/"%char.
Proof. intros H. do 10 (destruct n as [|n]; [repeat split; discriminate|]). lia. Qed.
Lemma digit_inj n m : n < 10 -> m < 10 -> digit n = digit m -> n = m.
Proof. intros Hn Hm. do 10 (destruct n as [|n]; [do 10 (destruct m as [|m]; [reflexivity || discriminate|]); lia|]). lia. Qed.
Lemma padded_length w : forall n, length (padded w n) = w.
Proof. induction w as [|w IH]; intros n; [reflexivity|]. cbn [padded]. rewrite app_length, IH. simpl. lia. Qed.
Lemma padded_inj w : forall n m, n < 10 ^ w -> m < 10 ^ w -> padded w n = padded w m -> n = m.
Proof.
  induction w as [|w IH]; intros n m Hn Hm E; [simpl in Hn, Hm; lia|]. cbn [padded] in E. apply app_inj_tail in E as (E1 & E2).
  rewrite Nat.pow_succ_r' in Hn, Hm. apply IH in E1; try (apply Nat.div_lt_upper_bound; lia). apply digit_inj in E2; try (apply Nat.mod_upper_bound; lia).
  rewrite (Nat.div_mod n 10), (Nat.div_mod m 10) by lia. rewrite E1, E2. reflexivity.
Qed.
Lemma padded_plain w : forall n c, In c (padded w n) -> c <> "."%char /\ c <> ":"%char /\ c <> " "%char /\ c <> "/"%char.
Proof.
  induction w as [|w IH]; intros n c H; [destruct H|]. cbn [padded] in H. apply in_app_iff in H as [H|[<-|[]]]; [eapply IH, H|]. apply digit_plain. apply Nat.mod_upper_bound. lia.
Qed.
Lemma replace_none c d l : ~ In c l -> replace c d l = l.
Proof. intros H. unfold replace. rewrite <- (map_id l) at 2. apply map_ext_in. intros x Hx. destruct (ascii_dec x c); [subst; contradiction|reflexivity]. Qed.
Lemma replace_app c d a b : replace c d (a ++ b) = replace c d a ++ replace c d b. Proof. apply map_app. Qed.
Lemma split_head c a b : ~ In c a -> hd [] (split c (a ++ c :: b)) = a. Proof. intros H. rewrite (@split_app c a b H). reflexivity. Qed.
Lemma split_whole c a : ~ In c a -> hd [] (split c a) = a. Proof. intros H. rewrite (@split_none c a H). reflexivity. Qed.
Lemma name_text t : set_experiment_name t =
  padded 4 (year t) ++ s_ "-" ++ padded 2 (month t) ++ s_ "-" ++ padded 2 (day t) ++ s_ "_" ++ padded 2 (hour t) ++ s_ "-" ++ padded 2 (minute t).
Proof.
  unfold set_experiment_name, str_datetime.
  set (A := padded 4 (year t) ++ s_ "-" ++ padded 2 (month t) ++ s_ "-" ++ padded 2 (day t) ++ s_ " " ++ padded 2 (hour t) ++ s_ ":" ++ padded 2 (minute t)).
  assert (E : forall r, padded 4 (year t) ++ s_ "-" ++ padded 2 (month t) ++ s_ "-" ++ padded 2 (day t) ++ s_ " " ++ padded 2 (hour t) ++ s_ ":" ++ padded 2 (minute t) ++
     s_ ":" ++ padded 2 (second t) ++ r = (A ++ s_ ":" ++ padded 2 (second t)) ++ r) by (intros r; unfold A; rewrite <- !app_assoc; reflexivity).
  rewrite E. clear E.
  assert (N : ~ In "."%char (A ++ s_ ":" ++ padded 2 (second t))).
  { assert (P : forall w n, ~ In "."%char (padded w n)) by (intros w n H; apply padded_plain in H; destruct H as (? & ? & ? & ?); congruence).
    assert (Q : forall x, In x ["-"; " "; ":"]%string -> ~ In "."%char (s_ x)) by (intros x Hx H; simpl in Hx; destruct Hx as [<-|[<-|[<-|[]]]]; simpl in H; destruct H as [H|[]]; discriminate).
    pose proof (Q "-"%string (or_introl eq_refl)). pose proof (Q " "%string (or_intror (or_introl eq_refl))). pose proof (Q ":"%string (or_intror (or_intror (or_introl eq_refl)))).
    unfold A. rewrite !in_app_iff. pose proof (P 4 (year t)). pose proof (P 2 (month t)). pose proof (P 2 (day t)). pose proof (P 2 (hour t)). pose proof (P 2 (minute t)). pose proof (P 2 (second t)). tauto. }
  replace (hd [] (split "."%char ((A ++ s_ ":" ++ padded 2 (second t)) ++ (if microsecond t =? 0 then [] else s_ "." ++ padded 6 (microsecond t)))))
    with (A ++ s_ ":" ++ padded 2 (second t)).
  2:{ destruct (microsecond t =? 0); symmetry; [rewrite app_nil_r; apply split_whole, N|]. apply (@split_head "."%char _ (padded 6 (microsecond t))), N. }
  replace (firstn (length (A ++ s_ ":" ++ padded 2 (second t)) - 3) (A ++ s_ ":" ++ padded 2 (second t))) with A.
  2:{ rewrite !app_length, padded_length. change (length (s_ ":")) with 1. replace (length A + (1 + 2) - 3) with (length A + 0) by lia. rewrite firstn_app_2, firstn_O, app_nil_r. reflexivity. }
  unfold A. rewrite !replace_app. rewrite !(@replace_none ":"%char "-"%char (padded _ _)) by (intros H; apply padded_plain in H; destruct H as (? & ? & ? & ?); congruence).
  rewrite !(@replace_none " "%char "_"%char (padded _ _)) by (intros H; apply padded_plain in H; destruct H as (? & ? & ? & ?); congruence). reflexivity.
Qed.

Lemma name_inj t u : valid_time t -> valid_time u -> set_experiment_name t = set_experiment_name u -> same_minute t u.
Proof.
  intros (T1 & T2 & T3 & T4 & T5 & _) (U1 & U2 & U3 & U4 & U5 & _). rewrite !name_text. intros E.
  assert (A : forall w n m (x y : str), padded w n ++ x = padded w m ++ y -> padded w n = padded w m /\ x = y).
  { intros w n m x y Exy. assert (L : length (padded w n) = length (padded w m)) by (rewrite !padded_length; reflexivity). clear - Exy L. revert L Exy.
    generalize (padded w n) (padded w m). intros a b. revert b. induction a as [|c a IH]; intros [|c' b] L Exy; try discriminate; [auto|].
    injection Exy as -> Exy. injection L as L. destruct (IH b L Exy) as (-> & ->). auto. }
  apply A in E as (E1 & E). apply app_inv_head in E. apply A in E as (E2 & E). apply app_inv_head in E. apply A in E as (E3 & E). apply app_inv_head in E.
  apply A in E as (E4 & E5). apply app_inv_head in E5.
  unfold same_minute. change (10 ^ 4) with (10 ^ 4) in *. conj; (eapply padded_inj; [| |eassumption]); try assumption; change (10 ^ 2) with 100; lia.
Qed.
Lemma same_minute_name t u : same_minute t u -> set_experiment_name t = set_experiment_name u.
Proof. intros (E1 & E2 & E3 & E4 & E5). rewrite !name_text, E1, E2, E3, E4, E5. reflexivity. Qed.
Lemma name_plain t : exists c n, set_experiment_name t = c :: n /\ components (set_experiment_name t) = [set_experiment_name t] /\ is_absolute (set_experiment_name t) = false.
Proof.
  assert (N : ~ In slash (set_experiment_name t)).
  { assert (P : forall w n, ~ In slash (padded w n)) by (intros w n H; apply padded_plain in H; unfold slash in H; destruct H as (? & ? & ? & ?); congruence).
    assert (Q : forall x, In x ["-"; "_"]%string -> ~ In slash (s_ x)) by (intros x Hx H; simpl in Hx; destruct Hx as [<-|[<-|[]]]; simpl in H; destruct H as [H|[]]; discriminate).
    pose proof (Q "-"%string (or_introl eq_refl)). pose proof (Q "_"%string (or_intror (or_introl eq_refl))).
    rewrite name_text, !in_app_iff. pose proof (P 4 (year t)). pose proof (P 2 (month t)). pose proof (P 2 (day t)). pose proof (P 2 (hour t)). pose proof (P 2 (minute t)). tauto. }
  assert (L : length (set_experiment_name t) = 16) by (rewrite name_text, !app_length, !padded_length; reflexivity).
  destruct (set_experiment_name t) as [|c n] eqn:E; [discriminate|]. exists c, n. conj; auto.
  - unfold components. rewrite (@split_none slash _ N). cbn [filter].
    destruct (mem (c :: n) (map s_ [""; "."]%string)) eqn:M; [|reflexivity]. apply mem_In in M. simpl in M. destruct M as [M|[M|[]]]; rewrite <- M in L; discriminate.
  - simpl. destruct (ascii_dec c slash) as [->|]; [exfalso; apply N; left; reflexivity|reflexivity].
Qed.

(** * Reading settings with other files and another base directory *)
Section Reading.
Variable to_int : json -> option Z.
Variable to_float : json -> option Q.
Variable to_bool : json -> option bool.
Variable to_str : json -> option str.
Variables isf isf' mk mk' : dir -> bool.
Variables b b' : dir.
Definition reads_same (x : json) : Prop :=
  (forall p, file_path isf b x = Some p -> file_path isf' b' x = Some p) /\
  (forall y, costs isf b x = Some y -> costs isf' b' x = Some y).
Definition all_same (y : json) : Prop := forall x, path_value y x -> reads_same x.
Lemma same_in d k y : all_same (Dict d) -> In (k, y) d -> all_same y.
Proof. intros H I x Hx. apply H. eapply value_deep; eauto. Qed.
Lemma same_get d k y : all_same (Dict d) -> get k d = Some y -> all_same y.
Proof. intros H G. apply get_In in G. eapply same_in; eauto. Qed.
Lemma same_key d k x : all_same (Dict d) -> In k path_keys -> get k d = Some x -> reads_same x.
Proof. intros H K G. apply H. apply get_In in G. eapply value_here; eauto. Qed.
Lemma required_same A (v v' : json -> option A) k d r : (forall x, get k d = Some x -> forall r, v x = Some r -> v' x = Some r) -> required v k d = Some r -> required v' k d = Some r.
Proof. unfold required. destruct (get k d) as [x|]; [|discriminate]. intros H. apply H. reflexivity. Qed.
Lemma optional_same A (v v' : json -> option A) a k d r : (forall x, get k d = Some x -> forall r, v x = Some r -> v' x = Some r) -> optional v a k d = Some r -> optional v' a k d = Some r.
Proof. unfold optional. destruct (get k d) as [x|]; auto. Qed.
Lemma nullable_same A (v v' : json -> option A) x r : (forall r, v x = Some r -> v' x = Some r) -> nullable v x = Some r -> nullable v' x = Some r.
Proof.
  intros H. unfold nullable. destruct x as [[]|]; auto; destruct (v _) as [y|]; try discriminate; rewrite (H y eq_refl); auto.
Qed.
Lemma section_same A (v v' : dict value -> option A) x r : (forall d, x = Dict d -> forall r, v d = Some r -> v' d = Some r) -> section v x = Some r -> section v' x = Some r.
Proof. intros H. unfold section. destruct x as [y|e]; [auto|]. apply (H e eq_refl). Qed.
Lemma items_same A (v v' : json -> option A) : forall d r, (forall k x, In (k, x) d -> forall r, v x = Some r -> v' x = Some r) -> items v d = Some r -> items v' d = Some r.
Proof.
  unfold items. induction d as [|[k x] d IH]; intros r H; cbn [map all_some]; auto. cbn [fst snd]. destruct (v x) as [y|] eqn:E; [|discriminate].
  rewrite (H k x (or_introl eq_refl) y E). cbn [option_map].
  destruct (all_some (map (fun kv => option_map (pair (fst kv)) (v (snd kv))) d)) as [r'|] eqn:E'; [|discriminate].
  rewrite (IH r' (fun k x I => H k x (or_intror I)) eq_refl). auto.
Qed.
Lemma dirichlet_same d r : all_same (Dict d) -> parse_dirichlet isf b d = Some r -> parse_dirichlet isf' b' d = Some r.
Proof.
  intros HS. unfold parse_dirichlet. unfold guard at 1 3. destruct (negb _); auto.
  destruct (optional (one_of _) _ _ _) as [ty|]; [|discriminate]. destruct (optional (nullable (file_path isf b)) None (s_ "file") d) as [f|] eqn:E; [|discriminate].
  assert (E' : optional (nullable (file_path isf' b')) None (s_ "file") d = Some f); [|rewrite E'; auto]. eapply optional_same; [|exact E].
  intros x G f'. apply nullable_same. apply (@same_key d (s_ "file") x HS); auto. simpl. tauto.
Qed.
Lemma geo_same d r : all_same (Dict d) -> parse_geo to_float isf b d = Some r -> parse_geo to_float isf' b' d = Some r.
Proof.
  intros HS. unfold parse_geo. destruct (optional (one_of ["uniform"; "cost_based"; "diameter_based"]%string) _ _ _) as [ty|]; [|discriminate].
  destruct (optional (costs isf b) None (s_ "costs") d) as [f|] eqn:E; [|discriminate].
  assert (E' : optional (costs isf' b') None (s_ "costs") d = Some f); [|rewrite E'; auto]. eapply optional_same; [|exact E].
  intros x G f'. apply (@same_key d (s_ "costs") x HS); auto. simpl. tauto.
Qed.
Lemma prior_same d r : all_same (Dict d) -> parse_prior to_int to_float isf b d = Some r -> parse_prior to_int to_float isf' b' d = Some r.
Proof.
  intros HS. unfold parse_prior.
  assert (HD : forall x, all_same x -> forall r, section (parse_dirichlet isf b) x = Some r -> section (parse_dirichlet isf' b') x = Some r).
  { intros x Hx r'. apply section_same. intros e -> r''. apply dirichlet_same, Hx. }
  destruct (required (section (items (section (items (section (parse_dirichlet isf b)))))) (s_ "confounding_effects") d) as [conf|] eqn:E1; [|discriminate].
  assert (E1' : required (section (items (section (items (section (parse_dirichlet isf' b')))))) (s_ "confounding_effects") d = Some conf); [eapply required_same; [|exact E1]|rewrite E1'].
  1:{ intros x G r'. apply section_same. intros e -> r''. pose proof (same_get HS G) as S1. apply items_same. intros k y I r3. apply section_same. intros e' -> r4.
      pose proof (same_in S1 I) as S2. apply items_same. intros k' y' I'. apply HD. eapply same_in; eauto. }
  destruct (required (section (parse_dirichlet isf b)) (s_ "cluster_effect") d) as [cl|] eqn:E2; [|discriminate].
  assert (E2' : required (section (parse_dirichlet isf' b')) (s_ "cluster_effect") d = Some cl) by (eapply required_same; [|exact E2]; intros x G; apply HD; eapply same_get; eauto). rewrite E2'.
  destruct (required (section (parse_geo to_float isf b)) (s_ "geo") d) as [geo|] eqn:E3; [|discriminate].
  assert (E3' : required (section (parse_geo to_float isf' b')) (s_ "geo") d = Some geo); [eapply required_same; [|exact E3]|rewrite E3'].
  1:{ intros x G r'. apply section_same. intros e -> r''. apply geo_same. eapply same_get; eauto. }
  destruct (required (section (parse_size to_int)) _ d) as [size|]; [|discriminate].
  destruct (required (section (parse_dirichlet isf b)) (s_ "weights") d) as [w|] eqn:E4; [|discriminate].
  assert (E4' : required (section (parse_dirichlet isf' b')) (s_ "weights") d = Some w) by (eapply required_same; [|exact E4]; intros x G; apply HD; eapply same_get; eauto). rewrite E4'.
  auto.
Qed.
Lemma model_same d r : all_same (Dict d) -> parse_model to_int to_float to_bool to_str isf b d = Some r -> parse_model to_int to_float to_bool to_str isf' b' d = Some r.
Proof.
  intros HS. unfold parse_model. unfold guard at 1 3. destruct (validate_confounder_priors d); auto.
  destruct (optional _ _ (s_ "clusters") d); [|discriminate]. destruct (optional _ _ (s_ "confounders") d); [|discriminate]. destruct (optional _ _ (s_ "sample_source") d); [|discriminate].
  destruct (required (section (parse_prior to_int to_float isf b)) (s_ "prior") d) as [p|] eqn:E; [|discriminate].
  assert (E' : required (section (parse_prior to_int to_float isf' b')) (s_ "prior") d = Some p); [|rewrite E'; auto]. eapply required_same; [|exact E].
  intros x G r'. apply section_same. intros e -> r''. apply prior_same. eapply same_get; eauto.
Qed.
Lemma data_same d r : all_same (Dict d) -> parse_data to_str isf b d = Some r -> parse_data to_str isf' b' d = Some r.
Proof.
  intros HS. unfold parse_data.
  destruct (required (file_path isf b) (s_ "features") d) as [f|] eqn:E1; [|discriminate]. assert (E1' : required (file_path isf' b') (s_ "features") d = Some f); [eapply required_same; [|exact E1]|rewrite E1'].
  1:{ intros x G. apply (@same_key d (s_ "features") x HS); auto. simpl. tauto. }
  destruct (required (file_path isf b) (s_ "feature_states") d) as [g|] eqn:E2; [|discriminate]. assert (E2' : required (file_path isf' b') (s_ "feature_states") d = Some g); [|rewrite E2'; auto]. eapply required_same; [|exact E2].
  intros x G. apply (@same_key d (s_ "feature_states") x HS); auto. simpl. tauto.
Qed.
Lemma config_same d c : all_same (Dict d) -> (b = b' \/ exists r x, get (s_ "results") d = Some (Dict r) /\ get (s_ "path") r = Some x /\ fix_path b x = fix_path b' x) ->
  parse_config to_int to_float to_bool to_str isf mk b d = Some c -> mk' (r_path (s_results c)) = true ->
  parse_config to_int to_float to_bool to_str isf' mk' b' d = Some c.
Proof.
  intros HS HR H HM. unfold parse_config in *. destruct (validate_operators d) as [d'|] eqn:V; [|discriminate].
  assert (G : forall k, k <> s_ "mcmc" -> get k d' = get k d).
  { intros k N. unfold validate_operators in V. destruct (get (s_ "model") d) as [[|m]|]; try discriminate. destruct (get (s_ "sample_source") m) as [x|]; [|discriminate].
    destruct (truthy x); [injection V as <-; reflexivity|]. destruct (get (s_ "mcmc") d) as [[|x']|]; try discriminate. destruct (get (s_ "operators") x') as [[|o]|]; try discriminate.
    injection V as <-. apply get_put_other, N. }
  destruct (required (section (parse_data to_str isf b)) (s_ "data") d') as [data|] eqn:E1; [|discriminate].
  assert (E1' : required (section (parse_data to_str isf' b')) (s_ "data") d' = Some data); [eapply required_same; [|exact E1]|rewrite E1'].
  1:{ intros x Gx r'. rewrite G in Gx by discriminate. apply section_same. intros e -> r''. apply data_same. eapply same_get; eauto. }
  destruct (required (section (parse_model to_int to_float to_bool to_str isf b)) (s_ "model") d') as [model|] eqn:E2; [|discriminate].
  assert (E2' : required (section (parse_model to_int to_float to_bool to_str isf' b')) (s_ "model") d' = Some model); [eapply required_same; [|exact E2]|rewrite E2'].
  1:{ intros x Gx r'. rewrite G in Gx by discriminate. apply section_same. intros e -> r''. apply model_same. eapply same_get; eauto. }
  destruct (required _ (s_ "mcmc") d') as [mcmc|]; [|discriminate].
  destruct (optional (section (parse_results to_bool mk b)) (default_results b) (s_ "results") d') as [res|] eqn:E3; [|discriminate].
  assert (E3' : optional (section (parse_results to_bool mk' b')) (default_results b') (s_ "results") d' = Some res).
  { assert (HM' : mk' (r_path res) = true).
    { unfold guard in H. destruct (only _ d'); [|discriminate]. injection H as <-. exact HM. }
    clear - HS HR E3 HM' G. unfold optional in *. rewrite G in * by discriminate. destruct (get (s_ "results") d) as [x|] eqn:Gr.
    - unfold section in *. destruct x as [|r]; [discriminate|]. unfold parse_results in *. unfold optional in *. pose proof (same_get HS Gr) as Hr.
      destruct (get (s_ "path") r) as [x|] eqn:Gp.
      + unfold directory_path in *. destruct (fix_path b x) as [p|] eqn:F; [|discriminate].
        assert (F' : fix_path b' x = Some p).
        { destruct HR as [<-|(r' & x' & E & Gx & Hx)]; [exact F|]. injection E as <-. rewrite Gp in Gx. injection Gx as <-. rewrite <- Hx. exact F. }
        rewrite F'.
        destruct (mk p); [|discriminate]. destruct (match get (s_ "log_file") r with Some _ => _ | None => _ end) as [lg|]; [|discriminate].
        unfold guard in *. destruct (only _ r); [|discriminate]. injection E3 as <-. cbn [r_path] in HM'. rewrite HM'. reflexivity.
      + destruct HR as [<-|(r' & x & E & Gx & _)]; [exact E3|]. injection E as <-. congruence.
    - destruct HR as [<-|(r' & x & E & _)]; [exact E3|discriminate]. }
  rewrite E3'. exact H.
Qed.
End Reading.
