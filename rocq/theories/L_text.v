(** Lemmas about the string operations of M_text. *)
From Verif Require Import M_text.
Set Implicit Arguments.
Unset Strict Implicit.

Lemma str_eqb_eq a b : str_eqb a b = true <-> a = b.
Proof. unfold str_eqb. destruct (list_eq_dec ascii_dec a b); split; congruence. Qed.
Lemma str_eqb_refl a : str_eqb a a = true.
Proof. apply str_eqb_eq; auto. Qed.
Lemma mem_In a l : mem a l = true <-> In a l.
Proof.
  unfold mem. rewrite existsb_exists. split.
  - intros (x & H & E). apply str_eqb_eq in E. subst; auto.
  - intros H. exists a. rewrite str_eqb_refl. auto.
Qed.

Lemma split_nonempty c l : split c l <> [].
Proof. destruct l as [|x r]; simpl; [discriminate|]. destruct (ascii_dec x c); [discriminate|]. destruct (split c r); discriminate. Qed.
Lemma split_app c a l : ~ In c a -> split c (a ++ c :: l) = a :: split c l.
Proof.
  induction a as [|x a IH]; intros H; simpl.
  - destruct (ascii_dec c c); [auto|congruence].
  - destruct (ascii_dec x c) as [->|_]; [exfalso; apply H; left; auto|]. rewrite IH; auto. intros I; apply H; right; auto.
Qed.
Lemma split_none c a : ~ In c a -> split c a = [a].
Proof.
  induction a as [|x a IH]; intros H; simpl; auto.
  destruct (ascii_dec x c) as [->|_]; [exfalso; apply H; left; auto|]. rewrite IH; auto. intros I; apply H; right; auto.
Qed.
Lemma split_join c l : l <> [] -> (forall a, In a l -> ~ In c a) -> split c (join [c] l) = l.
Proof.
  induction l as [|a l IH]; intros Hn H; [congruence|]. destruct l as [|b l].
  - simpl. apply split_none. apply H; left; auto.
  - change (join [c] (a :: b :: l)) with (a ++ c :: join [c] (b :: l)). rewrite split_app by (apply H; left; auto).
    f_equal. apply IH; [discriminate|]. intros x Hx. apply H; right; auto.
Qed.
(** Lines, each ended by [c]. *)
Lemma split_lines c rows : (forall a, In a rows -> ~ In c a) ->
  split c (concat (map (fun r => r ++ [c]) rows)) = rows ++ [[]].
Proof.
  induction rows as [|r rows IH]; intros H; simpl; auto. rewrite <- app_assoc. cbn [app].
  rewrite split_app by (apply H; left; auto). f_equal. apply IH. intros a Ha. apply H; right; auto.
Qed.
Lemma not_in_join c sep l : ~ In c sep -> (forall a, In a l -> ~ In c a) -> ~ In c (join sep l).
Proof.
  intros Hs. induction l as [|a l IH]; intros H; [simpl; auto|]. destruct l as [|b l].
  - simpl. apply H; left; auto.
  - change (join sep (a :: b :: l)) with (a ++ sep ++ join sep (b :: l)). rewrite !in_app_iff.
    intros [I|[I|I]]; [apply (H a) in I; auto; left; auto|auto|]. revert I. apply IH. intros x Hx. apply H; right; auto.
Qed.
Lemma join_not_nil sep l : sep <> [] -> (length l >= 2)%nat -> join sep l <> [].
Proof.
  destruct l as [|a [|b l]]; simpl; intros Hs H; try lia. destruct a; [|discriminate]. destruct sep; [congruence|discriminate].
Qed.

Lemma cut_app c a l : ~ In c a -> cut c (a ++ c :: l) = Some (a, l).
Proof.
  induction a as [|x a IH]; intros H; simpl.
  - destruct (ascii_dec c c); [auto|congruence].
  - destruct (ascii_dec x c) as [->|_]; [exfalso; apply H; left; auto|]. rewrite IH; auto. intros I; apply H; right; auto.
Qed.
Lemma cut_none c a : ~ In c a -> cut c a = None.
Proof.
  induction a as [|x a IH]; intros H; simpl; auto.
  destruct (ascii_dec x c) as [->|_]; [exfalso; apply H; left; auto|]. rewrite IH; auto. intros I; apply H; right; auto.
Qed.
Lemma split2_app c a b l : ~ In c a -> ~ In c b -> split_max 2 c (a ++ c :: b ++ c :: l) = [a; b; l].
Proof. intros Ha Hb. cbn [split_max]. rewrite cut_app by auto. rewrite cut_app by auto. reflexivity. Qed.

Lemma startswith_app p l : startswith p (p ++ l) = true.
Proof. induction p as [|x p IH]; simpl; auto. destruct (ascii_dec x x); congruence. Qed.
Lemma startswith_spec p l : startswith p l = true <-> exists r, l = p ++ r.
Proof.
  split; [|intros (r & ->); apply startswith_app]. revert l. induction p as [|x p IH]; intros l H; [exists l; auto|].
  destruct l as [|y l]; simpl in H; [discriminate|]. destruct (ascii_dec x y) as [->|]; [|discriminate].
  apply IH in H as (r & ->). exists r; auto.
Qed.

(** * Unique decomposition at the first separator *)
Lemma cut_inj c (a b l m : str) : ~ In c a -> ~ In c b -> a ++ c :: l = b ++ c :: m -> a = b /\ l = m.
Proof.
  intros Ha Hb H. assert (E : cut c (a ++ c :: l) = cut c (b ++ c :: m)) by (rewrite H; auto). rewrite !cut_app in E by auto.
  injection E as -> ->. auto.
Qed.
Lemma startswith_sep c (a b l : str) : ~ In c a -> ~ In c b -> startswith (a ++ [c]) (b ++ c :: l) = true -> a = b.
Proof.
  intros Ha Hb H. apply startswith_spec in H as (r & H). rewrite <- app_assoc in H. symmetry in H. apply cut_inj in H; auto. tauto.
Qed.

(** * Numbers *)
Lemma s_inj x y : s_ x = s_ y -> x = y.
Proof.
  intros H. rewrite <- (string_of_list_ascii_of_string x), <- (string_of_list_ascii_of_string y). unfold s_ in H. congruence.
Qed.
Lemma str_nat_inj n m : str_nat n = str_nat m -> n = m.
Proof.
  unfold str_nat. intros H. apply s_inj in H.
  assert (E : NilZero.uint_of_string (NilZero.string_of_uint (Nat.to_uint n)) = NilZero.uint_of_string (NilZero.string_of_uint (Nat.to_uint m))) by congruence.
  rewrite !NilZero.usu in E.
  - injection E as E. apply DecimalNat.Unsigned.to_uint_inj in E. auto.
  - intros E'. pose proof (f_equal Nat.of_uint E') as E2. rewrite DecimalNat.Unsigned.of_to in E2. simpl in E2. subst m. discriminate.
  - intros E'. pose proof (f_equal Nat.of_uint E') as E2. rewrite DecimalNat.Unsigned.of_to in E2. simpl in E2. subst n. discriminate.
Qed.
Definition digit_char (c : ascii) : Prop := In c (s_ "0123456789").
Lemma uint_digits d : Forall digit_char (s_ (NilEmpty.string_of_uint d)).
Proof. induction d; simpl; constructor; auto; unfold digit_char; simpl; tauto. Qed.
Lemma str_nat_digits n : Forall digit_char (str_nat n).
Proof.
  unfold str_nat, NilZero.string_of_uint. destruct (Nat.to_uint n) eqn:E; try (rewrite <- E; apply uint_digits).
  simpl. constructor; auto. unfold digit_char; simpl; tauto.
Qed.
Lemma str_nat_no c n : ~ digit_char c -> ~ In c (str_nat n).
Proof. intros H I. pose proof (str_nat_digits n) as F. rewrite Forall_forall in F. auto. Qed.
