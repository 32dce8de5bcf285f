(** Lemmas for C44, C45, C46, C51, C54. *)
From Verif Require Import M_util L_model L_params.
From Coq Require Import Lra Lqa.
Set Implicit Arguments.
Unset Strict Implicit.

(** * C44 *)
Section Counts.
Open Scope Q_scope.
Lemma Qsum_scaled l x : Qsum (map (fun c => c * x) l) == Qsum l * x.
Proof. induction l as [|y l IH]; [simpl; ring|]. cbn [map]. rewrite !Qsum_cons, IH. ring. Qed.
Lemma scale_factor l x : Forall (fun c => 0 <= c) l -> 0 < x -> exists s, scale_counts_row x l = map (fun c => c * s) l /\
  0 < s /\ s <= 1 /\ (Qsum l <= x -> s == 1 \/ Qsum l == 0) /\ Qsum l * s <= x /\ (x <= Qsum l -> Qsum l * s == x).
Proof.
  intros Hl Hx. pose proof (Qsum_nonneg Hl) as Hs. unfold scale_counts_row. eexists. split; [reflexivity|].
  set (S := Qsum l) in *. destruct (Qeq_bool S 0) eqn:E.
  - apply Qeq_bool_iff in E. set (y := x / EPS). assert (0 < y) by (unfold y; apply Qlt_shift_div_l; [reflexivity|lra]).
    destruct (Qle_bool 1 y) eqn:E1; simpl.
    + conj; try (rewrite E); lra.
    + assert (y < 1). { apply Qnot_le_lt. intros C. apply Qle_bool_iff in C. congruence. }
      conj; try (rewrite E); try lra; auto.
  - assert (HS : 0 < S) by (apply Qeq_bool_neq in E; lra). set (y := x / S).
    assert (Hy : S * y == x) by (unfold y; field; lra).
    assert (0 < y) by (unfold y; apply Qlt_shift_div_l; lra).
    destruct (Qle_bool 1 y) eqn:E1; simpl.
    + apply Qle_bool_iff in E1. assert (S <= x). { rewrite <- Hy. nra. }
      conj; try lra; auto; try (left; reflexivity). 
    + assert (y < 1). { apply Qnot_le_lt. intros C. apply Qle_bool_iff in C. congruence. }
      assert (x < S) by (rewrite <- Hy; nra).
      conj; try lra; auto.
Qed.
Lemma all_zero l : Forall (fun c => 0 <= c) l -> Qsum l == 0 -> Forall (fun c => c == 0) l.
Proof.
  induction 1 as [|x l Hx Hl IH]; constructor; rewrite Qsum_cons in H; pose proof (Qsum_nonneg Hl); [lra|].
  apply IH. lra.
Qed.
Lemma scale_row l x : Forall (fun c => 0 <= c) l -> 0 < x ->
  length (scale_counts_row x l) = length l /\
  (forall i, 0 <= nth i (scale_counts_row x l) 0 <= nth i l 0) /\
  (forall i j, nth i (scale_counts_row x l) 0 * nth j l 0 == nth j (scale_counts_row x l) 0 * nth i l 0) /\
  (Qsum l <= x -> forall i, nth i (scale_counts_row x l) 0 == nth i l 0) /\
  Qsum (scale_counts_row x l) <= x /\ (x <= Qsum l -> Qsum (scale_counts_row x l) == x).
Proof.
  intros Hl Hx. destruct (scale_factor Hl Hx) as (s & E & S0 & S1 & S2 & S3 & S4). rewrite E.
  assert (N : forall i, nth i (map (fun c => c * s) l) 0 == nth i l 0 * s).
  { intros i. destruct (Nat.lt_ge_cases i (length l)).
    - rewrite (nth_indep _ 0 (0 * s)) by (rewrite map_length; auto). rewrite (map_nth (fun c => c * s)). reflexivity.
    - rewrite !nth_overflow by (rewrite ?map_length; auto). ring. }
  assert (P : forall i, 0 <= nth i l 0).
  { intros i. destruct (Nat.lt_ge_cases i (length l)); [|rewrite nth_overflow by auto; lra].
    rewrite Forall_forall in Hl. apply Hl. apply nth_In; auto. }
  split; [rewrite map_length; auto|]. conj.
  - intros i. rewrite N. specialize (P i). split; nra.
  - intros i j. rewrite !N. ring.
  - intros H i. rewrite N. destruct (S2 H) as [->|Z]; [ring|]. pose proof (all_zero Hl Z) as A.
    destruct (Nat.lt_ge_cases i (length l)); [|rewrite nth_overflow by auto; ring].
    rewrite Forall_forall in A. rewrite (A (nth i l 0)) by (apply nth_In; auto). ring.
  - rewrite Qsum_scaled. auto.
  - intros H. rewrite Qsum_scaled. auto.
Qed.
End Counts.

(** * C45 *)
Section Rounding.
Open Scope Z_scope.
Lemma pow10 e : 0 <= e -> 0 < 10 ^ e.
Proof. intros; apply Z.pow_pos_nonneg; lia. Qed.
Lemma base_le n f : 0 < f -> n / f * f <= n < n / f * f + f.
Proof. intros H. pose proof (Z.mod_pos_bound n f H). pose proof (Z.div_mod n f). nia. Qed.
Lemma single_bounds n m p off r : 0 <= off -> round_single_int n m p off = Some r ->
  (m = Up -> n <= r) /\ (m = Down -> r <= n).
Proof.
  intros Ho. unfold round_single_int. cbv zeta. set (d := if 0 <? n then _ else _).
  assert (G : forall f, 0 < f -> n <= n / f * f + (off + 1) * f /\ n / f * f - off * f <= n).
  { intros f Hf. pose proof (base_le n Hf). nia. }
  destruct m; [| |discriminate];
    (destruct (d <? p) eqn:E; [discriminate|]; apply Z.ltb_ge in E;
     assert (Hf : 0 < 10 ^ (d - p)) by (apply pow10; lia); pose proof (G _ Hf); pose proof (G 10 ltac:(lia));
     repeat match goal with |- context [if ?b then _ else _] => destruct b; try discriminate end;
     intros [= <-]; (split; intros; try discriminate; lia)).
Qed.
Lemma all_some_in A (l : list (option A)) r : all_some l = Some r -> Forall2 (fun a b => a = Some b) l r.
Proof.
  revert r. induction l as [|x l IH]; simpl; intros r H; [injection H as <-; constructor|].
  destruct x; [|discriminate]. destruct (all_some l); [|discriminate]. injection H as <-. constructor; auto.
Qed.
Lemma all_some_map A B (f : A -> option B) (R : A -> B -> Prop) l r : (forall a b, f a = Some b -> R a b) ->
  all_some (map f l) = Some r -> Forall2 R l r.
Proof.
  intros H E. apply all_some_in in E. revert r E. induction l as [|x l IH]; intros r E; inversion E; subst; constructor; auto.
Qed.
Lemma Forall2_flip A B (R : A -> B -> Prop) l r : Forall2 (fun b a => R a b) l r -> Forall2 R r l.
Proof. induction 1; constructor; auto. Qed.
Lemma multiple_bounds ups downs p off us ds : 0 <= off -> round_multiple_ints ups downs p off = Some (us, ds) ->
  Forall2 Z.le ups us /\ Forall2 Z.le ds downs.
Proof.
  intros Ho. unfold round_multiple_ints. destruct (Zmin_list _); [|discriminate]. cbv zeta.
  destruct (all_some _) as [u|] eqn:E1; [|discriminate]. destruct (all_some (map _ downs)) as [d|] eqn:E2; [|discriminate].
  intros [= <- <-]. split.
  - eapply all_some_map; [|exact E1]. intros n r H. apply (single_bounds Ho H). reflexivity.
  - apply Forall2_flip. eapply all_some_map; [|exact E2]. intros n r H. apply (single_bounds Ho H). reflexivity.
Qed.

Lemma len_str_pos n : 1 <= len_str n.
Proof.
  unfold len_str, str_of_Z. destruct (Z.to_int n) as [u|u]; [|simpl; lia].
  assert (H : NilZero.string_of_uint u <> ""%string) by (destruct u; simpl; discriminate).
  simpl. destruct (NilZero.string_of_uint u); [congruence|simpl; lia].
Qed.
Lemma round_int_step f n m off : round_int_fuel (S f) n m off =
    if off <? n then match m with Down => Some (n / 10 ^ (len_str off - 1) * 10 ^ (len_str off - 1) - off) | _ => None end
    else if 0 <=? n then Some (match m with Up => off + 10 ^ (len_str off - 1) | _ => - off end)
    else option_map Z.opp (round_int_fuel f (Z.abs n) (match m with Down => Up | _ => Down end) off).
Proof. reflexivity. Qed.
(** More fuel does not change the result. *)
Lemma round_int_fuel_enough f n m off : round_int_fuel (S (S f)) n m off = round_int n m off.
Proof.
  unfold round_int. rewrite !(round_int_step _ n). destruct (off <? n) eqn:E1; auto. destruct (0 <=? n) eqn:E2; auto.
  f_equal. rewrite !round_int_step. destruct (off <? Z.abs n); auto.
  assert (E3 : 0 <=? Z.abs n = true) by (apply Z.leb_le; lia). rewrite E3. auto.
Qed.
Lemma round_int_bounds n m off r : 0 <= off -> round_int n m off = Some r -> (m = Up -> n <= r) /\ (m = Down -> r <= n).
Proof.
  intros Ho. unfold round_int. rewrite !round_int_step. set (c := 10 ^ (len_str off - 1)).
  assert (Hc : 0 < c) by (apply pow10; pose proof (@len_str_pos off); lia).
  pose proof (@base_le n c Hc) as B1. pose proof (@base_le (Z.abs n) c Hc) as B2.
  destruct (Z.ltb_spec off n); destruct (Z.leb_spec 0 n); destruct (Z.ltb_spec off (Z.abs n)); destruct (Z.leb_spec 0 (Z.abs n)); try lia;
    destruct m; simpl; intros [= <-]; split; intros; try discriminate; lia.
Qed.
Lemma round_int_raises n m off : m <> OtherMode -> 0 <= off ->
  (round_int n m off = None <-> (off < n /\ m = Up) \/ (off < - n /\ m = Down)).
Proof.
  intros Hm Ho. unfold round_int. rewrite !round_int_step.
  destruct (Z.ltb_spec off n); destruct (Z.leb_spec 0 n); destruct (Z.ltb_spec off (Z.abs n)); destruct (Z.leb_spec 0 (Z.abs n)); try lia;
    destruct m; simpl; try congruence; split; intros A; try discriminate; try (repeat destruct A as [A|A]; destruct A; lia || discriminate); auto;
    try (left; split; [lia|reflexivity]); try (right; split; [lia|reflexivity]).
Qed.
End Rounding.

(** * C54 *)
Section Sizes.
Open Scope nat_scope.
Lemma nth_flat_repeat A (l : list A) m i : 0 < m -> nth_error (flat_map (fun s => repeat s m) l) i = nth_error l (i / m).
Proof.
  intros Hm. revert i. induction l as [|x l IH]; intros i; simpl.
  - destruct i; simpl; [|]; destruct (_ / _); auto.
  - destruct (Nat.lt_ge_cases i m).
    + rewrite nth_error_app1 by (rewrite repeat_length; auto). rewrite Nat.div_small by auto.
      rewrite nth_error_repeat by auto. reflexivity.
    + rewrite nth_error_app2 by (rewrite repeat_length; auto). rewrite repeat_length, IH.
      replace (i / m) with (S ((i - m) / m)); [reflexivity|].
      replace i with ((i - m) + 1 * m) at 2 by lia. rewrite Nat.div_add by lia. lia.
Qed.
Lemma flat_repeat_length A (l : list A) m : length (flat_map (fun s => repeat s m) l) = length l * m.
Proof. induction l; simpl; auto. rewrite app_length, repeat_length. lia. Qed.
Lemma nth_error_firstn A (l : list A) n i : i < n -> nth_error (firstn n l) i = nth_error l i.
Proof.
  revert n i. induction l as [|x l IH]; intros [|n] [|i] H; simpl; auto; try lia. apply IH; lia.
Qed.
Lemma max_sizes start end_ n k l : (start <= end_)%Z -> get_max_size_list start end_ n k = Some l ->
  length l = n /\ (forall i x, nth_error l i = Some x -> (start <= x <= end_)%Z) /\
  (forall i j x y, i <= j -> nth_error l i = Some x -> nth_error l j = Some y -> (x <= y)%Z).
Proof.
  intros Hse H. destruct k as [|k]; [discriminate|]. unfold get_max_size_list in H. cbv zeta in H.
  set (per := (n + S k - 1) / S k) in *. assert (Hper : n <= S k * per).
  { unfold per. pose proof (Nat.div_mod (n + S k - 1) (S k)). pose proof (Nat.mod_upper_bound (n + S k - 1) (S k)). lia. }
  set (ms := map _ (seq 0 (S k))) in *.
  assert (El : l = firstn n (flat_map (fun s => repeat s per) ms)) by congruence. subst l. clear H.
  assert (L : length (flat_map (fun s => repeat s per) ms) = S k * per) by (rewrite flat_repeat_length; unfold ms; rewrite map_length, seq_length; auto).
  assert (N : forall i x, nth_error (firstn n (flat_map (fun s => repeat s per) ms)) i = Some x -> i < n /\ 0 < per /\ i / per < S k /\
     x = (start + Z.of_nat (i / per) * (end_ - start) / Z.of_nat (S k))%Z).
  { intros i x Hi. assert (i < n). { assert (i < length (firstn n (flat_map (fun s => repeat s per) ms))) by (apply nth_error_Some; congruence). rewrite firstn_length in H. lia. }
    rewrite nth_error_firstn in Hi by auto. assert (0 < per) by nia. rewrite nth_flat_repeat in Hi by auto.
    unfold ms in Hi. rewrite nth_error_map in Hi. destruct (nth_error (seq 0 (S k)) (i / per)) as [j|] eqn:E; [|discriminate].
    assert (i / per < S k). { rewrite <- (seq_length (S k) 0). apply nth_error_Some; congruence. }
    apply (nth_error_nth _ _ 0) in E. rewrite seq_nth in E by auto. cbn [Nat.add] in E. subst j. simpl in Hi. injection Hi as <-. auto. }
  split; [|split].
  - rewrite firstn_length, L. lia.
  - intros i x Hi. apply N in Hi as (_ & _ & Hq & ->). set (q := i / per) in *. 
    assert (0 <= Z.of_nat q * (end_ - start) / Z.of_nat (S k))%Z by (apply Z.div_pos; nia).
    assert (Z.of_nat q * (end_ - start) / Z.of_nat (S k) <= end_ - start)%Z by (apply Z.div_le_upper_bound; nia).
    lia.
  - intros i j x y Hij Hi Hj. apply N in Hi as (_ & Hp & _ & ->). apply N in Hj as (_ & _ & _ & ->).
    assert (i / per <= j / per) by (apply Nat.div_le_mono; lia).
    assert (Z.of_nat (i / per) * (end_ - start) / Z.of_nat (S k) <= Z.of_nat (j / per) * (end_ - start) / Z.of_nat (S k))%Z; [|lia].
    apply Z.div_le_mono; nia.
Qed.
Lemma max_sizes_defined start end_ n k : get_max_size_list start end_ n k = None <-> k = 0.
Proof. destruct k; simpl; split; auto; discriminate. Qed.
End Sizes.

(** * C51 *)
Section Geo.
Open Scope R_scope.
Lemma log_expit_lt x y : x < y -> log_expit x < log_expit y.
Proof.
  intros H. unfold log_expit. apply Ropp_lt_contravar. apply ln_increasing.
  - pose proof (exp_pos (- y)). Lra.lra.
  - apply Rplus_lt_compat_l. apply exp_increasing. Lra.lra.
Qed.
Lemma exponential_zero s : s <> 0 -> geo_exponential s 0 = 0.
Proof. intros; unfold geo_exponential; field; auto. Qed.
Lemma exponential_lt s x y : 0 < s -> x < y -> geo_exponential s y < geo_exponential s x.
Proof.
  intros Hs H. unfold geo_exponential, Rdiv. apply Rmult_lt_compat_r; [apply Rinv_0_lt_compat; auto|Lra.lra].
Qed.
Lemma sigmoid_zero s x0 : geo_sigmoid s x0 0 = 0.
Proof. unfold geo_sigmoid. replace (- (0 - x0)) with x0 by ring. ring. Qed.
Lemma sigmoid_lt s x0 x y : 0 < s -> x < y -> geo_sigmoid s x0 y < geo_sigmoid s x0 x.
Proof.
  intros Hs H. unfold geo_sigmoid. apply Rplus_lt_compat_r. apply log_expit_lt. unfold Rdiv.
  apply Rmult_lt_compat_r; [apply Rinv_0_lt_compat; auto|Lra.lra].
Qed.
End Geo.

(** Digits: [len_str] of a positive number. *)
From Coq Require Import Decimal DecimalPos DecimalString DecimalFacts.
Section Digits.
Open Scope Z_scope.
Lemma uint_len u : String.length (NilEmpty.string_of_uint u) = Decimal.nb_digits u.
Proof. induction u; cbn; congruence. Qed.
Lemma acc_bounds l : forall acc, Zpos acc * 10 ^ Z.of_nat (Decimal.nb_digits l) <= Zpos (Pos.of_uint_acc l acc) < (Zpos acc + 1) * 10 ^ Z.of_nat (Decimal.nb_digits l).
Proof.
  induction l as [|l IH|l IH|l IH|l IH|l IH|l IH|l IH|l IH|l IH|l IH]; intros acc; cbn [Pos.of_uint_acc Decimal.nb_digits]; [change (10 ^ Z.of_nat 0) with 1; lia| ..];
  rewrite Nat2Z.inj_succ, Z.pow_succ_r by lia;
  match goal with |- context [Pos.of_uint_acc l ?a] => pose proof (IH a) as H end;
  assert (0 < 10 ^ Z.of_nat (Decimal.nb_digits l)) by (apply Z.pow_pos_nonneg; lia); rewrite ?Pos2Z.inj_add, Pos2Z.inj_mul in H; nia.
Qed.
Lemma len_digits n : 0 < n -> 10 ^ (len_str n - 1) <= n < 10 ^ len_str n.
Proof.
  intros Hn. destruct n as [|p|p]; try lia. unfold len_str, str_of_Z. cbn [Z.to_int NilZero.string_of_int].
  assert (NZ : forall d, Pos.to_uint p <> Decimal.D0 d).
  { intros d E. pose proof (Unsigned.of_to p) as O. pose proof (Unsigned.to_of (Pos.to_uint p)) as T. rewrite O in T. change (N.to_uint (N.pos p)) with (Pos.to_uint p) in T.
    unfold Decimal.unorm in T. destruct (Decimal.nzhead (Pos.to_uint p)) eqn:Z; try congruence. exact (Unsigned.to_uint_nonzero p T). rewrite E in T. injection T as ->. exact (nzhead_nonzero _ _ Z). }
  pose proof (Unsigned.of_to p) as O.
  destruct (Pos.to_uint p) as [|u|u|u|u|u|u|u|u|u|u] eqn:E; [discriminate|exfalso; exact (NZ u eq_refl)|..];
  cbn [Pos.of_uint] in O; injection O as <-; unfold NilZero.string_of_uint; cbn [NilEmpty.string_of_uint String.length]; rewrite uint_len, Nat2Z.inj_succ; 
  match goal with |- context [Pos.of_uint_acc u ?a] => pose proof (acc_bounds u a) as H end; replace (Z.succ (Z.of_nat (Decimal.nb_digits u)) - 1) with (Z.of_nat (Decimal.nb_digits u)) by lia; rewrite Z.pow_succ_r by lia; lia.
Qed.
Lemma digits_unique n a b : 0 < a -> 0 < b -> 10 ^ (a - 1) <= n < 10 ^ a -> 10 ^ (b - 1) <= n < 10 ^ b -> a = b.
Proof.
  intros A B [H1 H2] [H3 H4]. destruct (Z.lt_trichotomy a b) as [L|[E|L]]; auto; exfalso.
  - assert (10 ^ a <= 10 ^ (b - 1)) by (apply Z.pow_le_mono_r; lia). lia.
  - assert (10 ^ b <= 10 ^ (a - 1)) by (apply Z.pow_le_mono_r; lia). lia.
Qed.
Lemma digits_mono n m : 0 < n <= m -> len_str n <= len_str m.
Proof.
  intros H. pose proof (@len_digits n ltac:(lia)) as A. pose proof (@len_digits m ltac:(lia)) as B. pose proof (@len_str_pos n). pose proof (@len_str_pos m).
  destruct (Z.le_gt_cases (len_str n) (len_str m)) as [|G]; auto. assert (10 ^ len_str m <= 10 ^ (len_str n - 1)) by (apply Z.pow_le_mono_r; lia). lia.
Qed.
Lemma single_factor n mode p off r : 0 <= off -> 0 < n -> 1 <= p -> round_single_int n mode p off = Some r ->
  let f := 10 ^ (len_str n - p) in p <= len_str n /\ (f | r) /\ (mode = Up -> r <= n + (off + 1) * f) /\ (mode = Down -> n - (off + 1) * f <= r).
Proof.
  intros Ho Hn Hp H. pose proof (@len_str_pos n) as L. unfold round_single_int in H. assert (E : (0 <? n) = true) by (apply Z.ltb_lt; lia). rewrite E in H. cbv zeta in *.
  assert (F : forall f, 0 < f -> n / f * f <= n < n / f * f + f) by (intros f Hf; apply base_le; auto).
  destruct mode; try discriminate; destruct (Z.ltb_spec (len_str n) p) as [|P]; try discriminate;
  assert (F0 : 0 < 10 ^ (len_str n - p)) by (apply pow10; lia); pose proof (F _ F0) as F1;
  (destruct (Z.eqb_spec (len_str n) 1) as [D1|D1];
   [injection H as <-; replace (len_str n - p) with 0 by lia; change (10 ^ 0) with 1; conj; [lia|apply Z.divide_1_l|intros; try discriminate; lia|intros; try discriminate; lia]|]);
  (destruct (Z.eqb_spec (len_str n) 2) as [D2|D2];
   [destruct (Z.eqb_spec p 1) as [P1|P1];
    [injection H as <-; subst p; rewrite D2 in *; change (10 ^ (2 - 1)) with 10 in *; conj; [lia| |intros; try discriminate; lia|intros; try discriminate; lia]
    |destruct (Z.eqb_spec p 2) as [P2|P2]; try discriminate; injection H as <-; subst p; rewrite D2 in *; change (10 ^ (2 - 2)) with 1 in *; conj; [lia|apply Z.divide_1_l|intros; try discriminate; lia|intros; try discriminate; lia]]
   |destruct (Z.eqb_spec p (len_str n)) as [P2|P2]; cbn [negb] in H; injection H as <-;
    [rewrite P2, Z.sub_diag in *; change (10 ^ 0) with 1 in *; conj; [lia|apply Z.divide_1_l|intros; try discriminate; lia|intros; try discriminate; lia]
    |conj; [lia| |intros; try discriminate; lia|intros; try discriminate; lia]]]).
  all: rewrite <- ?Z.mul_add_distr_r, <- ?Z.mul_sub_distr_r; apply Z.divide_factor_r.
Qed.
Lemma fold_min_spec r : forall x, In (fold_left Z.min r x) (x :: r) /\ Forall (Z.le (fold_left Z.min r x)) (x :: r).
Proof.
  induction r as [|y r IH]; intros x; cbn [fold_left]; [split; [left; reflexivity|repeat constructor; lia]|].
  destruct (IH (Z.min x y)) as [I F]. inversion F as [|? ? F1 F2]; subst. split; [|constructor; [lia|constructor; [lia|exact F2]]].
  destruct I as [I|I]; [|right; right; exact I]. destruct (Z.min_spec x y) as [[_ M]|[_ M]]; rewrite M in I at 1; [left|right; left]; exact I.
Qed.
Lemma multiple_factor ups downs p off us ds d m : 0 <= off -> 1 <= p -> Forall (Z.lt 0) (ups ++ downs) -> In m (ups ++ downs) -> Forall (Z.le m) (ups ++ downs) ->
  0 < d -> 10 ^ (d - 1) <= m < 10 ^ d -> round_multiple_ints ups downs p off = Some (us, ds) ->
  Forall2 (fun n r => n <= r <= n + (off + 1) * 10 ^ (d - p) /\ (10 ^ (d - p) | r)) ups us /\
  Forall2 (fun n r => n - (off + 1) * 10 ^ (d - p) <= r <= n /\ (10 ^ (d - p) | r)) downs ds.
Proof.
  intros Ho Hp Pos Im Lm Hd Dm H. unfold round_multiple_ints in H. destruct (Zmin_list (ups ++ downs)) as [m'|] eqn:E; [|discriminate]. cbv zeta in H.
  assert (m' = m) as ->.
  { unfold Zmin_list in E. destruct (ups ++ downs) as [|x r]; [discriminate|]. injection E as <-. destruct (fold_min_spec r x) as [I F]. rewrite Forall_forall in F, Lm. pose proof (F m Im). pose proof (Lm _ I). lia. }
  rewrite Forall_forall in Pos, Lm. pose proof (Pos m Im) as Pm.
  assert (L : len_str m = d) by (apply (@digits_unique m); auto; [pose proof (@len_str_pos m); lia|apply len_digits, Pm]). rewrite L in H.
  assert (K : forall n mode r, In n (ups ++ downs) -> round_single_int n mode (p + len_str n - d) off = Some r ->
    (10 ^ (d - p) | r) /\ (mode = Up -> n <= r <= n + (off + 1) * 10 ^ (d - p)) /\ (mode = Down -> n - (off + 1) * 10 ^ (d - p) <= r <= n)).
  { intros n mode r Hn Hr. pose proof (Pos n Hn) as Pn. pose proof (Lm n Hn) as Ln. assert (len_str m <= len_str n) by (apply digits_mono; lia).
    destruct (single_bounds Ho Hr) as [B1 B2]. apply single_factor in Hr; try lia. cbv zeta in Hr. replace (len_str n - (p + len_str n - d)) with (d - p) in Hr by lia. destruct Hr as (_ & D & U & W). conj; auto; intros M; specialize (U) ; specialize (W); try (specialize (U M); specialize (B1 M)); try (specialize (W M); specialize (B2 M)); lia. }
  destruct (all_some (map _ ups)) as [u|] eqn:E1; [|discriminate]. destruct (all_some (map _ downs)) as [w|] eqn:E2; [|discriminate]. injection H as <- <-.
  assert (G : forall mode l r, (forall n, In n l -> In n (ups ++ downs)) -> all_some (map (fun n => round_single_int n mode (p + len_str n - d) off) l) = Some r ->
    Forall2 (fun n r => (10 ^ (d - p) | r) /\ (mode = Up -> n <= r <= n + (off + 1) * 10 ^ (d - p)) /\ (mode = Down -> n - (off + 1) * 10 ^ (d - p) <= r <= n)) l r).
  { intros mode l. induction l as [|n l IH]; intros r Hl Hr; cbn [map all_some] in Hr; [injection Hr as <-; constructor|].
    destruct (round_single_int n mode _ off) as [x|] eqn:Ex; [|discriminate]. destruct (all_some (map (fun n => round_single_int n mode (p + len_str n - d) off) l)) as [y|] eqn:Ey; [|discriminate]. injection Hr as <-. constructor; [apply K; auto; apply Hl; left; auto|apply IH; auto; intros; apply Hl; right; auto]. }
  split.
  - pose proof (G Up ups u ltac:(intros; apply in_or_app; auto) E1) as X. clear -X. induction X as [|n r l l' (D & U & _) X IH]; constructor; auto.
  - pose proof (G Down downs w ltac:(intros; apply in_or_app; auto) E2) as X. clear -X. induction X as [|n r l l' (D & _ & U) X IH]; constructor; auto.
Qed.
End Digits.

Lemma nth_error_firstn' A (l : list A) n i : (i < n)%nat -> nth_error (firstn n l) i = nth_error l i.
Proof. revert l i. induction n as [|n IH]; intros [|x l] [|i] H; cbn; auto; try lia. apply IH. lia. Qed.
Lemma warmup_spec initial max n l : (1 <= initial <= max)%Z -> warmup_sizes initial max n = Some l ->
  (forall x, nth_error l 0 = Some x -> x = (initial + max) / 2)%Z /\
  (forall i x, nth_error l i = Some x -> (i < (n + 3) / 4)%nat -> x = (initial + max) / 2)%Z /\
  (forall i x, nth_error l i = Some x -> (3 * ((n + 3) / 4) <= i)%nat -> max <= x <= 3 * max / 2)%Z.
Proof.
  intros H E. unfold warmup_sizes, get_max_size_list in E. replace (n + 4 - 1)%nat with (n + 3)%nat in E by lia. set (g := ((n + 3) / 4)%nat) in *.
  match type of E with Some ?a = _ => assert (l = a) as -> by congruence end. clear E. cbn [seq map flat_map]. rewrite List.app_nil_r. set (s := ((initial + max) / 2)%Z). set (e := (3 * max / 2)%Z).
  change (Z.of_nat 4) with 4%Z. change (Z.of_nat 0) with 0%Z. change (Z.of_nat 3) with 3%Z. rewrite Z.mul_0_l, Z.div_0_l, Z.add_0_r by lia.
  assert (First : forall i x, nth_error (firstn n (repeat s g ++ repeat (s + Z.of_nat 1 * (e - s) / 4)%Z g ++ repeat (s + Z.of_nat 2 * (e - s) / 4)%Z g ++ repeat (s + 3 * (e - s) / 4)%Z g)) i = Some x -> (i < g)%nat -> x = s).
  { intros i x Hi L. destruct (Nat.lt_ge_cases i n) as [Li|Li]; [rewrite nth_error_firstn' in Hi by exact Li|rewrite (proj2 (nth_error_None _ _)) in Hi; [discriminate|rewrite firstn_length; lia]].
    rewrite nth_error_app1 in Hi by (rewrite repeat_length; lia). apply nth_error_In, repeat_spec in Hi. exact Hi. }
  conj.
  - intros x Hx. apply (First 0%nat x Hx). destruct n; [discriminate|]. assert (4 <= S n + 3)%nat by lia. apply (Nat.div_le_mono _ _ 4) in H0; [|lia]. exact H0.
  - exact First.
  - intros i x Hi L. destruct (Nat.lt_ge_cases i n) as [Li|Li]; [rewrite nth_error_firstn' in Hi by exact Li|rewrite (proj2 (nth_error_None _ _)) in Hi; [discriminate|rewrite firstn_length; lia]].
    rewrite !nth_error_app2 in Hi by (rewrite ?repeat_length; lia). apply nth_error_In, repeat_spec in Hi. subst x. subst s e.
    pose proof (Z.div_mod (initial + max) 2 ltac:(lia)). pose proof (Z.mod_pos_bound (initial + max) 2 ltac:(lia)). pose proof (Z.div_mod (3 * max) 2 ltac:(lia)). pose proof (Z.mod_pos_bound (3 * max) 2 ltac:(lia)).
    set (a := ((initial + max) / 2)%Z) in *. set (b := (3 * max / 2)%Z) in *. pose proof (Z.div_mod (3 * (b - a)) 4 ltac:(lia)). pose proof (Z.mod_pos_bound (3 * (b - a)) 4 ltac:(lia)). lia.
Qed.
