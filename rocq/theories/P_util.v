(** Property theorems C44, C45, C46, C51, C54. *)
From Verif Require Import M_util L_util.
From Coq Require Import Lra Lqa.

(** C44. For non-negative counts and a positive limit: no count increases or becomes negative, proportions
    are kept, counts with a sum within the limit are unchanged, the sum is at most the limit (and equal to
    it if the sum was not smaller). *)
Theorem C44_scale_counts : forall counts limit r row, (0 < limit)%Q ->
  nth_error counts r = Some row -> Forall (fun c => 0 <= c)%Q row ->
  exists row', nth_error (scale_counts counts limit) r = Some row' /\ length row' = length row /\
    (forall i, 0 <= nth i row' 0 <= nth i row 0)%Q /\
    (forall i j, nth i row' 0 * nth j row 0 == nth j row' 0 * nth i row 0)%Q /\
    (Qsum row <= limit -> forall i, nth i row' 0 == nth i row 0)%Q /\
    (Qsum row' <= limit)%Q /\ (limit <= Qsum row -> Qsum row' == limit)%Q.
Proof.
  intros counts limit r row Hl Hr Hp. exists (scale_counts_row limit row). split.
  - unfold scale_counts. rewrite nth_error_map, Hr. reflexivity.
  - exact (scale_row Hp Hl).
Qed.
Print Assumptions C44_scale_counts.
(** One row above the limit, one below, one without counts. *)
Example C44_case : map (map Qred) (scale_counts [[6; 2; 0]; [1; 2; 0]; [0; 0; 0]] 4)%Q = [[3; 1; 0]; [1; 2; 0]; [0; 0; 0]]%Q.
Proof. vm_compute. reflexivity. Qed.

(** C45. False: the documented example round_int(113, 'up') raises; and with a negative offset rounding
    down can return a larger number. *)
Theorem C45_round_int_refuted :
  (exists n off, (0 <= off)%Z /\ ~ exists r, round_int n Up off = Some r /\ (n <= r)%Z) /\
  (exists n off r, round_int n Down off = Some r /\ (n < r)%Z).
Proof.
  split.
  - exists 113%Z, 0%Z. split; [lia|]. intros (r & H & _). vm_compute in H. discriminate.
  - exists 3%Z, (-5)%Z, 5%Z. split; [vm_compute; reflexivity|lia].
Qed.
Print Assumptions C45_round_int_refuted.
(** Partial: for offsets >= 0 every number that is returned is correct, and the exceptions are exactly the
    numbers above the offset rounded up and those below minus the offset rounded down.  Missing: a result
    for these, and negative offsets. *)
Theorem C45_round_int_partial : forall n m off, (0 <= off)%Z -> m <> OtherMode ->
  (forall r, round_int n m off = Some r -> (m = Up -> n <= r)%Z /\ (m = Down -> r <= n)%Z) /\
  (round_int n m off = None <-> (off < n /\ m = Up)%Z \/ (off < - n /\ m = Down)%Z).
Proof.
  intros n m off Ho Hm. split; [intros r; apply round_int_bounds; auto|apply round_int_raises; auto].
Qed.
Print Assumptions C45_round_int_partial.
Example C45_case : round_int 113 Down 10 = Some 100%Z /\ round_int (-113) Up 10 = Some (-100)%Z /\ round_int 3 Up 10 = Some 20%Z.
Proof. repeat split; vm_compute; reflexivity. Qed.
(** The other rounding functions are correct for all modes and positions when they return. *)
Theorem C45_round_single_int : forall n m position off r, (0 <= off)%Z -> round_single_int n m position off = Some r ->
  (m = Up -> n <= r)%Z /\ (m = Down -> r <= n)%Z.
Proof. exact single_bounds. Qed.
Print Assumptions C45_round_single_int.
Theorem C45_round_multiple_ints : forall ups downs position off us ds, (0 <= off)%Z ->
  round_multiple_ints ups downs position off = Some (us, ds) -> Forall2 Z.le ups us /\ Forall2 Z.le ds downs.
Proof. exact multiple_bounds. Qed.
Print Assumptions C45_round_multiple_ints.
(** Positive numbers are rounded to multiples of the same power of ten: if the smallest has [d] digits, the
    results are multiples of 10^(d - position), at most [offset + 1] such steps away. *)
Theorem C45_round_multiple_positions : forall ups downs position off us ds d m, (0 <= off)%Z -> (1 <= position)%Z ->
  Forall (Z.lt 0) (ups ++ downs) -> In m (ups ++ downs) -> Forall (Z.le m) (ups ++ downs) -> (0 < d)%Z -> (10 ^ (d - 1) <= m < 10 ^ d)%Z ->
  round_multiple_ints ups downs position off = Some (us, ds) ->
  Forall2 (fun n r => n <= r <= n + (off + 1) * 10 ^ (d - position) /\ (10 ^ (d - position) | r))%Z ups us /\
  Forall2 (fun n r => n - (off + 1) * 10 ^ (d - position) <= r <= n /\ (10 ^ (d - position) | r))%Z downs ds.
Proof. exact multiple_factor. Qed.
Print Assumptions C45_round_multiple_positions.
(** The documented examples. *)
Example C45_single_case : round_single_int 113 Up 2 0 = Some 120%Z /\ round_single_int 3456 Up 2 0 = Some 3500%Z /\
  round_single_int 113 Down 2 0 = Some 110%Z /\ round_single_int 3456 Down 3 0 = Some 3450%Z /\
  round_single_int 3456 Down 2 1 = Some 3300%Z /\ round_multiple_ints [3456; 113]%Z [250]%Z 2 0 = Some ([3460; 120], [250])%Z.
Proof. repeat split; vm_compute; reflexivity. Qed.

(** C46. False: linear_rescale maps old_max to old_max, not to new_max. *)
Theorem C46_linear_rescale_refuted : exists old_min old_max new_min new_max, (old_min < old_max)%Q /\ (new_min < new_max)%Q /\
  ~ (linear_rescale old_max old_min old_max new_min new_max == new_max)%Q /\
  ~ (linear_rescale old_min old_min old_max new_min new_max == new_min)%Q.
Proof.
  exists 0%Q, 1%Q, 2%Q, 4%Q. repeat split; try (vm_compute; reflexivity); intros H; vm_compute in H; discriminate.
Qed.
Print Assumptions C46_linear_rescale_refuted.
(** It is correct exactly for ranges with the same maximum, and always off by the same amount. *)
Theorem C46_linear_rescale_partial : forall old_min old_max new_min new_max, ~ (old_min == old_max)%Q ->
  (linear_rescale old_min old_min old_max new_min new_max == new_min + (old_max - new_max))%Q /\
  (linear_rescale old_max old_min old_max new_min new_max == new_max + (old_max - new_max))%Q.
Proof.
  intros a b c d H. unfold linear_rescale. split; field; intros E; apply H; lra.
Qed.
Print Assumptions C46_linear_rescale_partial.
Example C46_case : (linear_rescale 2 0 10 5 10 == 6)%Q.
Proof. reflexivity. Qed.

(** C51. Zero at cost zero and strictly decreasing, for all positive scales and all inflection points. *)
Theorem C51_exponential : forall scale : R, (0 < scale)%R ->
  geo_exponential scale 0 = 0%R /\ forall x y, (x < y)%R -> (geo_exponential scale y < geo_exponential scale x)%R.
Proof.
  intros s Hs. split; [apply exponential_zero; Lra.lra|]. intros; apply exponential_lt; auto.
Qed.
Print Assumptions C51_exponential.
Theorem C51_sigmoid : forall scale x0 : R, (0 < scale)%R ->
  geo_sigmoid scale x0 0 = 0%R /\ forall x y, (x < y)%R -> (geo_sigmoid scale x0 y < geo_sigmoid scale x0 x)%R.
Proof.
  intros s x0 Hs. split; [apply sigmoid_zero|]. intros; apply sigmoid_lt; auto.
Qed.
Print Assumptions C51_sigmoid.
Example C51_case : (0 < 2 /\ geo_exponential 2 3 = - 3 / 2)%R.
Proof. split; [Lra.lra|reflexivity]. Qed.

(** C54. With at least one group: one entry per chain, non-decreasing, within [start, end]. *)
Theorem C54_max_sizes : forall start end_ n_total k_groups, (start <= end_)%Z -> k_groups <> 0%nat ->
  exists l, get_max_size_list start end_ n_total k_groups = Some l /\ length l = n_total /\
    (forall i x, nth_error l i = Some x -> (start <= x <= end_)%Z) /\
    (forall i j x y, (i <= j)%nat -> nth_error l i = Some x -> nth_error l j = Some y -> (x <= y)%Z).
Proof.
  intros s e n k Hs Hk. destruct (get_max_size_list s e n k) as [l|] eqn:E.
  - exists l. split; auto. exact (max_sizes Hs E).
  - apply max_sizes_defined in E. contradiction.
Qed.
Print Assumptions C54_max_sizes.
(** The schedule of the warm-up: starts half-way between the initial and the maximum size, and the last quarter
    of the chains is not restricted. *)
Theorem C54_warmup : forall initial max n l, (1 <= initial <= max)%Z -> warmup_sizes initial max n = Some l ->
  (forall x, nth_error l 0 = Some x -> x = (initial + max) / 2)%Z /\
  (forall i x, nth_error l i = Some x -> (i < (n + 3) / 4)%nat -> x = (initial + max) / 2)%Z /\
  (forall i x, nth_error l i = Some x -> (3 * ((n + 3) / 4) <= i)%nat -> max <= x <= 3 * max / 2)%Z.
Proof. intros initial max n l. apply warmup_spec. Qed.
Print Assumptions C54_warmup.
Example C54_case : get_max_size_list 5 15 7 4 = Some [5; 5; 7; 7; 10; 10; 12]%Z /\ warmup_sizes 5 20 4 = Some [12; 16; 21; 25]%Z.
Proof. split; vm_compute; reflexivity. Qed.

(** C59. The schedule is meant to give the warm-up chains different limits.  False: the operators use the
    limit of the model copies, which is the same in all chains; the schedule is never read. *)
Theorem C59_warmup_limits_refuted : exists initial max n w c limit, warmup_init initial max n = Some w /\
  operator_limit w c = Some limit /\ nth_error (ws_max_size w) c <> Some limit.
Proof.
  eexists 5%Z, 20%Z, 4%nat, _, 0%nat, _. repeat apply conj; [vm_compute; reflexivity|vm_compute; reflexivity|vm_compute; discriminate].
Qed.
Print Assumptions C59_warmup_limits_refuted.
(** Partial: what does hold is that every chain has the limit of the model. *)
Theorem C59_warmup_limits_partial : forall initial max n w c, warmup_init initial max n = Some w -> (c < n)%nat ->
  operator_limit w c = Some max.
Proof.
  intros initial max n w c H Hc. unfold warmup_init in H. destruct (warmup_sizes _ _ _); [|discriminate].
  injection H as <-. unfold operator_limit. simpl. apply nth_error_repeat. exact Hc.
Qed.
Print Assumptions C59_warmup_limits_partial.
Example C59_case : exists w, warmup_init 5 20 4 = Some w /\ operator_limit w 3 = Some 20%Z /\ ws_max_size w = [12; 16; 21; 25]%Z.
Proof. eexists. repeat split; vm_compute; reflexivity. Qed.
