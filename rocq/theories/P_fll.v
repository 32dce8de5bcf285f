(** C106: the log-likelihood in double precision. *)
From Coq Require Import List ZArith Reals Permutation Lra Lia Bool Psatz.
From Flocq Require Import Core.Core IEEE754.BinarySingleNaN IEEE754.Binary IEEE754.Bits.
From Verif Require Import Base M_float S_float L_float L_float2 L_float3 L_float4 P_float M_fchoice L_fchoice M_faccept S_faccept P_faccept M_fll S_fll L_fll.
Import ListNotations.
Local Open Scope R_scope.

Lemma total_map_add A (f g : A -> R) l : total (map (fun x => f x + g x) l) = total (map f l) + total (map g l).
Proof. induction l as [|x l IH]; cbn [map total]; [ring|rewrite IH; ring]. Qed.
Lemma total_map_close A (f g h : A -> R) l : Forall (fun x => Rabs (f x - g x) <= h x) l -> Rabs (total (map f l) - total (map g l)) <= total (map h l).
Proof.
  induction 1 as [|x l H F IH]; cbn [map total]; [rewrite Rminus_0_r, Rabs_R0; lra|].
  replace (f x + total (map f l) - (g x + total (map g l))) with ((f x - g x) + (total (map f l) - total (map g l))) by ring. eapply Rle_trans; [apply Rabs_triang|]. lra.
Qed.
Lemma total_map_le A (f g : A -> R) l : Forall (fun x => f x <= g x) l -> total (map f l) <= total (map g l).
Proof. induction 1; cbn [map total]; lra. Qed.
Lemma total_const A (k : R) (l : list A) : total (map (fun _ => k) l) = INR (length l) * k.
Proof. induction l as [|x l IH]; [cbn; ring|]. cbn [map total length]. rewrite IH, S_INR. ring. Qed.
Lemma total_times A (k : R) (f : A -> R) l : total (map (fun x => k * f x) l) = k * total (map f l).
Proof. induction l as [|x l IH]; cbn [map total]; [ring|rewrite IH; ring]. Qed.
Lemma order_nth o (x : list dbl) (P : dbl -> Prop) : order_of o (length x) -> Forall P x -> forall i, In i (leaves o) -> P (nth i x zero).
Proof. intros O F i Hi. apply (Permutation_in _ O), in_seq in Hi. rewrite Forall_forall in F. apply F, nth_In. lia. Qed.
Lemma u_52 : / 2 ^ 52 = 2 * u. Proof. rewrite u_pow. cbn. lra. Qed.
Lemma count_bound N : INR N <= 2 ^ 40 -> INR N * 2048 * 2 <= bpow radix2 1000.
Proof.
  intros H. apply Rle_trans with (bpow radix2 40 * bpow radix2 12). - replace (bpow radix2 40) with (2 ^ 40) by (rewrite bpow_powerRZ; apply (pow_powerRZ 2 40)). replace (bpow radix2 12) with (2048 * 2) by (cbn; lra). lra.
  - rewrite <- bpow_plus. apply bpow_le. lia.
Qed.

Section Logs.
  Variable np_log : dbl -> dbl.
  Hypothesis G : good_log np_log.

  (** The logarithm of one observation. *)
  Lemma log_one x : fin x -> 0 < val x <= bpow radix2 54 -> fin (np_log x) /\ Rabs (val (np_log x) - ln (val x)) <= 2 * u * Rabs (ln (val x)) /\ Rabs (val (np_log x)) <= 2048.
  Proof.
    intros F P. destruct (proj1 G x F ltac:(lra)) as (A & B). unfold Rdiv in B. rewrite u_52 in B. pose proof (ln_size F P) as L. pose proof u_small. pose proof u_pos. pose proof (Rabs_pos (ln (val x))).
    split; [exact A|]. split; [lra|]. replace (val (np_log x)) with ((val (np_log x) - ln (val x)) + ln (val x)) by ring. eapply Rle_trans; [apply Rabs_triang|]. nra.
  Qed.

  Lemma logs_sum o3 obs : order_of o3 (length obs) -> INR (length obs) <= 2 ^ 40 -> Forall (fun x => fin x /\ 0 < val x <= bpow radix2 54) obs ->
    fin (log_lh np_log o3 obs) /\ Rabs (val (log_lh np_log o3 obs) - sum_ln (vals obs)) <= (2 * INR (length obs) + 1) * u * size_ln (vals obs).
  Proof.
    intros O HN F. set (N := INR (length obs)) in *. pose proof u_pos as U. pose proof u_small as Us. set (l := map np_log obs).
    assert (Ll : length l = length obs) by apply map_length. assert (O' : order_of o3 (length l)) by (rewrite Ll; exact O).
    assert (L : Forall (fun x => fin x /\ Rabs (val x) <= 2048) l). { apply Forall_map. apply Forall_impl with (2 := F). intros x (Fx & Px). destruct (log_one x Fx Px) as (A & _ & B). split; assumption. }
    pose proof (Permutation_length O') as Len. rewrite seq_length, Ll in Len.
    destruct (@sum_signed o3 l 2048) as (A & B & C & D & E); [lra|intros i Hi; exact (order_nth o3 l _ O' L i Hi)|rewrite Len; apply small_of, HN|rewrite Len; pose proof (count_bound (length obs) HN) as CB; lra|].
    rewrite !(total_perm (Permutation_map _ O')) in B. rewrite (total_seq_nth val zero l), (total_seq_nth (fun y => Rabs (val y)) zero l) in B. rewrite Len in B, E. fold N in B, E. fold (log_lh np_log o3 obs) in A. split; [exact A|]. change (sum_in o3 l) with (log_lh np_log o3 obs) in B.
    unfold l in B. rewrite !map_map in B. unfold sum_ln, size_ln, vals. rewrite !map_map. set (a := total (map (fun x => Rabs (ln (val x))) obs)) in *.
    assert (Cl : Forall (fun x => Rabs (val (np_log x) - ln (val x)) <= 2 * u * Rabs (ln (val x))) obs) by (apply Forall_impl with (2 := F); intros x (Fx & Px); apply log_one; assumption).
    pose proof (total_map_close _ (fun x => val (np_log x)) (fun x => ln (val x)) (fun x => 2 * u * Rabs (ln (val x))) obs Cl) as H1. rewrite (total_times _ (2 * u) (fun x => Rabs (ln (val x)))) in H1. fold a in H1.
    assert (H2 : total (map (fun x => Rabs (val (np_log x))) obs) <= (1 + 2 * u) * a). { unfold a. rewrite <- total_times. apply total_map_le. apply Forall_impl with (2 := Cl). intros x Hx. replace (val (np_log x)) with ((val (np_log x) - ln (val x)) + ln (val x)) by ring. eapply Rle_trans; [apply Rabs_triang|]. lra. }
    assert (a0 : 0 <= a) by (unfold a; apply total_nonneg, Forall_map, Forall_forall; intros; apply Rabs_pos).
    set (s := total (map (fun x => val (np_log x)) obs)) in *. set (t := total (map (fun x => ln (val x)) obs)) in *. set (v := val (log_lh np_log o3 obs)) in *.
    assert (H3 : 2 * (N - 1) * u * total (map (fun x => Rabs (val (np_log x))) obs) <= 2 * (N - 1) * u * ((1 + 2 * u) * a)) by (apply Rmult_le_compat_l; [apply Rmult_le_pos; lra|exact H2]).
    assert (Nu : N * u <= / 1024) by apply small_of, HN.
    assert (H4 : 2 * (N - 1) * u * ((1 + 2 * u) * a) + 2 * u * a <= (2 * N + 1) * u * a).
    { replace (2 * (N - 1) * u * ((1 + 2 * u) * a) + 2 * u * a) with ((2 * (N - 1) * (1 + 2 * u) + 2) * (u * a)) by ring. replace ((2 * N + 1) * u * a) with ((2 * N + 1) * (u * a)) by ring. apply Rmult_le_compat_r; [apply Rmult_le_pos; lra|]. nra. }
    replace (v - t) with ((v - s) + (s - t)) by ring. eapply Rle_trans; [apply Rabs_triang|]. lra.
  Qed.

  (** A sum with an infinite term. *)
  Lemma sum_infinite o x : (forall i, In i (leaves o) -> nth i x zero = B754_infinity 53 1024 true \/ fin (nth i x zero) /\ Rabs (val (nth i x zero)) <= 2048) -> INR (length (leaves o)) <= 2 ^ 40 ->
    (exists i, In i (leaves o) /\ nth i x zero = B754_infinity 53 1024 true) -> sum_in o x = B754_infinity 53 1024 true.
  Proof.
    induction o as [i|l IHl r IHr]; cbn [leaves sum_in]; intros H HN (j & Hj & E).
    - destruct Hj as [->|[]]. exact E.
    - rewrite app_length, plus_INR in HN. pose proof (pos_INR (length (leaves l))) as Pl. pose proof (pos_INR (length (leaves r))) as Pr.
      assert (S : forall o, (forall i, In i (leaves o) -> In i (leaves l ++ leaves r)) -> INR (length (leaves o)) <= 2 ^ 40 -> (forall i, In i (leaves o) -> nth i x zero <> B754_infinity 53 1024 true) -> fin (sum_in o x)).
      { intros o Ho No Fo. apply (@sum_signed o x 2048); [lra| |apply small_of, No|pose proof (count_bound _ No); lra]. intros i Hi. destruct (H i (Ho i Hi)) as [X|X]; [destruct (Fo i Hi X)|exact X]. }
      assert (Dec : forall o, (exists i, In i (leaves o) /\ nth i x zero = B754_infinity 53 1024 true) \/ (forall i, In i (leaves o) -> nth i x zero <> B754_infinity 53 1024 true)).
      { intros o. destruct (existsb (fun i => minus_inf (nth i x zero)) (leaves o)) eqn:X.
        - left. apply existsb_exists in X as (i & Hi & X). exists i. split; [exact Hi|]. destruct (nth i x zero) as [s|s|s pl e|s m e B]; cbn in X; try discriminate. destruct s; [reflexivity|discriminate].
        - right. intros i Hi Y. assert (Z : existsb (fun i => minus_inf (nth i x zero)) (leaves o) = true) by (apply existsb_exists; exists i; split; [exact Hi|rewrite Y; reflexivity]). congruence. }
      assert (Hl : forall i, In i (leaves l) -> In i (leaves l ++ leaves r)) by (intros i Hi; apply in_or_app; left; exact Hi). assert (Hr : forall i, In i (leaves r) -> In i (leaves l ++ leaves r)) by (intros i Hi; apply in_or_app; right; exact Hi).
      destruct (Dec l) as [Dl|Dl], (Dec r) as [Dr|Dr].
      + rewrite IHl, IHr; try assumption; try lra; try (intros i Hi; apply H; auto). reflexivity.
      + rewrite IHl; try assumption; try lra; try (intros i Hi; apply H; auto). apply add_inf, S; [exact Hr|lra|exact Dr].
      + rewrite IHr; try assumption; try lra; try (intros i Hi; apply H; auto). apply add_inf, S; [exact Hl|lra|exact Dl].
      + exfalso. apply in_app_or in Hj as [Hj|Hj]; [exact (Dl j Hj E)|exact (Dr j Hj E)].
  Qed.
End Logs.

Lemma exact_le_one n c : proper n c -> exact_lh c <= 1.
Proof.
  intros (Lh & Lw & Ll & Fw & Fl & T). unfold exact_lh. apply (Rmult_le_reg_r (available (has c) (weights c))); [exact T|]. unfold Rdiv. rewrite Rmult_assoc, Rinv_l, Rmult_1_r, Rmult_1_l by lra.
  unfold available, exact_terms. clear T. revert Lh Lw Ll Fw Fl. destruct c as [h w l s]. cbn [has weights lhs]. clear s. revert n w l. induction h as [|b h IH]; intros n w l Lh Lw Ll Fw Fl; [cbn; lra|].
  destruct w as [|x w], l as [|y l]; cbn in Lh, Lw, Ll; subst n; try discriminate. cbn [map2 total]. inversion Fw as [|? ? Fx Fw']; subst. inversion Fl as [|? ? Fy Fl']; subst. specialize (IH (length h) w l eq_refl ltac:(congruence) ltac:(congruence) Fw' Fl').
  destruct Fx as [_ Fx], Fy as [_ Fy]. destruct b; [|lra]. assert (val x * val y <= val x) by nra. lra.
Qed.

Lemma nine n : INR n <= 2 ^ 40 -> 9 * INR n * u <= / 8.
Proof. intros H. apply small_of in H. unfold small in H. lra. Qed.

Lemma mixed_good n o1 o2 c : proper n c -> INR n <= 2 ^ 40 -> order_of o1 n -> order_of o2 n -> Forall not_tiny (weights c) -> Forall not_tiny (lhs c) -> 0 < exact_lh c ->
  fin (mixed o1 o2 c) /\ 0 < val (mixed o1 o2 c) <= 2 /\ Rabs (ln (val (mixed o1 o2 c)) - ln (exact_lh c)) <= 18 * INR n * u.
Proof.
  intros P Hn O1 O2 Gw Gl E. destruct (mixed_relative P (small_of n Hn) O1 O2 Gw Gl) as (F & e & He & V). pose proof (exact_le_one n c P) as E1. pose proof (nine n Hn) as N9.
  split; [exact F|]. rewrite V. assert (X : Rabs e <= / 4) by lra. pose proof (Rabs_le_inv' X). split; [split; nra|]. eapply Rle_trans; [apply ln_near; assumption|]. lra.
Qed.

(** The log-likelihood is the exact one up to rounding: N observations, n components. *)
Theorem C106_mixture : forall np_log n o1 o2 o3 cells, good_log np_log -> INR n <= 2 ^ 40 -> INR (length cells) <= 2 ^ 40 ->
  order_of o1 n -> order_of o2 n -> order_of o3 (length cells) ->
  Forall (proper n) cells -> Forall (fun c => Forall not_tiny (weights c) /\ Forall not_tiny (lhs c)) cells -> Forall (fun c => 0 < exact_lh c) cells ->
  let ll := log_likelihood np_log false o1 o2 o3 cells in
  is_finite 53 1024 ll = true /\
  Rabs (val ll - sum_ln (map exact_lh cells)) <= (19 * INR n * INR (length cells) + (2 * INR (length cells) + 1) * size_ln (map exact_lh cells)) / 2 ^ 53.
Proof.
  intros np_log n o1 o2 o3 cells G Hn HN O1 O2 O3 P T E ll. set (N := INR (length cells)) in *.
  assert (M : Forall (fun c => fin (mixed o1 o2 c) /\ 0 < val (mixed o1 o2 c) <= 2 /\ Rabs (ln (val (mixed o1 o2 c)) - ln (exact_lh c)) <= 18 * INR n * u) cells).
  { rewrite Forall_forall in *. intros c Hc. destruct (T c Hc). apply mixed_good; auto. }
  set (obs := map (mixed o1 o2) cells). assert (Lo : length obs = length cells) by apply map_length.
  assert (B54 : 2 <= bpow radix2 54) by (apply (@bpow_le radix2 1 54); lia).
  destruct (logs_sum np_log G o3 obs) as (A & B); [rewrite Lo; exact O3|rewrite Lo; exact HN| |].
  { apply Forall_map. apply Forall_impl with (2 := M). intros c (F & V & _). split; [exact F|lra]. }
  split; [exact A|]. change (log_lh np_log o3 obs) with ll in B. rewrite Lo in B. fold N in B. unfold Rdiv. rewrite <- u_pow.
  unfold sum_ln, size_ln, vals, obs in *. rewrite !map_map in *. pose proof u_pos as U.
  assert (M2 : Forall (fun c => Rabs (ln (val (mixed o1 o2 c)) - ln (exact_lh c)) <= 18 * INR n * u) cells) by (apply Forall_impl with (2 := M); intros c H; apply H).
  pose proof (total_map_close _ (fun c => ln (val (mixed o1 o2 c))) (fun c => ln (exact_lh c)) (fun _ => 18 * INR n * u) cells M2) as C. rewrite total_const in C. fold N in C.
  assert (D : total (map (fun c => Rabs (ln (val (mixed o1 o2 c)))) cells) <= total (map (fun c => Rabs (ln (exact_lh c))) cells) + N * (18 * INR n * u)).
  { unfold N. rewrite <- (total_const _ (18 * INR n * u) cells), <- total_map_add. apply total_map_le. apply Forall_impl with (2 := M2). intros c H. replace (ln (val (mixed o1 o2 c))) with ((ln (val (mixed o1 o2 c)) - ln (exact_lh c)) + ln (exact_lh c)) by ring. eapply Rle_trans; [apply Rabs_triang|]. lra. }
  set (a := total (map (fun c => Rabs (ln (val (mixed o1 o2 c)))) cells)) in *. set (b := total (map (fun c => Rabs (ln (exact_lh c))) cells)) in *. set (s := total (map (fun c => ln (val (mixed o1 o2 c))) cells)) in *. set (t := total (map (fun c => ln (exact_lh c)) cells)) in *.
  assert (N0 : 0 <= N) by apply pos_INR. assert (n0 : 0 <= INR n) by apply pos_INR. assert (Nu : N * u <= / 1024) by apply small_of, HN. assert (Us : u <= / 1024) by apply u_small. set (w := N * (INR n * u)). assert (W : 0 <= w) by (unfold w; apply Rmult_le_pos; [exact N0|apply Rmult_le_pos; lra]).
  replace (N * (18 * INR n * u)) with (18 * w) in * by (unfold w; ring).
  assert (K : (2 * N + 1) * u * a <= (2 * N + 1) * u * (b + 18 * w)) by (apply Rmult_le_compat_l; [apply Rmult_le_pos; lra|exact D]).
  assert (K2 : (2 * N + 1) * u * (18 * w) <= w) by (assert ((2 * N + 1) * u <= 3 / 1024) by nra; nra).
  replace ((19 * INR n * N + (2 * N + 1) * b) * u) with (19 * w + (2 * N + 1) * u * b) by (unfold w; ring).
  replace (val ll - t) with ((val ll - s) + (s - t)) by ring. eapply Rle_trans; [apply Rabs_triang|]. rewrite Rmult_plus_distr_l in K. lra.
Qed.
Print Assumptions C106_mixture.

(** An observation that is impossible makes the log-likelihood minus infinity and never NaN, whatever the size of
    the other numbers. *)
Theorem C106_impossible : forall np_log n o1 o2 o3 cells, good_log np_log -> INR n <= 2 ^ 40 -> INR (length cells) <= 2 ^ 40 ->
  order_of o1 n -> order_of o2 n -> order_of o3 (length cells) -> Forall (proper n) cells -> Exists (fun c => exact_lh c = 0) cells ->
  log_likelihood np_log false o1 o2 o3 cells = B754_infinity 53 1024 true.
Proof.
  intros np_log n o1 o2 o3 cells G Hn HN O1 O2 O3 P E. unfold log_likelihood, log_lh, observation_lhs. set (l := map np_log (map (mixed o1 o2) cells)).
  assert (Ll : length l = length cells) by (unfold l; rewrite !map_length; reflexivity). assert (O' : order_of o3 (length l)) by (rewrite Ll; exact O3). pose proof (Permutation_length O3) as Len. rewrite seq_length in Len.
  assert (F : Forall (fun x => x = B754_infinity 53 1024 true \/ fin x /\ Rabs (val x) <= 2048) l).
  { unfold l. rewrite map_map. apply Forall_map. apply Forall_impl with (2 := P). intros c Pc. destruct (mixed_sum Pc (small_of n Hn) O1 O2) as ((A0 & A) & B & C). set (v := mixed o1 o2 c) in *.
    destruct A as [A|A]; [right|left; apply G; [exact A0|auto]]. destruct (log_one np_log G v A0) as (X & _ & Y); [|split; assumption]. split; [exact A|].
    set (t := total _) in *. assert (Ht : t <= INR n). { unfold t. rewrite <- (@p_vals o1 n c Pc (small_of n Hn) O1). pose proof (q_length o1 Pc) as Lq. rewrite <- Lq. replace (length _) with (length (vals (map2 mul (site_weights o1 (has c) (weights c)) (lhs c)))) by apply map_length. apply total_le_length, Forall_forall. intros y Hy. apply in_map_iff in Hy as (z & <- & Hz).
      pose proof (q_fraction Pc (small_of n Hn) O1) as Q. rewrite Forall_forall in Q. destruct (Q z Hz) as [_ Q']. lra. }
    pose proof (small_of n Hn) as Sn. unfold small in Sn. apply Rabs_le_inv' in B. pose proof (pos_INR n). pose proof u_pos. assert (2 * INR n * u * t <= t) by nra.
    apply Rle_trans with (bpow radix2 41); [|apply bpow_le; lia]. replace (bpow radix2 41) with (2 * 2 ^ 40) by (cbn; lra). lra. }
  apply sum_infinite; [intros i Hi; exact (order_nth o3 l _ O' F i Hi)|rewrite Len; exact HN|].
  apply Exists_exists in E as (c & Hc & Z). assert (I : In (B754_infinity 53 1024 true) l). { unfold l. rewrite map_map. apply in_map_iff. exists c. split; [|exact Hc]. rewrite Forall_forall in P. destruct (mixed_zero (P c Hc) (small_of n Hn) O1 O2 Z) as (A & B). apply G; assumption. }
  apply (In_nth _ _ zero) in I as (i & Hi & I). exists i. split; [|exact I]. apply (Permutation_in _ (Permutation_sym O3)), in_seq. rewrite <- Ll. lia.
Qed.
Print Assumptions C106_impossible.

(** With sources: the sum of the logarithms at the sources, missing observations left out. *)
Lemma at_source_nth c n s : length (lhs c) = n -> source c = marks n s -> match s with Some j => (j < n)%nat | None => True end -> at_source c = chosen (c, s).
Proof.
  intros L Sc Hs. unfold at_source, chosen. rewrite Sc. cbn [fst snd]. unfold marks.
  assert (K : forall (l : list dbl) a, map snd (filter fst (combine (map (fun i => match s with Some j => Nat.eqb j i | None => false end) (seq a (length l))) l)) = match s with Some j => if (a <=? j)%nat && (j <? a + length l)%nat then [nth (j - a) l zero] else [] | None => [] end).
  { clear. induction l as [|x l IH]; intros a; cbn [length seq map combine filter].
    - destruct s as [j|]; [|reflexivity]. destruct (Nat.leb_spec a j), (Nat.ltb_spec j (a + 0)); cbn; try reflexivity; lia.
    - cbn [fst]. destruct s as [j|]; [|apply IH]. destruct (Nat.eqb_spec j a) as [->|N]; cbn [map].
      + rewrite IH. destruct (Nat.leb_spec (Datatypes.S a) a); [lia|]. cbn [andb]. destruct (Nat.leb_spec a a); [|lia]. destruct (Nat.ltb_spec a (a + Datatypes.S (length l))); [|lia]. rewrite Nat.sub_diag. reflexivity.
      + rewrite IH. destruct (Nat.leb_spec (Datatypes.S a) j), (Nat.leb_spec a j); try lia; cbn [andb]; [|reflexivity]. destruct (Nat.ltb_spec j (Datatypes.S a + length l)), (Nat.ltb_spec j (a + Datatypes.S (length l))); try lia; [|reflexivity].
        replace (j - a)%nat with (Datatypes.S (j - Datatypes.S a)) by lia. reflexivity. }
  specialize (K (lhs c) O). rewrite L in K. rewrite K. destruct s as [j|]; [|reflexivity]. rewrite Nat.sub_0_r. destruct (Nat.leb_spec 0 j); [|lia]. destruct (Nat.ltb_spec j (0 + n)); [reflexivity|lia].
Qed.

Theorem C106_source : forall np_log n o1 o2 o3 cells ss, good_log np_log ->
  Forall2 (fun c s => length (lhs c) = n /\ source c = marks n s /\ match s with Some j => (j < n)%nat /\ fraction (nth j (lhs c) zero) /\ 0 < val (nth j (lhs c) zero) | None => True end) cells ss ->
  let at_sources := flat_map chosen (combine cells ss) in
  INR (length at_sources) <= 2 ^ 40 -> order_of o3 (length at_sources) ->
  let ll := log_likelihood np_log true o1 o2 o3 cells in
  is_finite 53 1024 ll = true /\ Rabs (val ll - sum_ln (map val at_sources)) <= (2 * INR (length at_sources) + 1) * size_ln (map val at_sources) / 2 ^ 53.
Proof.
  intros np_log n o1 o2 o3 cells ss G H at_sources HN O ll.
  assert (E : flat_map at_source cells = at_sources).
  { unfold at_sources. clear - H. induction H as [|c s cells ss (L & Sc & Hs) _ IH]; [reflexivity|]. cbn [flat_map combine]. rewrite IH. f_equal. apply (at_source_nth c n s L Sc). destruct s; [apply Hs|exact I]. }
  assert (F : Forall (fun x => fin x /\ 0 < val x <= bpow radix2 54) at_sources).
  { assert (B54 : 1 <= bpow radix2 54) by (apply (@bpow_le radix2 0 54); lia). unfold at_sources. clear - H B54. induction H as [|c s cells ss (L & Sc & Hs) _ IH]; [constructor|]. cbn [combine flat_map]. apply Forall_app. split; [|exact IH].
    unfold chosen. cbn [fst snd]. destruct s as [j|]; [|constructor]. destruct Hs as (Hj & (F1 & F2) & P). apply Forall_cons; [split; [exact F1|lra]|apply Forall_nil]. }
  unfold ll, log_likelihood, observation_lhs. rewrite E. destruct (logs_sum np_log G o3 at_sources O HN F) as (A & B). split; [exact A|]. unfold Rdiv. rewrite <- u_pow. fold (vals at_sources) in *. eapply Rle_trans; [exact B|]. right. ring.
Qed.
Print Assumptions C106_source.

(** One step of the sampler on the exact likelihoods: computed likelihoods and the computed decision together. *)
Theorem C106_step : forall lib_log np_log n o1 o2 o3 new prev prior_new prior_prev log_q log_q_back, accurate lib_log -> good_log np_log -> INR n <= 2 ^ 40 -> INR (length new) <= 2 ^ 40 -> length prev = length new ->
  order_of o1 n -> order_of o2 n -> order_of o3 (length new) ->
  Forall (proper n) (new ++ prev) -> Forall (fun c => Forall not_tiny (weights c) /\ Forall not_tiny (lhs c)) (new ++ prev) -> Forall (fun c => 0 < exact_lh c) (new ++ prev) ->
  Forall (fun x => is_finite 53 1024 x = true) [prior_new; prior_prev; log_q; log_q_back] ->
  let a := log_likelihood np_log false o1 o2 o3 new in let b := log_likelihood np_log false o1 o2 o3 prev in
  let M := size (val a) (val b) (val prior_new) (val prior_prev) (val log_q) (val log_q_back) in M <= 2 ^ 900 ->
  Rabs (probability (fun k => match decide lib_log a b prior_new prior_prev log_q log_q_back k with Some true => true | _ => false end)
        - exact_probability (exact_ratio (sum_ln (map exact_lh new)) (sum_ln (map exact_lh prev)) (val prior_new) (val prior_prev) (val log_q) (val log_q_back)))
  <= (108 + 4 * M + 38 * INR n * INR (length new) + (2 * INR (length new) + 1) * (size_ln (map exact_lh new) + size_ln (map exact_lh prev))) / 2 ^ 53.
Proof.
  intros lib_log np_log n o1 o2 o3 new prev c d p q Ac G Hn HN L O1 O2 O3 P T E F a b M HM. apply Forall_app in P as [P1 P2]. apply Forall_app in T as [T1 T2]. apply Forall_app in E as [E1 E2].
  destruct (C106_mixture np_log n o1 o2 o3 new G Hn HN O1 O2 O3 P1 T1 E1) as (Fa & Ea). fold a in Fa, Ea.
  destruct (C106_mixture np_log n o1 o2 o3 prev G Hn) as (Fb & Eb); try assumption; [rewrite L; exact HN|rewrite L; exact O3|]. fold b in Fb, Eb. rewrite L in Eb.
  pose proof (C105_probability lib_log a b c d p q Ac ltac:(constructor; [exact Fa|constructor; [exact Fb|exact F]]) HM) as D. fold M in D.
  set (A := sum_ln (map exact_lh new)) in *. set (B := sum_ln (map exact_lh prev)) in *. set (sa := size_ln (map exact_lh new)) in *. set (sb := size_ln (map exact_lh prev)) in *. set (N := INR (length new)) in *. unfold Rdiv in *. set (v := / 2 ^ 53) in *.
  assert (X : Rabs (exact_ratio (val a) (val b) (val c) (val d) (val p) (val q) - exact_ratio A B (val c) (val d) (val p) (val q)) <= (19 * INR n * N + (2 * N + 1) * sa) * v + (19 * INR n * N + (2 * N + 1) * sb) * v).
  { unfold exact_ratio. match goal with |- Rabs ?z <= _ => replace z with ((val a - A) + - (val b - B)) by ring end. eapply Rle_trans; [apply Rabs_triang|]. rewrite Rabs_Ropp. lra. }
  apply exact_close in X. set (pr := probability _) in *. set (e1 := exact_probability (exact_ratio (val a) _ _ _ _ _)) in *. set (e2 := exact_probability (exact_ratio A _ _ _ _ _)) in *.
  replace (pr - e2) with ((pr - e1) + (e1 - e2)) by ring. eapply Rle_trans; [apply Rabs_triang|]. lra.
Qed.
Print Assumptions C106_step.

(** A logarithm that is correctly rounded meets the hypothesis. *)
Definition rounded_np_log (x : dbl) : dbl := if Req_EM_T (val x) 0 then B754_infinity 53 1024 true else rounded_log x.
Lemma apart_from_one x : fmt x -> / 2 <= x -> x = 1 \/ bpow radix2 (-53) <= Rabs (x - 1).
Proof.
  intros G H. set (e := cexp radix2 (FLT_exp (-1074) 53) x). assert (He : (-53 <= e)%Z).
  { unfold e, cexp, FLT_exp. assert (0 <= mag radix2 x)%Z; [|lia]. apply mag_ge_bpow. change (bpow radix2 (0 - 1)) with (/ 2). rewrite Rabs_pos_eq; lra. }
  unfold fmt, generic_format in G. fold e in G. set (m := Ztrunc _) in G. set (M := (m * 2 ^ (e + 53))%Z).
  assert (X : x = IZR M * bpow radix2 (-53)). { rewrite G. unfold F2R. cbn [Fnum Fexp]. unfold M. rewrite mult_IZR. change 2%Z with (radix_val radix2) at 1. rewrite (IZR_Zpower radix2) by lia. rewrite Rmult_assoc, <- bpow_plus. f_equal. f_equal. lia. }
  assert (One : 1 = IZR (2 ^ 53) * bpow radix2 (-53)) by (change (IZR (2 ^ 53)) with (bpow radix2 53); rewrite <- bpow_plus; reflexivity).
  destruct (Z.eq_dec M (2 ^ 53)) as [Q|Q]; [left; rewrite X, Q, <- One; reflexivity|right]. rewrite X. rewrite One at 1. rewrite <- Rmult_minus_distr_r, <- minus_IZR, Rabs_mult, (Rabs_pos_eq (bpow radix2 (-53))), <- abs_IZR by apply bpow_ge_0.
  rewrite <- (Rmult_1_l (bpow radix2 (-53))) at 1. apply Rmult_le_compat_r; [apply bpow_ge_0|]. apply (IZR_le 1). lia.
Qed.
Lemma ln_apart x : fmt x -> 0 < x -> ln x = 0 \/ bpow radix2 (-54) <= Rabs (ln x).
Proof.
  intros G P. assert (H : forall y, 0 < y -> ln y <= y - 1) by (intros y Hy; pose proof (exp_ineq1_le (ln y)) as X; rewrite exp_ln in X by exact Hy; lra).
  assert (B : bpow radix2 (-54) <= / 4) by (change (/ 4) with (bpow radix2 (-2)); apply bpow_le; lia). assert (B2 : bpow radix2 (-53) = 2 * bpow radix2 (-54)) by (change (-53)%Z with (1 + -54)%Z; rewrite bpow_plus; reflexivity). pose proof (bpow_gt_0 radix2 (-54)) as B0. set (t := bpow radix2 (-54)) in *.
  pose proof (H x P) as U. assert (I : 0 < / x) by (apply Rinv_0_lt_compat, P). pose proof (H _ I) as L. rewrite ln_Rinv in L by exact P. assert (Y : / x * x = 1) by (field; lra).
  destruct (Rle_or_lt (/ 2) x) as [C|C]; [|right; rewrite Rabs_left by lra; lra].
  destruct (apart_from_one x G C) as [->|A]; [left; apply ln_1|right]. rewrite B2 in A. destruct (Rle_or_lt x 1) as [D|D].
  - rewrite Rabs_left1 in A by lra. rewrite Rabs_left by lra. lra.
  - rewrite Rabs_pos_eq in A by lra. assert (Z : 1 - / x >= t). { destruct (Rle_or_lt x 2) as [E|E]; nra. } rewrite Rabs_pos_eq by lra. lra.
Qed.
Lemma rounded_np_log_good : good_log rounded_np_log.
Proof.
  split.
  - intros x F P. unfold rounded_np_log. destruct (Req_EM_T (val x) 0) as [Z|_]; [lra|]. unfold rounded_log. set (l := ln (val x)).
    assert (S : Rabs l <= bpow radix2 1000).
    { pose proof (positive_large F P) as L. pose proof (@ln_bpow (Z.to_nat 1074)) as B. rewrite Z2Nat.id in B by lia. replace (INR (Z.to_nat 1074)) with 1074 in B by (rewrite INR_IZR_INZ, Z2Nat.id by lia; reflexivity). change (- (1074))%Z with (-1074)%Z in B.
      assert (L1 : ln (bpow radix2 (-1074)) <= l) by (unfold l; destruct L as [L| <-]; [apply Rlt_le, ln_increasing; [apply bpow_gt_0|exact L]|lra]).
      assert (Q : val x < bpow radix2 1024) by (eapply Rle_lt_trans; [apply Rle_abs|apply abs_B2R_lt_emax]). assert (Q1 : l < ln (bpow radix2 1024)) by (apply ln_increasing; assumption).
      pose proof (@ln_bpow (Z.to_nat 1024)) as B2. rewrite Z2Nat.id in B2 by lia. replace (INR (Z.to_nat 1024)) with 1024 in B2 by (rewrite INR_IZR_INZ, Z2Nat.id by lia; reflexivity). rewrite bpow_opp, ln_Rinv in B2 by apply bpow_gt_0.
      apply Rle_trans with (bpow radix2 11); [apply Rabs_le; cbn; lra|apply bpow_le; lia]. }
    destruct (of_real_val l S) as (Fl & Vl). split; [exact Fl|]. rewrite Vl. unfold Rdiv. rewrite u_52. pose proof u_pos as U.
    assert (K : forall y, y = 0 \/ bpow radix2 (-54) <= y -> Rabs (rd y - y) <= 2 * u * Rabs y).
    { intros y Hy. destruct (@rd_rel y) as (e & He & E). { destruct Hy as [Hy|Hy]; [left; exact Hy|right; eapply Rle_trans; [|exact Hy]; apply bpow_le; lia]. } rewrite E. pose proof (perturbed y e He) as W. pose proof (Rmult_le_pos _ _ (Rlt_le _ _ U) (Rabs_pos y)). lra. }
    destruct (ln_apart (val x) (fmt_val x) P) as [A|A]; fold l in A; [rewrite A; specialize (K 0 (or_introl eq_refl)); rewrite Rmult_comm; exact K|].
    rewrite Rmult_comm. destruct (Rle_or_lt 0 l) as [Pl|Nl].
    + rewrite Rabs_pos_eq in A by exact Pl. exact (K l (or_intror A)).
    + rewrite Rabs_left in A by exact Nl. pose proof (K (- l) (or_intror A)) as W. rewrite Rabs_Ropp in W. replace (rd l - l) with (- (rd (- l) - - l)) by (unfold rd; rewrite round_NE_opp; ring). rewrite Rabs_Ropp. exact W.
  - intros x F Z. unfold rounded_np_log. destruct (Req_EM_T (val x) 0); [reflexivity|contradiction].
Qed.

(** Small dyadic numbers. *)
Lemma dyadic m e : (0 < m < 16)%Z -> (-1000 <= e <= -4)%Z -> fraction (scaled m e) /\ val (scaled m e) = IZR m * bpow radix2 e.
Proof.
  intros Hm He. assert (M : 0 < IZR m < 16) by (split; [apply (IZR_lt 0); lia|apply (IZR_lt m 16); lia]). assert (E : bpow radix2 e <= / 16) by (replace (/ 16) with (bpow radix2 (-4)) by (cbn; lra); apply bpow_le; lia). pose proof (bpow_gt_0 radix2 e) as P. pose proof one_big as B.
  assert (Q : 0 <= IZR m * bpow radix2 e <= 1) by nra. destruct (@scaled_val m e) as ((F & _) & V); [lra|].
  assert (R : rd (IZR m * bpow radix2 e) = IZR m * bpow radix2 e). { apply rd_fmt. apply generic_format_FLT. exists (Float radix2 m e); [reflexivity|cbn [Fnum]; change (radix2 ^ 53)%Z with (2 ^ 53)%Z; lia|cbn [Fexp]; lia]. }
  rewrite R in V. split; [split; [exact F|rewrite V; exact Q]|exact V].
Qed.
Definition tiny : dbl := scaled 1 (-600).
Definition low : cell := Cell [true; true] [tiny; one] [tiny; zero] [].
Definition lr2 : order := Plus (Leaf 0) (Leaf 1).

(** The bound on tiny numbers is needed: a possible observation counts as impossible when its likelihood underflows. *)
Theorem C106_underflow : exists c, proper 2 c /\ 0 < exact_lh c /\ forall np_log, good_log np_log -> log_likelihood np_log false lr2 lr2 (Leaf 0) [c] = B754_infinity 53 1024 true.
Proof.
  exists low. destruct (dyadic 1 (-600) ltac:(lia) ltac:(lia)) as (Ft & Vt). fold tiny in Ft, Vt. rewrite Rmult_1_l in Vt. destruct one_val as ((F1 & _) & V1). destruct zero_val as ((F0 & _) & V0).
  assert (G1 : fraction one) by (split; [exact F1|rewrite V1; lra]). assert (G0 : fraction zero) by (split; [exact F0|rewrite V0; lra]). pose proof (bpow_gt_0 radix2 (-600)) as Pt.
  assert (A : available (has low) (weights low) = bpow radix2 (-600) + 1) by (unfold low, available; cbn [has weights map2 total]; rewrite Vt, V1; ring).
  assert (P : proper 2 low). { do 3 (split; [reflexivity|]). split; [apply Forall_cons; [exact Ft|apply Forall_cons; [exact G1|apply Forall_nil]]|]. split; [apply Forall_cons; [exact Ft|apply Forall_cons; [exact G0|apply Forall_nil]]|rewrite A; lra]. }
  split; [exact P|]. split.
  { unfold exact_lh. rewrite A. apply Rmult_lt_0_compat; [|apply Rinv_0_lt_compat; lra]. unfold low, exact_terms; cbn [has weights lhs map2 total]. rewrite Vt, V0. nra. }
  intros np_log G. unfold log_likelihood, log_lh, observation_lhs. cbn [map sum_in nth]. assert (Z : mixed lr2 lr2 low = zero) by (apply B2FF_inj; vm_compute; reflexivity). rewrite Z. apply G; [exact F0|exact V0].
Qed.
Print Assumptions C106_underflow.

(** Two observations of an object in a cluster and one outside. *)
Definition half_c : cell := Cell [true; true] [scaled 8 (-4); scaled 8 (-4)] [scaled 8 (-4); scaled 4 (-4)] (marks 2 (Some 1%nat)).
Definition out_c : cell := Cell [false; true] [scaled 8 (-4); scaled 8 (-4)] [zero; scaled 2 (-4)] (marks 2 None).
Definition gone : cell := Cell [false; true] [scaled 8 (-4); scaled 8 (-4)] [scaled 8 (-4); zero] (marks 2 None).
Example C106_case : good_log rounded_np_log /\ accurate rounded_log /\ order_of lr2 2 /\ Forall (proper 2) [half_c; out_c; gone] /\ Forall (fun c => Forall not_tiny (weights c) /\ Forall not_tiny (lhs c)) [half_c; out_c] /\
  exact_lh half_c = 3 / 8 /\ exact_lh out_c = 1 / 8 /\ exact_lh gone = 0 /\
  map (B2FF 53 1024) (observation_lhs false lr2 lr2 [half_c; out_c; gone]) = map (B2FF 53 1024) [scaled 6 (-4); scaled 2 (-4); zero] /\
  map (B2FF 53 1024) (observation_lhs true lr2 lr2 [half_c; out_c]) = map (B2FF 53 1024) [scaled 4 (-4)] /\
  fraction (nth 1 (lhs half_c) zero) /\ 0 < val (nth 1 (lhs half_c) zero).
Proof.
  split; [exact rounded_np_log_good|]. split; [exact rounded_log_accurate|]. split; [apply Permutation_refl|].
  assert (D : forall m, (0 < m < 16)%Z -> fraction (scaled m (-4)) /\ val (scaled m (-4)) = IZR m / 16) by (intros m Hm; destruct (dyadic m (-4) Hm ltac:(lia)) as (X & Y); split; [exact X|rewrite Y; cbn; lra]).
  destruct (D 8%Z ltac:(lia)) as (F8 & V8). destruct (D 4%Z ltac:(lia)) as (F4 & V4). destruct (D 2%Z ltac:(lia)) as (F2 & V2). destruct zero_val as ((F0 & _) & V0). assert (G0 : fraction zero) by (split; [exact F0|rewrite V0; lra]).
  assert (S4 : / 2 ^ 400 <= / 16). { replace 16 with (2 ^ 4) by (cbn; lra). apply Rinv_le; [apply pow_lt; lra|]. apply Rle_pow; [lra|lia]. }
  assert (T8 : not_tiny (scaled 8 (-4))) by (right; rewrite V8; lra). assert (T4 : not_tiny (scaled 4 (-4))) by (right; rewrite V4; lra). assert (T2 : not_tiny (scaled 2 (-4))) by (right; rewrite V2; lra). assert (T0 : not_tiny zero) by (left; exact V0).
  split. { apply Forall_forall. intros c Hc. cbn [In] in Hc. destruct Hc as [<-|[<-|[<-|[]]]]; unfold proper, half_c, out_c, gone, available; cbn [has weights lhs length map2 total]; rewrite ?V8; (do 3 (split; [reflexivity|])); (split; [repeat (apply Forall_cons; [assumption|]); apply Forall_nil|]); (split; [repeat (apply Forall_cons; [assumption|]); apply Forall_nil|]); lra. }
  split. { repeat (apply Forall_cons; [split; cbn [half_c out_c weights lhs]; repeat (apply Forall_cons; [assumption|]); apply Forall_nil|]). apply Forall_nil. }
  split. { unfold exact_lh, half_c, available, exact_terms; cbn [has weights lhs map2 total]. rewrite V8, V4. lra. }
  split. { unfold exact_lh, out_c, available, exact_terms; cbn [has weights lhs map2 total]. rewrite V8, V2. lra. }
  split. { unfold exact_lh, gone, available, exact_terms; cbn [has weights lhs map2 total]. rewrite V8, V0. lra. }
  split; [vm_compute; reflexivity|]. split; [vm_compute; reflexivity|]. split; [exact F4|]. cbn [half_c lhs nth]. rewrite V4. lra.
Qed.
