(** Property theorems C107: the sampler of clusters and sources in double precision stays close to the exact
    sampler, and its results stay close to the posterior distribution. *)
From Coq Require Import List ZArith QArith Reals Qreals Lra Lia Bool Psatz.
From Flocq Require Import IEEE754.BinarySingleNaN IEEE754.Binary.
From Verif Require Import Base M_float S_float L_float L_float2 L_float3 L_float4 M_fchoice S_fchoice L_fchoice P_fchoice M_faccept S_faccept P_faccept M_fchain S_fchain L_fchain L_fchain2 L_fchain3.
From Verif Require Import M_mcmc M_operators M_source S_model S_operators S_source S_mcmc S_honest S_gsource S_ergodic L_balance L_doeblin L_reach3 L_gsource2 P_ergodic.
Import ListNotations.
Local Open Scope R_scope.

Section Setting.
Variables (lib_log : dbl -> dbl) (eta B kappa : R) (ll prior : cstate -> dbl) (vll vprior : cstate -> xf) (e : env) (states : list cstate) (D : drawing) (n : nat) (c : frequencies).
Hypothesis Ac : accurate lib_log.
Hypothesis E0 : 0 <= eta.
Hypothesis B0 : 0 <= B.
Hypothesis V : valid_env e.
Hypothesis nodup : NoDup states.
Hypothesis Hll : forall x, In x states -> shows eta B (ll x) (vll x).
Hypothesis Hprior : forall x, In x states -> shows eta B (prior x) (vprior x).
Hypothesis HD : rounded_operators eta B kappa e states D.
Hypothesis Hc : fixed_parameters c.
Hypothesis n0 : (0 < n)%nat.
Hypothesis n1 : INR n <= 2 ^ 19.
Let P := sampler_matrix e (exact_moves n c) vll vprior states.
Let Q := double_matrix lib_log ll prior D (lands cstate_eq_dec) n c.
Let Q' := double_matrix lib_log ll prior D (lands_positive cstate_eq_dec) n c.
Let delta := 6 * eta + (108 + 24 * (B + eta)) / 2 ^ 53.
Let delta' := 6 * eta + (111 + 24 * (B + eta)) / 2 ^ 53.

Lemma inv_pos : 0 < / 2 ^ 53.
Proof. apply Rinv_0_lt_compat, pow_lt. lra. Qed.
Lemma delta_pos : 0 <= delta.
Proof. unfold delta, Rdiv. pose proof inv_pos. nra. Qed.
Lemma delta_pos' : 0 <= delta'.
Proof. unfold delta', Rdiv. pose proof inv_pos. nra. Qed.
Lemma probability_pos f : 0 <= probability f.
Proof. apply probability_unit. Qed.
Lemma given_split (f g h : Z -> bool) : (forall k, (0 <= k < 2 ^ 53)%Z -> (if f k then 1 else 0)%nat = ((if g k then 1 else 0) + (if h k then 1 else 0))%nat) -> given f = given g + given h.
Proof.
  intros H. unfold given. rewrite <- Rdiv_plus_distr. rewrite <- (@probability_split (fun k => negb (k =? 0)%Z && f k)); [reflexivity|].
  intros k Hk. pose proof (H k Hk). destruct (k =? 0)%Z; [reflexivity|exact H0].
Qed.
Lemma positive_pos : 0 < probability (fun k => negb (k =? 0)%Z).
Proof. rewrite probability_positive. pose proof u_small. lra. Qed.
Lemma given_pos f : 0 <= given f.
Proof. unfold given. apply Rmult_le_pos; [apply probability_unit|]. apply Rlt_le, Rinv_0_lt_compat, positive_pos. Qed.
Lemma given_true : given (fun _ => true) = 1.
Proof.
  unfold given. rewrite (@probability_ext (fun k => negb (k =? 0)%Z && true) (fun k => negb (k =? 0)%Z)) by (intros k _; apply andb_true_r).
  apply Rinv_r. pose proof positive_pos. lra.
Qed.
Lemma given_false : given (fun _ => false) = 0.
Proof.
  unfold given. rewrite (@probability_ext (fun k => negb (k =? 0)%Z && false) (fun k => false)) by (intros k _; apply andb_false_r).
  rewrite probability_false. unfold Rdiv. ring.
Qed.
Lemma given_both a b c0 d p q : 1 - 0 <= given (fun k => yes (decide lib_log a b c0 d p q k)) + given (fun k => no (decide lib_log a b c0 d p q k)) <= 1.
Proof. rewrite given_yes_no. lra. Qed.
Lemma near x : In x states -> Rsum (map (fun y => Rabs (Q x y - P x y)) states) <= step_error n eta B kappa.
Proof.
  intros Hx. eapply Rle_trans; [apply (@matrix_near probability probability_split probability_pos probability_true probability_false lib_log eta B delta u kappa delta_pos (Rlt_le _ _ u_pos)
     (fun a b c d p q va vb vc vd vp vq Ha Hb Hc Hd Hp Hq => @accept_close lib_log Ac eta B a b c d p q va vb vc vd vp vq E0 B0 Ha Hb Hc Hd Hp Hq)
     (fun a b c d p q => @yes_no lib_log a b c d p q) ll prior vll vprior e states D V nodup Hll Hprior HD n c Hc n0 n1 x Hx)|].
  unfold step_error, delta, Rdiv. rewrite <- u_pow. pose proof u_pos. lra.
Qed.
Lemma near' x : In x states -> Rsum (map (fun y => Rabs (Q' x y - P x y)) states) <= step_error n eta B kappa.
Proof.
  intros Hx. eapply Rle_trans; [apply (@matrix_near given given_split given_pos given_true given_false lib_log eta B delta' 0 kappa delta_pos' (Rle_refl 0)
     (fun a b c d p q va vb vc vd vp vq Ha Hb Hc Hd Hp Hq => @given_accept lib_log Ac eta B a b c d p q va vb vc vd vp vq E0 B0 Ha Hb Hc Hd Hp Hq)
     given_both ll prior vll vprior e states D V nodup Hll Hprior HD n c Hc n0 n1 x Hx)|].
  unfold step_error, delta', Rdiv. rewrite <- u_pow. pose proof u_pos. lra.
Qed.
Lemma error_pos : 0 <= kappa -> 0 <= step_error n eta B kappa.
Proof. intros K. unfold step_error, Rdiv. pose proof inv_pos. assert (0 < / 2 ^ 47) by (apply Rinv_0_lt_compat, pow_lt; lra). pose proof (pos_INR (5 + n)). nra. Qed.
Lemma row x : In x states -> Rsum (map (Q x) states) <= 1.
Proof.
  intros Hx. apply (@Q_row probability probability_split probability_true probability_false lib_log eta B u kappa (Rlt_le _ _ u_pos)
     (fun a b c d p q => @yes_no lib_log a b c d p q) ll prior e states D nodup HD n c Hc n0 n1 x Hx).
Qed.
Lemma row' x : In x states -> Rsum (map (Q' x) states) = 1.
Proof.
  intros Hx. pose proof (@Q_row given given_split given_true given_false lib_log eta B 0 kappa (Rle_refl 0)
     given_both ll prior e states D nodup HD n c Hc n0 n1 x Hx) as H. apply Rle_antisym; [apply H|]. rewrite Rminus_0_r in H. apply H.
Qed.
Lemma pos x y : In x states -> In y states -> 0 <= Q x y.
Proof. intros Hx _. eapply (@Q_pos probability); eauto using probability_pos. Qed.
Lemma pos' x y : In x states -> In y states -> 0 <= Q' x y.
Proof. intros Hx _. eapply (@Q_pos given); eauto using given_pos. Qed.
Lemma sto : stochastic states P.
Proof. destruct (@exact_full e n c Hc) as (H1 & H2 & _). apply (sampler_stochastic vll vprior V nodup H2 H1). Qed.
End Setting.

(** C107. The sampler of clusters and sources with everything computed in double precision: the operator is
    chosen by [np.random.choice], log-likelihood, log-prior and log-probabilities of the proposals are exact up
    to [eta], proposals are drawn up to [kappa], the decision uses a logarithm in double precision. After [N] steps
    the distribution of the state differs from the posterior by at most the distance of the exact sampler plus
    [N] times the error of one step; if no draw is exactly zero, by at most a constant times this error, for ever;
    and so does every stationary distribution. The constants [m] and [d] depend on the setting only. *)
Theorem C107_posterior : forall e k c n r states, positive_env e -> (0 <= e_pconn e <= 1)%Q -> length (e_ce e) = k ->
  e_resample e = true -> (forall cl, 0 < r cl) -> (k * e_min e < n_objects e)%nat ->
  NoDup states -> (forall x, In x states <-> good_src e k x) -> fixed_parameters c -> (0 < n)%nat -> INR n <= 2 ^ 19 ->
  exists m d, (0 < m)%nat /\ 0 < d <= 1 /\ forall eta B kappa lib_log ll prior D, rounded_sampler eta B kappa e r states lib_log ll prior D ->
  let post y := posterior e r y / Rsum (map (posterior e r) states) in
  let chain L := double_matrix lib_log ll prior D L n c in
  (forall N x y, In x states -> In y states ->
     Rabs (nstep cstate_eq_dec (chain (lands cstate_eq_dec)) states N x y - post y) <= (1 - d) ^ (N / m) + INR N * step_error n eta B kappa) /\
  (forall N x y, In x states -> In y states ->
     Rabs (nstep cstate_eq_dec (chain (lands_positive cstate_eq_dec)) states N x y - post y) <= (1 - d) ^ (N / m) + INR m / d * step_error n eta B kappa) /\
  (forall nu y, stationary_distribution (chain (lands_positive cstate_eq_dec)) states nu -> In y states ->
     Rabs (nu y - post y) <= INR m / d * step_error n eta B kappa).
Proof.
  intros e k c n r states Pe Hp Hk Hres Hr Hn Hnd Hs Hc N0 N1.
  destruct states as [|x0 st] eqn:Est.
  { exists 1%nat, 1. split; [lia|]. split; [lra|]. intros. conj; intros; contradiction. }
  rewrite <- Est in *. assert (G0 : good_src e k x0) by (apply Hs; rewrite Est; left; reflexivity). assert (I0 : In x0 states) by (rewrite Est; left; reflexivity). clear st Est.
  destruct (@C76_convergence e k (exact_moves n c) r states x0 Pe Hp Hk Hres Hr (@exact_full e n c Hc) Hn Hnd Hs G0) as (Z0 & (m & d & Hm & Hd & Rate) & _).
  exists m, d. split; [exact Hm|]. split; [exact Hd|]. intros eta B kappa lib_log ll prior D (E0 & B0 & Ac & Hll & Hprior & HD) post chain.
  pose proof (positive_valid Pe Hp) as V. assert (K0 : 0 <= kappa).
  { destruct (HD Source x0 I0) as (_ & _ & _ & K & _). eapply Rle_trans; [|exact K]. generalize (run_move e Source x0) (D Source x0). clear.
    intros l. induction l as [|a l IH]; intros [|b l0]; cbn [map2]; try apply Rle_refl. change (Rsum (?v :: ?t)) with (v + Rsum t). pose proof (Rabs_pos (snd b - Q2R (snd a))). pose proof (IH l0). lra. }
  pose proof (@error_pos eta B kappa n E0 B0 K0) as Er.
  pose proof (fun N x y Hx Hy => Rate N x y (proj1 (Hs x) Hx) (proj1 (Hs y) Hy)) as Rate'.
  pose proof (@sto (log_lh e) (log_prior e r) e states n c V Hnd Hc) as S.
  pose proof (@pos lib_log eta B kappa ll prior e states D n c HD) as A1. pose proof (@pos' lib_log eta B kappa ll prior e states D n c HD) as A1'.
  pose proof (@row lib_log eta B kappa ll prior e states D n c Hnd HD Hc N0 N1) as A2. pose proof (@row' lib_log eta B kappa ll prior e states D n c Hnd HD Hc N0 N1) as A2'.
  pose proof (@near lib_log eta B kappa ll prior (log_lh e) (log_prior e r) e states D n c Ac E0 B0 V Hnd Hll Hprior HD Hc N0 N1) as A3.
  pose proof (@near' lib_log eta B kappa ll prior (log_lh e) (log_prior e r) e states D n c Ac E0 B0 V Hnd Hll Hprior HD Hc N0 N1) as A3'.
  conj.
  - intros N x y Hx Hy. eapply Rle_trans; [apply (@Rabs_via _ (nstep cstate_eq_dec (sampler_matrix e (exact_moves n c) (log_lh e) (log_prior e r) states) states N x y))|].
    rewrite Rplus_comm. apply Rplus_le_compat; [apply Rate'; auto|].
    exact (@run_apart _ cstate_eq_dec states Hnd _ _ _ S A1 A2 A3 Er N x y Hx Hy).
  - intros N x y Hx Hy. rewrite (Rmult_comm (INR m / d)).
    exact (@run_forever _ cstate_eq_dec states _ _ _ S A1' (fun x Hx => Req_le _ _ (A2' x Hx)) A3' Er post m d Hm Hd Rate' A2' N x y Hx Hy).
  - intros nu y Hnu Hy. rewrite (Rmult_comm (INR m / d)).
    exact (@stationary_near _ cstate_eq_dec states Hnd _ _ _ S A1' (fun x Hx => Req_le _ _ (A2' x Hx)) A3' Er post m d Hm Hd Rate' A2' nu y Hnu Hy).
Qed.
Print Assumptions C107_posterior.

(** Correctly rounded logarithms and exact draws: two objects, one cluster of one or two objects, one confounder. *)
Definition shown (v : xf) : dbl :=
  match v with Fin r => of_real r | PInf => B754_infinity 53 1024 false | NInf => B754_infinity 53 1024 true | NaN => sub (B754_infinity 53 1024 true) (B754_infinity 53 1024 true) end.
Definition shown_operators (e : env) : drawing := fun m x =>
  map (fun '(out, p) => (match out with Propose y q qb => Some (y, shown (xq q), shown (xq qb)) | _ => None end, Q2R p)) (run_move e m x).
Definition two_env : env :=
  {| e_features := [ [[true; false]]; [[false; true]] ]; e_nf := 1; e_conf := [ [[true; true]] ]; e_weights := [[1#3; 2#3]];
     e_ce := [ [[1#4; 3#4]] ]; e_cf := [ [ [[1#2; 1#2]] ] ]; e_adj := [[false; true]; [true; false]];
     e_pconn := 4#5; e_min := 1; e_max := 2; e_resample := true; e_from_prior := false |}%Q.
Definition two_states : list cstate :=
  flat_map (fun cl => flat_map (fun a => map (fun b => {| x_clusters := [cl]; x_source := Some [[a]; [b]] |}) [[true; false]; [false; true]]) [[true; false]; [false; true]])
    [[true; false]; [false; true]; [true; true]].
Lemma two_all x : good_src two_env 1 x -> In x two_states.
Proof.
  intros ((H1 & _ & H3 & H4) & s & Hs). destruct x as [cl src]. cbn [x_clusters x_source] in *. subst src. unfold source_ok in H4. cbn [x_source] in H4.
  assert (Es : In s [[[[true; false]]; [[true; false]]]; [[[true; false]]; [[false; true]]]; [[[false; true]]; [[true; false]]]; [[[false; true]]; [[false; true]]]]).
  { destruct H4 as (L & F). change (n_objects two_env) with 2%nat in L. destruct s as [|a [|b [|]]]; try discriminate. rewrite Forall_forall in F.
    assert (One : forall r, In r [a; b] -> r = [[true; false]] \/ r = [[false; true]]).
    { intros r Hr. destruct (F r Hr) as (Lr & Fr). change (e_nf two_env) with 1%nat in Lr. destruct r as [|v [|]]; try discriminate. inversion Fr as [|? ? (c & Hc & E) _]; subst.
      change (n_comps two_env) with 2%nat in Hc. destruct c as [|[|c]]; [left; reflexivity|right; reflexivity|lia]. }
    destruct (One a (or_introl eq_refl)) as [-> | ->], (One b (or_intror (or_introl eq_refl))) as [-> | ->]; cbn [In]; auto. }
  destruct H1 as (L & F). destruct cl as [|c [|]]; try discriminate. inversion F as [|? ? Lc _]; subst. inversion H3 as [|? ? Sz _]; subst. change (n_objects two_env) with 2%nat in Lc. destruct c as [|a [|b [|]]]; try discriminate.
  change (e_min two_env) with 1%nat in Sz.
  destruct a, b; cbn in Sz; try lia; cbn [In] in Es; destruct Es as [<-|[<-|[<-|[<-|[]]]]]; cbn; auto 20.
Qed.
Definition within (q : Q) : bool := Qeq_bool q 0 || Qle_bool (1 # 2 ^ 60) q && Qle_bool q (2 ^ 60).
Definition within_opt (q : option Q) : bool := match q with Some q => within q | None => true end.
Definition all_within (x : cstate) : bool :=
  match x_source x with None => false | Some s => within_opt (oprod (source_lhs (component_lhs two_env (x_clusters x)) s)) && within_opt (oprod (source_weights (state_weights two_env (x_clusters x)) s)) end &&
  forallb (fun m => forallb (fun a => match fst a with Propose _ q qb => within_opt q && within_opt qb | _ => true end) (run_move two_env m x)) [Cluster OpAlter; Cluster OpGibbsish; Cluster OpGibbsish2; Source].
Lemma two_within : forallb all_within two_states = true.
Proof. vm_compute. reflexivity. Qed.
Lemma shown_close q : within q = true -> shows (/ 2 ^ 47) 60 (shown (xln (Q2R q))) (xln (Q2R q)).
Proof.
  intros H. unfold within in H. apply orb_prop in H. destruct H as [H|H].
  - apply Qeq_bool_eq, Qeq_eqR in H. rewrite RMicromega.Q2R_0 in H. rewrite H. unfold xln. destruct (Rlt_dec 0 0); [lra|]. reflexivity.
  - apply andb_prop in H as [H1 H2]. apply Qle_bool_iff, Qle_Rle in H1. apply Qle_bool_iff, Qle_Rle in H2.
    assert (L : Q2R (1 # 2 ^ 60) = / 2 ^ 60) by (unfold Q2R; cbn; lra). assert (M : Q2R (2 ^ 60) = 2 ^ 60) by (unfold Q2R; cbn; lra). rewrite L in H1. rewrite M in H2.
    assert (P0 : 0 < / 2 ^ 60) by (apply Rinv_0_lt_compat, pow_lt; lra). unfold xln. destruct (Rlt_dec 0 (Q2R q)) as [P|]; [|lra].
    assert (S : ln (2 ^ 60) <= 60). { rewrite ln_pow by lra. pose proof ln_lt_2. assert (ln 2 <= 1). { rewrite <- (ln_exp 1). apply Rlt_le, ln_increasing; [lra|]. pose proof (exp_ineq1 1). lra. } rewrite INR_IZR_INZ. cbn [Z.of_nat Pos.of_succ_nat Pos.succ]. lra. }
    assert (B : Rabs (ln (Q2R q)) <= 60).
    { apply Rabs_le. split.
      - apply Rle_trans with (ln (/ 2 ^ 60)); [rewrite ln_Rinv by (apply pow_lt; lra); lra|]. destruct H1 as [H1|H1]; [left; apply ln_increasing; auto|rewrite <- H1; lra].
      - apply Rle_trans with (ln (2 ^ 60)); [|exact S]. destruct H2 as [H2|H2]; [left; apply ln_increasing; auto|rewrite H2; lra]. }
    destruct (of_real_val (ln (Q2R q))) as (F & E). { eapply Rle_trans; [exact B|]. apply Rle_trans with (Raux.bpow Zaux.radix2 6); [cbn; lra|apply Raux.bpow_le; lia]. }
    cbn [shown shows]. split; [exact F|]. split; [|exact B]. rewrite E. destruct (rd_err (ln (Q2R q))) as (a & h & Ha & Hh & ->).
    replace (ln (Q2R q) * (1 + a) + h - ln (Q2R q)) with (ln (Q2R q) * a + h) by ring. eapply Rle_trans; [apply Rabs_triang|]. rewrite Rabs_mult.
    assert (U : / 2 ^ 47 = 64 * u) by (rewrite u_pow; cbn; lra). rewrite U. pose proof u_pos as U0. assert (X : Raux.bpow Zaux.radix2 (-1022) <= 1) by (apply (Raux.bpow_le Zaux.radix2 (-1022) 0); lia).
    pose proof (Rabs_pos (ln (Q2R q))). pose proof (Rabs_pos a). nra.
Qed.
Lemma shown_opt q : within_opt q = true -> shows (/ 2 ^ 47) 60 (shown (xq q)) (xq q).
Proof. destruct q as [q|]; [exact (shown_close q)|]. intros _. reflexivity. Qed.
Lemma two_positive : positive_env two_env.
Proof.
  constructor; try reflexivity.
  - repeat first [apply Forall_cons | apply Forall_nil | apply Logic.conj]; reflexivity.
  - repeat first [apply Forall_cons | apply Forall_nil | reflexivity].
  - intros [|k] gs ps; simpl; [|destruct k; discriminate]. intros [= <-] [= <-]. reflexivity.
  - intros p Hp. assert (Hin : In p (e_ce two_env ++ concat (e_cf two_env))).
    { apply in_or_app. destruct Hp as [Hp|(ps & H1 & H2)]; [left; auto|right]. apply in_concat. eauto. }
    clear Hp. simpl in Hin.
    assert (F : length p = 1%nat /\ (forall f s, (0 <= nth s (nth f p []) 0)%Q) /\
      forall f s, (f < 1)%nat -> (s < 2)%nat -> (0 < nth s (nth f p []) 0)%Q).
    { repeat (destruct Hin as [<-|Hin]); try contradiction; (split; [reflexivity|split]);
        intros f s; destruct f as [|[|f]]; destruct s as [|[|[|s]]]; intros; try lia; vm_compute; try reflexivity; discriminate. }
    destruct F as (F1 & F2 & F3). conj; auto. intros o f s H. apply F3; revert H;
      destruct o as [|[|[|o]]]; destruct f as [|[|f]]; destruct s as [|[|[|s]]]; cbn; intros; try discriminate; lia.
  - repeat constructor. intros o i j. destruct o as [|[|[|o]]]; destruct i as [|[|i]]; destruct j as [|[|j]]; simpl; intros; try discriminate; auto.
  - intros o Ho. exists [[true; true]], [true; true]. unfold n_objects in Ho. simpl in Ho. simpl. destruct o as [|[|o]]; auto; lia.
Qed.
Lemma two_sampler states : (forall x, In x states <-> good_src two_env 1 x) ->
  rounded_sampler (/ 2 ^ 47) 60 0 two_env (fun _ => 1) states rounded_log (fun x => shown (log_lh two_env x)) (fun x => shown (log_prior two_env (fun _ => 1) x)) (shown_operators two_env).
Proof.
  intros Hs.
  assert (W : forall x, In x states -> all_within x = true).
  { intros x Hx. pose proof two_within as T. rewrite forallb_forall in T. apply T, two_all, Hs, Hx. }
  assert (V : valid_env two_env) by (apply (positive_valid two_positive); split; vm_compute; discriminate).
  unfold rounded_sampler. conj; [apply Rlt_le, Rinv_0_lt_compat, pow_lt; lra|lra|exact rounded_log_accurate| | |].
  - intros x Hx. pose proof (W x Hx) as A. unfold all_within in A. apply andb_prop in A as [A _]. unfold log_lh. change (e_from_prior two_env) with false. cbv iota.
    destruct (x_source x) as [s|]; [|discriminate]. apply andb_prop in A as [A _]. destruct (oprod _) as [q|]; [exact (shown_close q A)|reflexivity].
  - intros x Hx. pose proof (W x Hx) as A. unfold all_within in A. apply andb_prop in A as [A _]. unfold log_prior.
    destruct (x_source x) as [s|]; [|discriminate]. apply andb_prop in A as [_ A]. destruct (oprod (source_weights _ _)) as [q|]; [rewrite Rmult_1_r; exact (shown_close q A)|reflexivity].
  - intros m x Hx. pose proof (W x Hx) as A. unfold all_within in A. apply andb_prop in A as [_ A]. rewrite forallb_forall in A.
    assert (Hm : In m [Cluster OpAlter; Cluster OpGibbsish; Cluster OpGibbsish2; Source]) by (destruct m as [[]|]; cbn [In]; auto).
    pose proof (A m Hm) as Am. cbv beta in Am. rewrite forallb_forall in Am. clear A Hm. unfold shown_operators.
    assert (N : forall a, In a (run_move two_env m x) -> 0 <= Q2R (snd a)).
    { intros [out p] Ha. apply (run_move_nonneg V) in Ha. cbn [snd]. rewrite <- RMicromega.Q2R_0. apply Qle_Rle. exact Ha. }
    conj.
    + revert Am. clear. generalize (run_move two_env m x). intros l Am. induction l as [|[out p] l IH]; cbn [map]; [constructor|]. constructor; [|apply IH; intros a Ha; apply Am; right; exact Ha].
      pose proof (Am _ (or_introl eq_refl)) as H. unfold same_proposal. cbn [fst snd] in *. destruct out as [|y q qb|]; [reflexivity| |reflexivity]. apply andb_prop in H as [Hq Hqb]. exists (shown (xq q)), (shown (xq qb)). conj; [reflexivity|exact (shown_opt q Hq)|exact (shown_opt qb Hqb)].
    + apply Forall_forall. intros b Hb. apply in_map_iff in Hb as ([out p] & <- & Ha). cbn [snd]. exact (N _ Ha).
    + rewrite <- (mass_one two_env m x). unfold move_props. rewrite !map_map. apply Rsum_ext. intros [out p] _. reflexivity.
    + apply Req_le. generalize (run_move two_env m x). intros l. induction l as [|[out p] l IH]; [reflexivity|]. cbn [map map2 snd]. change (Rsum (?v :: ?t)) with (v + Rsum t). rewrite IH, Rminus_eq_0, Rabs_R0. ring.
    + intros y lq lqb p Hb Hp. apply in_map_iff in Hb as ([out p'] & E & Ha). destruct out as [|y' q qb|]; try discriminate. injection E as -> _ _ <-. apply Hs. apply (@good_src_closed two_env 1 m x y q qb eq_refl); [apply Hs, Hx|].
      exists p'. split; [exact Ha|]. intros Z. apply Qeq_eqR in Z. rewrite RMicromega.Q2R_0 in Z. lra.
Qed.
(** All hypotheses hold, with an error of one step below 10^-11. *)
Example C107_case : exists states, NoDup states /\ (forall x, In x states <-> good_src two_env 1 x) /\ (0 < length states)%nat /\
  positive_env two_env /\ (0 <= e_pconn two_env <= 1)%Q /\ length (e_ce two_env) = 1%nat /\ e_resample two_env = true /\ (1 * e_min two_env < n_objects two_env)%nat /\
  fixed_parameters (fq (P_fchoice.int 45) zero zero zero (P_fchoice.int 10)) /\
  rounded_sampler (/ 2 ^ 47) 60 0 two_env (fun _ => 1) states rounded_log (fun x => shown (log_lh two_env x)) (fun x => shown (log_prior two_env (fun _ => 1) x)) (shown_operators two_env) /\
  step_error 1 (/ 2 ^ 47) 60 0 <= / 10 ^ 11.
Proof.
  destruct (good_src_finite two_env 1) as (states & Hn & Hs). exists states. split; [exact Hn|]. split; [exact Hs|]. split.
  { assert (In {| x_clusters := [[true; false]]; x_source := Some [[[true; false]]; [[true; false]]] |} states).
    { apply Hs. split; [|eexists; reflexivity]. unfold good. cbn [x_clusters x_source]. split; [split; [reflexivity|repeat constructor]|]. split; [intros o i j; destruct o as [|[|[|o]]], i as [|[|i]], j as [|[|j]]; simpl; intros; try discriminate; auto|].
      split; [repeat constructor|]. unfold source_ok. cbn [x_source]. split; [reflexivity|]. repeat first [apply Forall_cons | apply Forall_nil | apply Logic.conj | reflexivity]; exists 0%nat; split; auto; vm_compute; lia. }
    destruct states; [contradiction|cbn; lia]. }
  split; [exact two_positive|]. split; [split; vm_compute; discriminate|]. split; [reflexivity|]. split; [reflexivity|]. split; [vm_compute; lia|].
  split.
  { destruct C103_case as (_ & _ & F & _). assert (P : forall m, (1 <= m <= 100)%Z -> 0 < val (P_fchoice.int m)).
    { intros m Hm. destruct (int_frequency m Hm) as (_ & [Z|[Z _]]); [|eapply Rlt_le_trans; [|exact Z]; apply Rinv_0_lt_compat, pow_lt; lra].
      exfalso. destruct (@scaled_val m 0) as (_ & E). { pose proof (IZR_le 1 m ltac:(lia)). pose proof (IZR_le m 100 ltac:(lia)). change (Raux.bpow Zaux.radix2 0) with 1. rewrite Rmult_1_r. split; [lra|]. apply Rle_trans with (Raux.bpow Zaux.radix2 7); [cbn; lra|apply Raux.bpow_le; lia]. }
      change (val (scaled m 0) = 0) in Z. rewrite E in Z. change (Raux.bpow Zaux.radix2 0) with 1 in Z. rewrite Rmult_1_r in Z. pose proof (rd_le (IZR_le 1 m ltac:(lia))) as X. rewrite (rd_fmt fmt_1) in X. lra. }
    unfold fixed_parameters. split; [exact F|]. split; [apply P; lia|]. split; [apply P; lia|]. repeat split. }
  split; [exact (two_sampler states Hs)|]. unfold step_error. replace (INR (5 + 1)) with 6 by (cbn; lra). lra.
Qed.
