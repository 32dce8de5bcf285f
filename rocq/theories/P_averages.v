(** Property theorems C77: averages over the logged samples of a run are consistent estimates of posterior
    expectations. *)
From Coq Require Import Reals Qreals Lra.
From Verif Require Import M_source S_model S_operators S_source S_mcmc S_honest S_gsource S_ergodic S_averages
  L_operators L_balance L_gsource2 L_doeblin L_reach3 L_averages L_averages2 P_operators P_source P_honest P_gsource P_ergodic.
Open Scope R_scope.

(** C77. Under the hypotheses of C76 there is a constant [C] such that for all quantities [f] between 0 and 1,
    all initial states, all numbers of steps and all sets of logged steps: the mean square error of the average
    of [f] over the logged samples, as an estimate of its posterior expectation, is at most [C] divided by the
    number of logged samples. *)
Theorem C77_mean_square : forall e k moves r states, positive_env e -> (0 <= e_pconn e <= 1)%Q -> length (e_ce e) = k ->
  e_resample e = true -> (forall cl, 0 < r cl) -> full_schedule e moves -> (k * e_min e < n_objects e)%nat ->
  NoDup states -> (forall x, In x states <-> good_src e k x) ->
  let P := sampler_matrix e moves (log_lh e) (log_prior e r) states in
  let expectation f := Rsum (map (fun y => posterior e r y * f y) states) / Rsum (map (posterior e r) states) in
  exists C, 0 < C /\ forall f, (forall x, good_src e k x -> 0 <= f x <= 1) -> forall log n x, good_src e k x -> (0 < n_logged log n)%nat ->
    path_mean P states n x (fun l => (average f (kept log l) - expectation f) ^ 2) <= C / INR (n_logged log n).
Proof.
  intros e k moves r states Pe Hp Hk Hres Hr Hf Hn Hnd Hs P expectation.
  assert (D : (exists x0, In x0 states) \/ (forall x, ~ In x states)) by (destruct states as [|z zs]; [right; auto|left; exists z; left; reflexivity]).
  destruct D as [(x0 & G0)|D].
  2:{ exists 1. split; [lra|]. intros f _ log n x Gx. apply Hs in Gx. destruct (D x Gx). }
  apply Hs in G0.
  destruct (@C76_convergence e k moves r states x0 Pe Hp Hk Hres Hr Hf Hn Hnd Hs G0) as (HZ & (m & d & Hm & Hd & Conv) & (S1 & S2 & _) & _).
  fold P in Conv. set (Z := Rsum (map (posterior e r) states)) in *. set (mu := fun y => posterior e r y / Z) in *.
  assert (sto : stochastic states P) by (apply sampler_stochastic; auto; [apply (positive_valid Pe Hp)|apply Hf|apply Hf]).
  assert (Em : forall f, expectation f = Rsum (map (fun y => mu y * f y) states)).
  { intros f. unfold expectation. fold Z. unfold Rdiv at 1. rewrite Rmult_comm, <- Rsum_scal. apply Rsum_ext. intros y _. unfold mu, Rdiv. ring. }
  assert (rate : forall n x y, In x states -> In y states -> Rabs (nstep cstate_eq_dec P states n x y - mu y) <= (1 - d) ^ (n / m)).
  { intros n0 x1 y Hx Hy. apply Conv; apply Hs; auto. }
  destruct (@mean_square _ cstate_eq_dec states Hnd P sto m d mu Hm Hd rate S1 S2) as (C & HC & B).
  exists C. split; auto. intros f Hfb log n x Gx Hc. rewrite Em. apply B; auto; [|apply Hs; auto]. intros y Hy. apply Hfb, Hs; auto.
Qed.
Print Assumptions C77_mean_square.

(** In terms of the logged samples: [samples] samples, one every [s] steps (C20), of which the first [b] are
    dropped as burn-in (C34).  The probability that the average over the remaining ones is off by [eps] or more tends to 0
    with the number of remaining samples, whatever the initial state and the spacing. *)
Theorem C77_logged : forall e k moves r states, positive_env e -> (0 <= e_pconn e <= 1)%Q -> length (e_ce e) = k ->
  e_resample e = true -> (forall cl, 0 < r cl) -> full_schedule e moves -> (k * e_min e < n_objects e)%nat ->
  NoDup states -> (forall x, In x states <-> good_src e k x) ->
  let P := sampler_matrix e moves (log_lh e) (log_prior e r) states in
  let expectation f := Rsum (map (fun y => posterior e r y * f y) states) / Rsum (map (posterior e r) states) in
  forall eps eta, 0 < eps -> 0 < eta -> exists N, forall f, (forall x, good_src e k x -> 0 <= f x <= 1) ->
  forall x samples s b, good_src e k x -> (0 < s)%nat -> (N + b <= samples)%nat ->
    path_prob P states (samples * s) x (fun l => far eps (average f (skipn b (kept (every s) l))) (expectation f)) <= eta.
Proof.
  intros e k moves r states Pe Hp Hk Hres Hr Hf Hn Hnd Hs P expectation eps eta He Ht.
  assert (D : (exists x0, In x0 states) \/ (forall x, ~ In x states)) by (destruct states as [|z zs]; [right; auto|left; exists z; left; reflexivity]).
  destruct D as [(x0 & G0)|D].
  2:{ exists 0%nat. intros f _ x samples s b Gx. apply Hs in Gx. destruct (D x Gx). }
  apply Hs in G0.
  destruct (@C76_convergence e k moves r states x0 Pe Hp Hk Hres Hr Hf Hn Hnd Hs G0) as (HZ & (m & d & Hm & Hd & Conv) & (S1 & S2 & _) & _).
  fold P in Conv. set (Z := Rsum (map (posterior e r) states)) in *. set (mu := fun y => posterior e r y / Z) in *.
  assert (sto : stochastic states P) by (apply sampler_stochastic; auto; [apply (positive_valid Pe Hp)|apply Hf|apply Hf]).
  assert (Em : forall f, expectation f = Rsum (map (fun y => mu y * f y) states)).
  { intros f. unfold expectation. fold Z. unfold Rdiv at 1. rewrite Rmult_comm, <- Rsum_scal. apply Rsum_ext. intros y _. unfold mu, Rdiv. ring. }
  assert (rate : forall n x y, In x states -> In y states -> Rabs (nstep cstate_eq_dec P states n x y - mu y) <= (1 - d) ^ (n / m)).
  { intros n0 x1 y Hx Hy. apply Conv; apply Hs; auto. }
  destruct (@logged_consistent _ cstate_eq_dec states Hnd P sto m d mu Hm Hd rate S1 S2 eps eta He Ht) as (N & B).
  exists N. intros f Hfb x samples s b Gx Hs0 HN. rewrite Em. apply B; auto; [|apply Hs; auto]. intros y Hy. apply Hfb, Hs; auto.
Qed.
Print Assumptions C77_logged.
(** The setting of C75 and the frequency of object 2 in the first cluster: it is 0 in [demo_x] and 1 in [demo_y]. *)
Definition in_first (x : cstate) : R := if nth 2 (nth 0 (x_clusters x) []) false then 1 else 0.
Example C77_case : exists states, NoDup states /\ (forall x, In x states <-> good_src demo_env 2 x) /\ In demo_x states /\ In demo_y states /\
  full_schedule demo_env all_moves /\ (2 * e_min demo_env < n_objects demo_env)%nat /\
  (forall x, good_src demo_env 2 x -> 0 <= in_first x <= 1) /\ in_first demo_x = 0 /\ in_first demo_y = 1 /\
  average in_first (skipn 1 (kept (every 2) [demo_x; demo_y; demo_x; demo_x; demo_y; demo_x])) = 1 / 2.
Proof.
  destruct C76_case as (states & H1 & H2 & H3 & H4 & H5 & H6). exists states. conj; auto.
  - intros x _. unfold in_first. destruct (nth _ _ _); lra.
  - unfold average, in_first. simpl. lra.
Qed.
