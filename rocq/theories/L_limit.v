(** Lemmas for C101: one random step of the program is one step of the sampler of clusters and sources. *)
From Coq Require Import Lra.
From Verif Require Import M_source M_conj M_gweights S_model S_operators S_source S_params S_mcmc S_honest S_gsource S_ergodic S_collapsed
  S_sampler S_progress P_conj P_gweights L_model L_cache L_operators L_source L_params L_balance L_honest L_honest2 L_gsource L_gsource2 L_collapsed L_doeblin L_reach3 L_sampler L_progress S_joint L_joint L_joint2
  L_tracked L_tracked2 L_tracked4 S_program L_program L_program2 L_program3 P_joint S_limit.
From Verif Require Import M_dist M_operators.
Set Implicit Arguments.
Unset Strict Implicit.
Open Scope R_scope.

Lemma acc_unit ll l0 p p0 q qb : 0 <= acc_prob 1 ll l0 p p0 q qb <= 1.
Proof.
  split; [apply acc_nonneg|]. unfold acc_prob. destruct (is_ninf qb); [lra|]. destruct (is_ninf q); [lra|]. destruct (metropolis_hastings_ratio _ _ _ _ _ _ _); try lra. apply Rmin_l.
Qed.
(** The acceptance step rejects with every uniform draw from the acceptance probability on. *)
Lemma accept_above ll l0 p p0 q qb u : 0 < u < 1 -> acc_prob 1 ll l0 p p0 q qb <= u -> accept ll l0 p p0 q qb u = Ok false.
Proof.
  intros H0 H. unfold acc_prob in H. unfold accept. destruct (is_ninf qb); [reflexivity|]. destruct (is_ninf q); [lra|].
  unfold math_log. destruct (Rlt_dec 0 u) as [L|]; [|lra]. cbn [rbind]. f_equal.
  destruct (metropolis_hastings_ratio _ _ _ _ _ _ _) as [r| | |]; cbn [xlt]; auto; try lra.
  assert (exp r <= u) by (unfold Rmin in H; destruct (Rle_dec 1 (exp r)); lra).
  destruct (Rlt_dec (ln u) r) as [N|]; [|reflexivity]. exfalso. apply exp_increasing in N. rewrite exp_ln in N by auto. lra.
Qed.
Lemma possible_in A (d : dist A) x p : In (x, p) (possible d) -> In (x, p) d /\ ~ (p == 0)%Q.
Proof.
  unfold possible. rewrite filter_In. intros [H E]. split; auto. intros C. apply Qeq_bool_iff in C. rewrite C in E. discriminate.
Qed.
Lemma source_reports e x out p : In (out, p) (possible (gibbs_source e x)) -> out = Fail \/ exists y, out = Propose y (Some 0%Q) (Some 1%Q).
Proof.
  intros H. apply possible_in in H as [H Hp]. assert (S : supp (gibbs_source e x) out) by (exists p; auto). clear H Hp. unfold gibbs_source in S. destruct (x_source x).
  - cbv zeta in S. apply supp_bind in S as (rows & _ & S). apply supp_ret in S. right. eauto.
  - apply supp_ret in S. auto.
Qed.
Lemma kind_operator m : finite_op (move_kind m) = true.
Proof. destruct m as [[]|]; reflexivity. Qed.
Lemma move_no_fail su s m out p : complete_setup su -> positive_sample su s -> In (move_kind m) (operators su) ->
  In (out, p) (possible (run_move (env_of su (fs_params s)) m (fs_cstate s))) -> out <> Fail.
Proof.
  intros C PS Hm Hin ->. apply possible_in in Hin as [Hin Hp]. apply (no_exception C PS Hm).
  destruct m as [[]|]; cbn [move_kind may_raise run_move run_op] in *; exists p; auto.
Qed.

Section Program.
Variable su : setup.
Variables (size geo : bmat -> xf).
Variable lnB : list R -> R.
Variable dpdf : list Q -> list Q -> R.
Variable bpdf : R -> R -> R -> R.
Variable prs : nat -> nat -> effect_prior.
Variable checks : bool.
Notation r0 := (by_size size).
Hypothesis JS : joint_setting su dpdf prs r0.
Hypothesis Hsize : forall cl, log_density (size cl).
Notation M := (configured_model su size geo lnB prs).
Notation safe := (safe geo checks).
Notation prop := (tracked_propose su M bpdf dpdf).
Notation ev := (t_eval su M checks).
Notation accept_prob := (accept_prob su M bpdf dpdf checks).

Definition acc_of (p : params) (x : cstate) (out : outcome) : R :=
  match out with
  | Propose y q qb => acc_prob 1 (full_ll su p y) (full_ll su p x) (full_prior su lnB prs r0 p y) (full_prior su lnB prs r0 p x) (xq q) (xq qb)
  | _ => 0
  end.
Definition dest (x : cstate) (out : outcome) : cstate := match out with Propose y _ _ => y | _ => x end.

Lemma view_at s y : fs_cstate (view s) = y -> view s = at_params (fs_params (view s)) y.
Proof. intros <-. destruct (view s). reflexivity. Qed.

Lemma outcome_step g ch m o n x p : running su M g ch -> safe g -> nth_error (operators su) o = Some (move_kind m) ->
  let s := content (c_obj ch) in let pp := fs_params (view s) in let x0 := fs_cstate (view s) in
  nth_error (possible (run_tracked su M (move_kind m) s)) n = Some (x, p) ->
  exists out, nth_error (possible (run_move (env_of su pp) m x0)) n = Some (out, p) /\ valid_sample su (at_params pp (dest x0 out)) /\ accept_prob ch o (CNth n) = acc_of pp x0 out /\
    (forall u, 0 < u < acc_of pp x0 out -> exists ch', t_step prop ev ch {| td_op := o; td_choice := CNth n; td_u := u |} = Done (ch', true) /\
       running su M g ch' /\ view (content (c_obj ch')) = at_params pp (dest x0 out)) /\
    (forall u, 0 < u < 1 -> acc_of pp x0 out <= u -> exists ch', t_step prop ev ch {| td_op := o; td_choice := CNth n; td_u := u |} = Done (ch', false) /\
       running su M g ch' /\ view (content (c_obj ch')) = at_params pp x0).
Proof.
  intros R S Eo s pp x0 Hn. pose proof (configured_fits size geo lnB prs (js_setup JS)) as F.
  pose proof (@move_sim su size geo lnB dpdf prs JS m s (ru_history R) (proj1 (ru_sample R))) as D. pose proof (dsim_nth n D) as Dn. fold pp x0 in Dn. rewrite Hn in Dn.
  destruct (nth_error (possible (run_move (env_of su pp) m x0)) n) as [[out p']|] eqn:Eout; [|contradiction]. destruct Dn as [St ->].
  exists out. split; [reflexivity|]. destruct x as [c t].
  assert (Hin : In (out, p') (possible (run_move (env_of su pp) m x0))) by (eapply nth_error_In; eauto).
  assert (NF : out <> Fail) by (eapply move_no_fail; eauto; [apply (js_setup JS)|apply (ru_sample R)|eapply nth_error_In; eauto]).
  assert (Vs : view s = at_params pp x0) by (apply view_at; reflexivity).
  assert (C : choice_ok su (move_kind m) (CNth n)) by (destruct m as [[]|]; exact I).
  pose proof (@kind_sim su M F bpdf dpdf (move_kind m) (CNth n) s (conj (ru_history R) (proj1 (ru_sample R))) C) as K.
  assert (Pr : t_propose su M bpdf dpdf (move_kind m) (CNth n) s = t_result (match m with Source => true | _ => false end) (c, t)).
  { destruct m as [[]|]; cbn [move_kind t_propose run_tracked] in *; unfold nth_result; rewrite Hn; reflexivity. }
  assert (Gd : forall u, good_draw su {| td_op := o; td_choice := CNth n; td_u := u |}).
  { intros u. split; [|exact I]. intros k Ek. cbn [td_op] in Ek. rewrite Eo in Ek. injection Ek as <-. exact C. }
  assert (Run : forall u ch' b, t_step prop ev ch {| td_op := o; td_choice := CNth n; td_u := u |} = Done (ch', b) -> running su M g ch').
  { intros u ch' b E. pose proof (step_running bpdf JS Hsize R S (Gd u)) as K'. rewrite E in K'. exact K'. }
  unfold step_sim in St. cbn [snd] in St. destruct t as [|s' q qb|], out as [|y q' qb'|]; try contradiction; cbn [acc_of dest].
  - (* direct rejection *)
    cbn [t_result] in Pr. rewrite Pr in K. destruct (plain_kind su bpdf dpdf (move_kind m) (CNth n) (view s)) as [r'|]; [|contradiction].
    destruct K as (K1 & K2 & K3 & K4). cbn [res_content] in K2, K3.
    assert (PS : positive_sample su (view c)) by (rewrite (kept_view K4); apply (ru_sample R)).
    assert (Rm : remembers c (Fin g)) by (apply remembers_memory; rewrite K3; apply remembers_memory; exact (ru_geo R)).
    destruct (@eval_running su size geo lnB dpdf prs checks JS Hsize (i_step (c_obj ch)) c g K2 PS Rm S) as (z & Ee & Z1 & Z2 & Z3).
    split; [rewrite <- Vs; apply (ru_sample R)|]. split; [|split].
    + unfold accept_prob, S_limit.accept_prob, tracked_propose. rewrite Eo. fold s. rewrite Pr. cbn [res_content]. rewrite Ee. reflexivity.
    + intros u Hu. exfalso. lra.
    + intros u Hu _. eexists. assert (Es : forall d, td_op d = o -> td_choice d = CNth n -> t_step prop ev ch d = Done ({| c_obj := {| content := z; i_step := i_step (c_obj ch); last_lh := Some (if su_from_prior su then Fin 0 else scratch_ll M (view c)); last_prior := Some (prior_with M (Fin g) (view c)) |}; c_ll := c_ll ch; c_prior := c_prior ch |}, false)).
      { intros d E1 E2. unfold t_step, tracked_propose. rewrite E1, E2, Eo. fold s. rewrite Pr. cbn [res_content]. rewrite Ee. reflexivity. }
      specialize (Es {| td_op := o; td_choice := CNth n; td_u := u |} eq_refl eq_refl). split; [exact Es|]. split; [eapply Run; exact Es|].
      cbn [c_obj content]. rewrite Z2, (kept_view K4). exact Vs.
  - (* proposal *)
    destruct St as (<- & <- & Ey & Ep & Hh & Hg). fold pp in Ep. fold s in Hg.
    set (r := if (match m with Source => true | _ => false end) then RGibbs s' else RCopy s' (log_q q) (log_q qb)).
    cbn [t_result] in Pr. fold r in Pr. rewrite Pr in K.
    destruct (plain_kind su bpdf dpdf (move_kind m) (CNth n) (view s)) as [r'|] eqn:Er; [|contradiction]. destruct K as (K1 & K2 & K3 & K4).
    assert (Rc : res_content c r = s') by (unfold r; destruct m; reflexivity).
    assert (Vs' : view s' = at_params pp y) by (rewrite (view_at Ey), Ep; reflexivity).
    assert (PS : positive_sample su (view s')).
    { pose proof (proposal_positive (ru_sample R) (@plain_interior su bpdf dpdf _ (CNth n) (view s) r' (proj1 (ru_sample R)) C I Er)) as X.
      rewrite <- K1 in X. unfold r in X. destruct m; exact X. }
    assert (Rm : remembers s' (Fin g)) by (apply remembers_memory; rewrite Hg; apply remembers_memory; exact (ru_geo R)).
    destruct (@eval_value su size geo lnB dpdf prs checks JS Hsize (i_step (c_obj ch)) s' g Hh PS Rm S) as (z & Ee & Z1 & Z2 & Z3).
    set (a := acc_prob 1 (full_ll su pp y) (full_ll su pp x0) (full_prior su lnB prs r0 pp y) (full_prior su lnB prs r0 pp x0) (xq q) (xq qb)).
    rewrite Ey, Ep in Ee.
    assert (Ea : acc_prob 1 (full_ll su pp y) (c_ll ch) (xadd (full_prior su lnB prs r0 pp y) (Fin g)) (c_prior ch) (res_q r) (res_q_back r) = a).
    { rewrite (ru_ll R), (ru_prior R). rewrite (@ll_value su size geo lnB prs (js_setup JS) _ (ru_sample R)), (@prior_value su size geo lnB prs (js_setup JS) Hsize _ g (ru_sample R)).
      fold s pp x0. rewrite acc_shift by apply full_prior_density. unfold a, r. destruct m as [op|]; cbn [res_q res_q_back].
      - rewrite !log_q_xq. reflexivity.
      - destruct (source_reports Hin) as [E|(y' & E)]; [discriminate|]. injection E as <- -> ->.
        unfold xq. change (Q2R 0) with (Q2R 0). rewrite RMicromega.Q2R_0, RMicromega.Q2R_1. unfold xln. destruct (Rlt_dec 0 0); [lra|]. destruct (Rlt_dec 0 1); [|lra]. reflexivity. }
    split; [rewrite <- Vs'; apply PS|]. split; [|split].
    + unfold accept_prob, S_limit.accept_prob, tracked_propose. rewrite Eo. fold s. rewrite Pr, Rc, Ee. exact Ea.
    + intros u Hu. rewrite <- Ea in Hu. pose proof (accept_below Hu) as Ac.
      assert (Es : t_step prop ev ch {| td_op := o; td_choice := CNth n; td_u := u |} = Done ({| c_obj := {| content := z; i_step := i_step (c_obj ch); last_lh := Some (full_ll su pp y); last_prior := Some (xadd (full_prior su lnB prs r0 pp y) (Fin g)) |};
          c_ll := full_ll su pp y; c_prior := xadd (full_prior su lnB prs r0 pp y) (Fin g) |}, true)).
      { unfold t_step, tracked_propose. cbn [td_op td_choice td_u]. rewrite Eo. fold s. rewrite Pr, Rc, Ee. cbn [ebind]. rewrite Ac. reflexivity. }
      eexists. split; [exact Es|]. split; [eapply Run; exact Es|]. cbn [c_obj content]. rewrite Z2. exact Vs'.
    + intros u Hu Ha. rewrite <- Ea in Ha. pose proof (accept_above Hu Ha) as Ac.
      assert (Al : res_aliased r = false).
      { unfold r. destruct m as [op|]; [reflexivity|]. exfalso. unfold r in Ha. cbn in Ha. lra. }
      assert (Es : t_step prop ev ch {| td_op := o; td_choice := CNth n; td_u := u |} = Done ({| c_obj := {| content := c; i_step := i_step (c_obj ch); last_lh := last_lh (c_obj ch); last_prior := last_prior (c_obj ch) |};
          c_ll := c_ll ch; c_prior := c_prior ch |}, false)).
      { unfold t_step, tracked_propose. cbn [td_op td_choice td_u]. rewrite Eo. fold s. rewrite Pr, Rc, Ee. cbn [ebind]. rewrite Ac, Al. reflexivity. }
      eexists. split; [exact Es|]. split; [eapply Run; exact Es|]. cbn [c_obj content].
      assert (Kp : L_tracked.kept M s c) by (unfold r in K4, Al; destruct m; [exact K4|discriminate]). rewrite (kept_view Kp). exact Vs.
Qed.

(** * Sums *)
Lemma Rsum_concat A (f : A -> R) (ll : list (list A)) : S_mcmc.Rsum (map f (concat ll)) = S_mcmc.Rsum (map (fun l => S_mcmc.Rsum (map f l)) ll).
Proof.
  induction ll as [|l ll IH]; [reflexivity|]. cbn [concat map]. rewrite map_app. unfold S_mcmc.Rsum in *. cbn [fold_right]. rewrite <- IH.
  rewrite fold_right_app. generalize (fold_right Rplus 0 (map f (concat ll))). intros v. clear. induction l as [|a l IHl]; cbn [map fold_right]; [ring|]. rewrite IHl. ring.
Qed.
Lemma map_mapi A B C (f : B -> C) (h : nat -> A -> B) l : map f (mapi h l) = mapi (fun n a => f (h n a)) l.
Proof. apply nth_error_ext. intros n. rewrite nth_error_map, !nth_error_mapi. destruct (nth_error l n); reflexivity. Qed.
Lemma list_ext A (l l' : list A) : (forall n, nth_error l n = nth_error l' n) -> l = l'.
Proof.
  revert l'. induction l as [|a l IH]; intros [|b l'] H; auto; try (specialize (H 0%nat); discriminate). f_equal.
  - specialize (H 0%nat). cbn in H. congruence.
  - apply IH. intros n. exact (H (Datatypes.S n)).
Qed.
Lemma matrix_sum e m ll prior states x (G : cstate -> R) : NoDup states -> In x states ->
  (forall out p, In (out, p) (possible (run_move e m x)) -> In (dest x out) states) ->
  S_mcmc.Rsum (map (fun z => move_matrix e m ll prior states x z * G z) states) =
  S_mcmc.Rsum (map (fun '(out, p) => Q2R p * (match out with
      | Propose y q qb => let a := acc_prob 1 (ll y) (ll x) (prior y) (prior x) (xq q) (xq qb) in a * G y + (1 - a) * G x
      | _ => G x end)) (possible (run_move e m x))).
Proof.
  intros Hn Hx Hd. set (K := kernel cstate_eq_dec 1 ll prior (move_props e m)).
  assert (E1 : S_mcmc.Rsum (map (fun z => move_matrix e m ll prior states x z * G z) states) = G x + S_mcmc.Rsum (map (fun z => K x z * (G z - G x)) states)).
  { pose proof (@off_diagonal e ll prior m states x Hn Hx) as Od. fold K in Od.
    set (off := S_mcmc.Rsum (map (fun z => if cstate_eq_dec x z then 0 else K x z) states)) in *.
    rewrite (@Rsum_ext _ _ (fun z => (if cstate_eq_dec z x then (1 - off - K x x) * G x else 0) + K x z * G z)).
    2:{ intros z _. unfold move_matrix, matrix. fold K. fold off. destruct (cstate_eq_dec x z) as [E|E], (cstate_eq_dec z x) as [E'|E']; try congruence; [subst z; ring|ring]. }
    rewrite Rsum_plus, Rsum_single by auto.
    rewrite (@Rsum_ext _ (fun z => K x z * (G z - G x)) (fun z => K x z * G z + (- G x) * K x z)) by (intros; ring).
    rewrite Rsum_plus, Rsum_scal. rewrite <- Od. ring. }
  rewrite E1. set (acc := fun y q qb => acc_prob 1 (ll y) (ll x) (prior y) (prior x) q qb).
  assert (E2 : S_mcmc.Rsum (map (fun z => K x z * (G z - G x)) states) =
    S_mcmc.Rsum (map (fun '(out, p) => Q2R p * (match out with Propose y q qb => acc y (xq q) (xq qb) * (G y - G x) | _ => 0 end)) (run_move e m x))).
  { unfold K, kernel. rewrite (@Rsum_ext _ _ (fun z => S_mcmc.Rsum (map (fun '(out, p) => Q2R p * (match out with Propose y q qb => if cstate_eq_dec y z then acc z (xq q) (xq qb) else 0 | _ => 0 end * (G z - G x))) (run_move e m x)))).
    2:{ intros z _. rewrite Rmult_comm, <- Rsum_scal. unfold move_props. rewrite map_map. apply Rsum_ext. intros [out p] _. destruct out as [|y q qb|]; cbn [proposes]; try ring.
        destruct (cstate_eq_dec y z); unfold acc; ring. }
    rewrite (@Rsum_swap cstate (outcome * Q) (fun z '(out, p) => Q2R p * (match out with Propose y q qb => if cstate_eq_dec y z then acc z (xq q) (xq qb) else 0 | _ => 0 end * (G z - G x)))).
    apply Rsum_ext. intros [out p] Hin. rewrite Rsum_scal. destruct (Qeq_bool p 0) eqn:Ep.
    { apply Qeq_bool_iff, Qeq_eqR in Ep. rewrite Ep, RMicromega.Q2R_0. ring. }
    f_equal. assert (Hp : In (out, p) (possible (run_move e m x))) by (apply filter_In; split; [exact Hin|rewrite Ep; reflexivity]).
    specialize (Hd _ _ Hp). destruct out as [|y q qb|]; cbn [dest] in Hd.
    - apply Rsum_zero. intros; ring.
    - rewrite (@Rsum_ext _ _ (fun z => if cstate_eq_dec z y then acc y (xq q) (xq qb) * (G y - G x) else 0)).
      + apply Rsum_single; auto.
      + intros z _. destruct (cstate_eq_dec y z) as [E|E], (cstate_eq_dec z y) as [E'|E']; try congruence; try subst z; ring.
    - apply Rsum_zero. intros; ring. }
  rewrite E2. pose proof (mass_one e m x) as M1. unfold move_props in M1. rewrite map_map in M1.
  assert (E3 : G x = S_mcmc.Rsum (map (fun '(_, p) => Q2R p * G x) (run_move e m x))).
  { rewrite (@Rsum_ext _ _ (fun a : outcome * Q => G x * snd (let '(out, p) := a in (match out with Propose y q qb => Some (y, xq q, xq qb) | _ => None end, Q2R p)))) by (intros [out p] _; cbn [snd]; ring).
    rewrite Rsum_scal, M1. ring. }
  rewrite E3 at 1. rewrite <- Rsum_plus.
  rewrite <- (sum_possible (fun out => match out with Propose y q qb => let a := acc_prob 1 (ll y) (ll x) (prior y) (prior x) (xq q) (xq qb) in a * G y + (1 - a) * G x | _ => G x end)).
  apply Rsum_ext. intros [out p] _. destruct out as [|y q qb|]; cbv zeta; unfold acc; ring.
Qed.

Definition kind_move (k : kind) : option move :=
  match k with KAlterCluster => Some (Cluster OpAlter) | KGibbsish => Some (Cluster OpGibbsish) | KGibbsish2 => Some (Cluster OpGibbsish2) | KSource => Some Source | _ => None end.
Definition moves_of (probs : list R) : list (R * move) :=
  concat (mapi (fun o k => match kind_move k with Some m => [(nth o probs 0, m)] | None => [] end) (operators su)).

Variable probs : list R.
Lemma set_running g i ch : running su M g ch -> running su M g (set_i_step i ch).
Proof. intros [R1 R2 R3 R4 R5]. split; cbn [set_i_step c_obj content c_ll c_prior]; auto. Qed.
Lemma step_all_one i d sm ch ch' b : chains sm = [ch] -> t_step prop ev ch d = Done (ch', b) ->
  exists sm', t_step_all prop ev i (fun _ => d) sm = Done sm' /\ chains sm' = [set_i_step i ch'].
Proof. intros Ec E. unfold t_step_all. rewrite Ec. cbn [t_step_chains]. rewrite E. cbn [ebind]. eexists. split; reflexivity. Qed.

Lemma step_mean g ch pp x0 states i sm (V : sampler tsample -> R) (G : cstate -> R) : running su M g ch -> safe g -> chains sm = [ch] ->
  pp = fs_params (view (content (c_obj ch))) -> x0 = fs_cstate (view (content (c_obj ch))) -> all_states su pp states ->
  (forall sm' ch' y, chains sm' = [ch'] -> running su M g ch' -> view (content (c_obj ch')) = at_params pp y -> In y states -> V sm' = G y) ->
  S_mcmc.Rsum (map (fun '(d, p) => match t_step_all prop ev i (fun _ => d) sm with Done sm' => p * V sm' | _ => 0 end) (step_draws su M bpdf dpdf checks probs ch)) =
  S_mcmc.Rsum (map (fun z => sampler_matrix (env_of su pp) (moves_of probs) (full_ll su pp) (full_prior su lnB prs r0 pp) states x0 z * G z) states).
Proof.
  intros Rn S Ec Epp Ex [Hnd Hst] HV. set (s := content (c_obj ch)) in *. set (e := env_of su pp). set (LL := full_ll su pp). set (PR := full_prior su lnB prs r0 pp).
  set (val := fun '(d, p) => match t_step_all prop ev i (fun _ => d) sm with Done sm' => p * V sm' | _ => 0 end).
  assert (Hx : In x0 states) by (apply Hst; subst pp x0; rewrite <- (@view_at s _ eq_refl); apply (ru_sample Rn)).
  assert (HR : S_mcmc.Rsum (map (fun z => sampler_matrix e (moves_of probs) LL PR states x0 z * G z) states) =
    S_mcmc.Rsum (map (fun '(w, m) => w * S_mcmc.Rsum (map (fun z => move_matrix e m LL PR states x0 z * G z) states)) (moves_of probs))).
  { rewrite (@Rsum_ext _ _ (fun z => S_mcmc.Rsum (map (fun '(w, m) => w * (move_matrix e m LL PR states x0 z * G z)) (moves_of probs)))).
    2:{ intros z _. unfold sampler_matrix. rewrite Rmult_comm, <- Rsum_scal. apply Rsum_ext. intros [w m] _. ring. }
    rewrite (@Rsum_swap cstate (_ * move)%type (fun z '(w, m) => w * (move_matrix e m LL PR states x0 z * G z))). apply Rsum_ext. intros [w m] _. apply Rsum_scal. }
  rewrite HR. unfold step_draws, moves_of. rewrite !Rsum_concat.
  assert (HM : forall (f : nat -> kind -> R) (h : nat -> kind -> R) l, (forall o k, nth_error l o = Some k -> f o k = h o k) -> mapi f l = mapi h l).
  { intros f h l H. apply list_ext. intros o. rewrite !nth_error_mapi. destruct (nth_error l o) as [k|] eqn:E; cbn; [rewrite (H o k E)|]; reflexivity. }
  rewrite !map_mapi. f_equal. apply HM. intros o k Eo.
  destruct (kind_move k) as [m|] eqn:Ek.
  2:{ assert (En : run_tracked su M k s = []) by (destruct k; try discriminate; reflexivity). fold s. rewrite En. reflexivity. }
  assert (Ekm : k = move_kind m) by (destruct k; try discriminate; injection Ek as <-; reflexivity). subst k.
  cbn [map]. unfold S_mcmc.Rsum at 2. cbn [fold_right]. rewrite Rplus_0_r. rewrite Rsum_concat, map_mapi.
  pose proof (@move_sim su size geo lnB dpdf prs JS m s (ru_history Rn) (proj1 (ru_sample Rn))) as D. rewrite <- Epp, <- Ex in D. fold e in D.
  rewrite matrix_sum; auto.
  2:{ intros out p Hin. apply In_nth_error in Hin as [n Hn]. pose proof (dsim_nth n D) as Dn. rewrite Hn in Dn.
      destruct (nth_error (possible (run_tracked su M (move_kind m) s)) n) as [[x q]|] eqn:E1; [|contradiction].
      destruct (@outcome_step g ch m o n x q Rn S Eo E1) as (out' & E2 & V' & _). fold s in E2, V'. rewrite <- Epp, <- Ex in E2, V'. fold e in E2.
      rewrite Hn in E2. injection E2 as <- _. apply Hst. exact V'. }
  rewrite <- Rsum_scal. f_equal. apply list_ext. intros n. rewrite nth_error_mapi, nth_error_map.
  pose proof (dsim_nth n D) as Dn. fold s.
  destruct (nth_error (possible (run_tracked su M (move_kind m) s)) n) as [[x q]|] eqn:E1.
  2:{ destruct (nth_error (possible (run_move e m x0)) n) as [[? ?]|]; [contradiction|reflexivity]. }
  destruct (@outcome_step g ch m o n x q Rn S Eo E1) as (out & E2 & V' & Ea & Acc & Rej). fold s in E2, V', Ea, Acc, Rej. rewrite <- Epp, <- Ex in E2, V', Ea, Acc, Rej. fold e in E2.
  rewrite E2. cbn [option_map]. f_equal. rewrite Ea. set (a := acc_of pp x0 out) in *. cbn [map]. unfold S_mcmc.Rsum. cbn [fold_right].
  assert (Ha : 0 <= a <= 1) by (unfold a, acc_of; destruct out; try lra; apply acc_unit).
  assert (VA : val ({| td_op := o; td_choice := CNth n; td_u := a / 2 |}, nth o probs 0 * Q2R q * a) = nth o probs 0 * Q2R q * (a * G (dest x0 out))).
  { unfold val. destruct (Req_dec a 0) as [Z|Z].
    - rewrite Z. destruct (t_step_all _ _ _ _ _); ring.
    - destruct (Acc (a / 2)) as (ch' & Es & R' & Ev); [lra|]. destruct (step_all_one i Ec Es) as (sm' & Esm & Ec'). rewrite Esm.
      rewrite (HV sm' (set_i_step i ch') (dest x0 out)); auto; [ring|apply set_running; auto|apply Hst; auto]. }
  assert (VR : val ({| td_op := o; td_choice := CNth n; td_u := (1 + a) / 2 |}, nth o probs 0 * Q2R q * (1 - a)) = nth o probs 0 * Q2R q * ((1 - a) * G x0)).
  { unfold val. destruct (Req_dec a 1) as [Z|Z].
    - rewrite Z. destruct (t_step_all _ _ _ _ _); ring.
    - destruct (Rej ((1 + a) / 2)) as (ch' & Es & R' & Ev); [lra|lra|]. destruct (step_all_one i Ec Es) as (sm' & Esm & Ec'). rewrite Esm.
      rewrite (HV sm' (set_i_step i ch') x0); auto; [ring|apply set_running; auto]. }
  rewrite VA, VR. unfold a, acc_of. destruct out as [|y q1 q2|]; cbn [dest]; cbv zeta; unfold LL, PR; ring.
Qed.

Lemma program_path g pp states : safe g -> all_states su pp states -> forall n i sm ch F, running su M g ch -> chains sm = [ch] ->
  pp = fs_params (view (content (c_obj ch))) ->
  program_mean su M bpdf dpdf checks probs n i sm F =
  path_mean (sampler_matrix (env_of su pp) (moves_of probs) (full_ll su pp) (full_prior su lnB prs r0 pp) states) states n (fs_cstate (view (content (c_obj ch))))
    (fun l => F (map (fun y => Some (at_params pp y)) l)).
Proof.
  intros S St. induction n as [|n IH]; intros i sm ch F R Ec Ep; [reflexivity|]. cbn [program_mean path_mean]. rewrite Ec.
  rewrite (@step_mean g ch pp _ states i sm _ (fun y => path_mean (sampler_matrix (env_of su pp) (moves_of probs) (full_ll su pp) (full_prior su lnB prs r0 pp) states) states n y
     (fun l => F (Some (at_params pp y) :: map (fun z => Some (at_params pp z)) l))) R S Ec Ep eq_refl St).
  - reflexivity.
  - intros sm' ch' y Ec' R' Ev Hy. assert (Ef : first_sample sm' = Some (at_params pp y)) by (unfold first_sample; rewrite Ec', Ev; reflexivity).
    rewrite (IH (Datatypes.S i) sm' ch' _ R' Ec') by (rewrite Ev; reflexivity). rewrite Ev. rewrite Ef. destruct y. reflexivity.
Qed.
End Program.
