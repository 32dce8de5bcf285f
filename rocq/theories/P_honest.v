(** Property theorems C63: Metropolis-Hastings with the cluster operators leaves the posterior invariant. *)
From Coq Require Import Reals Qreals Lra.
From Verif Require Import M_operators S_operators S_mcmc S_honest L_mcmc L_balance L_honest L_honest2 P_operators.
Open Scope R_scope.

(** C63. For every setting with non-negative weights and effects, every cluster operator, every
    likelihood and prior (also zero), every temperature and any two states of the chain: the posterior
    flow from [x] to [y] equals that from [y] to [x], NaN values included. *)
Theorem C63_detailed_balance : forall e k o t ll prior x y, valid_env e -> 0 < t ->
  (forall x, log_density (ll x)) -> (forall x, log_density (prior x)) -> good e k x -> good e k y ->
  target_density t ll prior x * op_kernel e o t ll prior x y = target_density t ll prior y * op_kernel e o t ll prior y x.
Proof.
  intros e k o t ll prior x y He Ht Hl Hp Hx Hy. eapply detailed_balance with (c := factor' k o); auto.
  - intros z out p. apply props_nonneg. auto.
  - apply factor'_pos.
  - apply op_honest'; auto.
Qed.
Print Assumptions C63_detailed_balance.

(** The states of the chain form a finite set that proposals do not leave. *)
Theorem C63_state_space : forall e k,
  (exists states, NoDup states /\ forall x, In x states <-> good e k x) /\
  (forall o x y, good e k x -> can_propose e o x y -> good e k y).
Proof. intros e k. split; [apply good_finite|]. intros o x y. apply good_closed. Qed.
Print Assumptions C63_state_space.

(** On this set the posterior is invariant under a step with an operator drawn with any fixed
    probabilities.  (A proposal that raises an exception ends the run; here it counts as staying.) *)
Theorem C63_stationary : forall e k ops t ll prior states y, valid_env e -> 0 < t ->
  (forall x, log_density (ll x)) -> (forall x, log_density (prior x)) ->
  Rsum (map fst ops) = 1 -> NoDup states -> (forall x, In x states <-> good e k x) -> good e k y ->
  Rsum (map (fun x => target_density t ll prior x * mixed_matrix e ops t ll prior states x y) states) = target_density t ll prior y.
Proof.
  intros e k ops t ll prior states y He Ht Hl Hp Hw Hn Hs Hy. unfold mixed_matrix.
  transitivity (Rsum (map (fun '(w, o) => w * Rsum (map (fun x => target_density t ll prior x * op_matrix e o t ll prior states x y) states)) ops)).
  - clear. induction ops as [|[w o] ops IH]; simpl.
    + apply Rsum_zero. intros; ring.
    + unfold Rsum at 2; simpl. fold (Rsum (map (fun '(w, o) => w * Rsum (map (fun x => target_density t ll prior x * op_matrix e o t ll prior states x y) states)) ops)).
      rewrite <- IH, <- Rsum_scal, <- Rsum_plus. apply Rsum_ext. intros x _. unfold Rsum; simpl. ring.
  - rewrite (@Rsum_ext _ _ (fun wo => target_density t ll prior y * fst wo)).
    + rewrite Rsum_scal, Hw. ring.
    + intros [w o] _. simpl. rewrite Rmult_comm. f_equal. unfold op_matrix. eapply stationary with (c := factor' k o); auto.
      * intros z out p. apply props_nonneg. auto.
      * apply factor'_pos.
      * intros x z Hx Hz _. apply op_honest'; auto; apply Hs; auto.
      * apply Hs. auto.
Qed.
Print Assumptions C63_stationary.

(** The setting of C13: both states are good and a step leads from one to the other. *)
Lemma demo_valid : valid_env demo_env.
Proof.
  constructor.
  - split; vm_compute; discriminate.
  - intros w q Hw Hq. simpl in Hw. repeat (destruct Hw as [<-|Hw]; [simpl in Hq; repeat (destruct Hq as [<-|Hq]; [vm_compute; discriminate|]); contradiction|]). contradiction.
  - intros p r q Hp Hr Hq. assert (Hp' : In p (e_ce demo_env ++ concat (e_cf demo_env))).
    { apply in_or_app. destruct Hp as [Hp|(ps & H1 & H2)]; auto. right. apply in_concat. eauto. }
    simpl in Hp'. repeat (destruct Hp' as [<-|Hp']; [simpl in Hr; repeat (destruct Hr as [<-|Hr]; [simpl in Hq; repeat (destruct Hq as [<-|Hq]; [vm_compute; discriminate|]); contradiction|]); contradiction|]).
    contradiction.
Qed.
Lemma demo_good : good demo_env 2 demo_x.
Proof. exact (conj demo_shape (conj demo_disjoint (conj demo_sizes demo_source))). Qed.
Example C63_case : valid_env demo_env /\ good demo_env 2 demo_x /\ good demo_env 2 demo_y /\ demo_x <> demo_y /\
  (forall o, can_propose demo_env o demo_x demo_y) /\
  Rsum (map fst [(1/2, OpAlter); (1/3, OpGibbsish); (1/6, OpGibbsish2)]) = 1.
Proof.
  assert (H : forall o, can_propose demo_env o demo_x demo_y).
  { intros o. destruct (reported (run_op demo_env o demo_x) demo_y) as [[q qb]|] eqn:E.
    - exists q, qb. exact (reported_supp _ _ _ _ E).
    - destruct o; vm_compute in E; discriminate. }
  conj; auto; [exact demo_valid|exact demo_good|exact (good_closed demo_good (H OpAlter))|discriminate|].
  unfold Rsum; simpl. lra.
Qed.

(** NaN: object 2 belongs to no group of the confounder, hence has no component before it joins a
    cluster; the move reports NaN as backward probability (and is never accepted). *)
Definition lonely_env : env :=
  {| e_features := e_features demo_env; e_nf := 2;
     e_conf := [ [[true; true; false; false; false]; [false; false; false; true; true]] ];
     e_weights := e_weights demo_env; e_ce := e_ce demo_env; e_cf := e_cf demo_env; e_adj := e_adj demo_env;
     e_pconn := 4#5; e_min := 1; e_max := 3; e_resample := true; e_from_prior := false |}.
Definition lonely_y : cstate :=
  {| x_clusters := x_clusters demo_y; x_source := Some [src1; src1; [[true; false]; [true; false]]; src0; src1] |}.
Example C63_nan_case : valid_env lonely_env /\ good lonely_env 2 demo_x /\ good lonely_env 2 lonely_y /\
  (exists q, supp (run_op lonely_env OpAlter demo_x) (Propose lonely_y (Some q) None)) /\
  (forall ll prior, (forall x, log_density (ll x)) -> (forall x, log_density (prior x)) ->
     op_kernel lonely_env OpAlter 1 ll prior demo_x lonely_y = 0).
Proof.
  assert (V : valid_env lonely_env) by (destruct demo_valid as [A B C]; constructor; [exact A|exact B|exact C]).
  assert (G : good lonely_env 2 demo_x).
  { exact (conj demo_shape (conj demo_disjoint (conj demo_sizes demo_source))). }
  assert (S : exists q, supp (run_op lonely_env OpAlter demo_x) (Propose lonely_y (Some q) None)).
  { destruct (reported (run_op lonely_env OpAlter demo_x) lonely_y) as [[[q|] [qb|]]|] eqn:E; try (vm_compute in E; discriminate).
    exists q. exact (reported_supp _ _ _ _ E). }
  assert (G' : good lonely_env 2 lonely_y).
  { destruct S as (q & S). eapply (@good_closed _ _ OpAlter); [exact G|]. exists (Some q), None. exact S. }
  conj; auto. intros ll prior Hl Hp. unfold op_kernel. apply nan_kernel.
  - intros z out p. apply props_nonneg. auto.
  - apply (@nan_all _ 2 _ V _ _ G G'). left. vm_compute. reflexivity.
Qed.
