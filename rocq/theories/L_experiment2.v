(** Lemmas on analyses on a file system: runs. *)
From Coq Require Import QArith Lia.
From Verif Require Import L_config L_text.
From Verif Require Import L_settings.
From Verif Require Export L_experiment.
Set Implicit Arguments.
Unset Strict Implicit.
Open Scope nat_scope.

Lemma NoDup_list_prod A B (l : list A) (m : list B) : NoDup l -> NoDup m -> NoDup (list_prod l m).
Proof.
  intros L M. induction L as [|x l N L IH]; simpl; [constructor|].
  assert (X : forall a b, NoDup a -> NoDup b -> (forall y : A * B, In y a -> ~ In y b) -> NoDup (a ++ b)).
  { clear. intros a b Na Nb D. induction Na as [|y a Ny Na IH]; simpl; auto. constructor; [|apply IH; intros z Z; apply D; right; auto].
    rewrite in_app_iff. intros [H|H]; [auto|]. apply (D y); [left; auto|auto]. }
  apply X; auto.
  - clear - M. induction M as [|y m Ny M IH]; simpl; constructor; auto. rewrite in_map_iff. intros (z & E & Z). injection E as ->. auto.
  - intros [a b] Hab Hin. apply in_map_iff in Hab as (z & E & _). injection E as <- _. apply in_prod_iff in Hin. tauto.
Qed.
Section Analysis.
Variable to_int : json -> option Z.
Variable to_float : json -> option Q.
Variable to_bool : json -> option bool.
Variable to_str : json -> option str.
Hypothesis CV : conversions to_int to_float to_bool to_str.
Variable parse : str -> str -> option (dict value).
Variable Random : Type.
Variable analyse : Random -> config -> list (option node) -> nat -> option outputs.
Variables (cwd : dir) (path : str) (s0 : disk) (content : str) (d : dict value) (c : config) (name : str).
Notation cfg := (fix_relative_path path cwd).
Notation base := (base_name cfg).
Notation RP := (r_path (s_results c)).
Notation P := (fix_relative_path name RP).
Notation runs := (Z.to_nat (c_runs (s_mcmc c))).
Notation logfile := (P ++ [s_ "experiment.log"]).
Hypothesis Hname : name <> [].
Hypothesis Hfile : s0 cfg = Some (File content).
Hypothesis Hparse : parse base content = Some d.
Hypothesis Hload : from_file to_int to_float to_bool to_str (is_file s0) (can_make s0) (base_directory cwd path) d None = Some c.
Hypothesis Hcfg : ~ below P cfg.
Hypothesis Hin : forall f, In f (input_files c) -> ~ below P f.
Hypothesis Hlog : base <> s_ "experiment.log".
Hypothesis Hdir : s0 (P ++ [base]) <> Some Directory.
Hypothesis Hrp : ~ below (P ++ [base]) RP.

Lemma write_below p : may_write P base runs (clusters_of c) p -> below P p /\ p <> P.
Proof.
  intros [->|[->|(k & i & kind & _ & _ & -> & _)]]; (split; [apply below_app|]); intros E; rewrite <- (app_nil_r P) in E at 2; apply app_inv_head in E; discriminate.
Qed.
Record near (s : disk) : Prop := {
  n_frame : forall p, s p = s0 p \/ (s0 p = None /\ s p = Some Directory /\ may_create P RP (clusters_of c) p) \/
                      (may_write P base runs (clusters_of c) p /\ exists t, s p = Some (File t));
  n_copy : s (P ++ [base]) = Some (File content);
  n_dirs : forall q, below q P \/ below q RP -> s q = Some Directory;
  n_log : exists t, s logfile = Some (File (match s0 logfile with Some (File old) => old | _ => [] end ++ t)) }.

Lemma near_outside s p t : near s -> s0 p = Some (File t) -> ~ below P p -> s p = Some (File t).
Proof.
  intros N E B. destruct (n_frame N p) as [->|[(E' & _)|(W & _)]]; auto; [congruence|]. apply write_below in W. tauto.
Qed.
Lemma near_config s : near s -> s cfg = Some (File content).
Proof. intros N. apply near_outside; auto. Qed.
Lemma near_file s p : near s -> is_file s0 p = true -> is_file s p = true.
Proof.
  intros N E. apply is_file_true in E as (t & E). apply is_file_true. destruct (n_frame N p) as [->|[(E' & _)|(_ & W)]]; eauto. congruence.
Qed.
Lemma near_from_data s : near s -> is_file s0 (fix_relative_path (s_ "from_data") (base_directory cwd path)) = false ->
  is_file s (fix_relative_path (s_ "from_data") (base_directory cwd path)) = false.
Proof.
  intros N. change (fix_relative_path (s_ "from_data") (base_directory cwd path)) with (base_directory cwd path ++ [s_ "from_data"]).
  set (p := base_directory cwd path ++ [s_ "from_data"]). intros E.
  unfold is_file in E |- *. destruct (n_frame N p) as [F|[(_ & F & _)|(W & _)]]; [rewrite F; exact E|rewrite F; reflexivity|].
  - exfalso. apply Hcfg. apply write_below in W as (W & W'). apply below_last in W as [W|W]; [|destruct (W' (eq_sym W))].
    eapply below_trans; [exact W|]. unfold base_directory. destruct cfg as [|x l] using rev_ind; [apply below_refl|]. rewrite removelast_last. apply below_app.
Qed.
Lemma inputs_are_files f : In f (input_files c) -> is_file s0 f = true.
Proof.
  assert (C : consistent (is_file s0) c) by (eapply consistency; eauto). pose proof (S_settings.files C) as (F1 & F2 & F3 & F4).
  unfold input_files. rewrite !in_app_iff. intros [[<-|[<-|[]]]|[H|[H|[H|H]]]]; auto.
  - destruct (g_costs _) as [p|] eqn:E; [|destruct H]. destruct H as [<-|[]]. auto.
  - apply in_flat_map in H as (kv & Hkv & H). apply in_flat_map in H as (g & Hg & H). destruct (d_file (snd g)) as [p|] eqn:E; [|destruct H]. destruct H as [<-|[]].
    apply (F4 (snd g)); auto. right. right. exists (fst kv), (snd kv), (fst g). destruct kv, g. auto.
  - destruct (d_file _) as [p|] eqn:E; [|destruct H]. destruct H as [<-|[]]. apply (F4 _ _ (or_introl eq_refl) E).
  - destruct (d_file _) as [p|] eqn:E; [|destruct H]. destruct H as [<-|[]]. apply (F4 _ _ (or_intror (or_introl eq_refl)) E).
Qed.
Lemma near_inputs s : near s -> map s (input_files c) = map s0 (input_files c).
Proof.
  intros N. apply map_ext_in. intros f Hf. pose proof (inputs_are_files Hf) as E. apply is_file_true in E as (t & E). rewrite E. apply near_outside; auto.
Qed.
Lemma near_accepts s : near s -> from_file to_int to_float to_bool to_str (is_file s) (can_make s) (base_directory cwd path) d None = Some c.
Proof.
  intros N. unfold from_file in *. eapply config_same; [|left; reflexivity|exact Hload|].
  - intros x _.
    assert (HF : forall p, file_path (is_file s0) (base_directory cwd path) x = Some p -> file_path (is_file s) (base_directory cwd path) x = Some p).
    { intros p. unfold file_path. destruct (fix_path _ x) as [q|]; [|discriminate]. destruct (is_file s0 q) eqn:E; [|discriminate]. rewrite (near_file N E). auto. }
    split; [exact HF|].
    intros y. unfold costs. destruct (file_path (is_file s0) _ x) as [p|] eqn:E; [rewrite (HF p eq_refl); auto|].
    destruct (is_text "from_data" (Some x)) eqn:T; [|discriminate]. intros [= <-].
    destruct x as [[]|]; try discriminate. cbn [is_text] in T. apply str_eqb_eq in T. subst.
    unfold file_path in *. cbn [fix_path] in *. rewrite near_from_data; auto. destruct (is_file s0 _); [discriminate|reflexivity].
  - apply can_make_dirs. intros q Hq. apply (n_dirs N). auto.
Qed.
Lemma near_ext s s' : near s -> (forall p, s' p = s p) -> near s'.
Proof. intros [A B C D] E. constructor; intros; rewrite ?E; auto. Qed.

(** Making the directories again changes nothing. *)
Lemma near_makedirs s p : near s -> p = P \/ p = RP -> exists s', makedirs p s = Some s' /\ (forall q, s' q = s q).
Proof.
  intros N Hp. assert (D : forall q, below q p -> s q = Some Directory) by (intros q Hq; apply (n_dirs N); destruct Hp as [->| ->]; auto).
  destruct (@makedirs_works p s) as (s' & E); [intros q t Hq; rewrite (D q Hq); discriminate|]. exists s'. split; auto.
  destruct (makedirs_spec E) as (H1 & H2 & H3). intros q. destruct (s q) eqn:Eq; [rewrite H3; auto; congruence|].
  rewrite <- Eq. apply H2. intros Hq. rewrite (D q Hq) in Eq. discriminate.
Qed.
Lemma log_not_below : ~ below logfile P. Proof. intros (r & E). rewrite <- app_assoc in E. rewrite <- (app_nil_r P) in E at 1. apply app_inv_head in E. discriminate. Qed.
Lemma near_append s t : near s -> exists s', append_file logfile t s = Some s' /\ near s' /\ (forall p, p <> logfile -> s' p = s p).
Proof.
  intros N. destruct (n_log N) as (t0 & L).
  destruct (@write_works logfile (match s logfile with Some (File old) => old ++ t | _ => t end) s) as (s' & E).
  { rewrite parent_last. apply (n_dirs N). left. apply below_refl. }
  { rewrite L. discriminate. }
  exists s'. split; [exact E|]. apply write_spec in E as (E1 & E2 & E3 & E4). split; [|exact E4]. constructor.
  - intros p. destruct (path_eq_dec p logfile) as [->|Np]; [right; right; split; [left; reflexivity|eauto]|]. rewrite E4 by exact Np. apply (n_frame N).
  - rewrite E4; [apply (n_copy N)|]. intros E. apply app_inv_head in E. congruence.
  - intros q Hq. rewrite E4; [apply (n_dirs N), Hq|]. intros ->. pose proof (n_dirs N Hq). congruence.
  - rewrite E3, L. exists (t0 ++ t). rewrite app_assoc. reflexivity.
Qed.
Lemma near_copy s : near s -> exists s', copy_file cfg (P ++ [base]) s = Some s' /\ (forall p, s' p = s p).
Proof.
  intros N. destruct (@copy_works cfg (P ++ [base]) s content) as (s' & E).
  - apply near_config, N.
  - intros E. apply Hcfg. rewrite E. apply below_app.
  - rewrite parent_last. apply (n_dirs N). left. apply below_refl.
  - rewrite (n_copy N). discriminate.
  - exists s'. split; auto. destruct (copy_spec E) as (t & E1 & E2 & E3 & E4 & E5); [rewrite (n_copy N); discriminate|].
    intros p. destruct (path_eq_dec p (P ++ [base])) as [->|Np]; [|auto]. rewrite E4, (n_copy N). rewrite (near_config N) in E1. congruence.
Qed.
Lemma near_experiment s k log now : near s ->
  exists s', experiment to_int to_float to_bool to_str parse cwd path (Some name) (Some (run_settings k)) log now s = Some (name, for_run c k, P, s') /\
    near s' /\ (forall p, p <> logfile -> s' p = s p).
Proof.
  intros N. unfold experiment. assert (En : experiment_name (Some name) now = name) by (unfold experiment_name; destruct name; congruence). rewrite En.
  unfold load. rewrite (near_config N), Hparse. cbn [bind].
  assert (A : from_file to_int to_float to_bool to_str (is_file s) (can_make s) (base_directory cwd path) d (Some (run_settings k)) = Some (for_run c k)).
  { unfold from_file. apply run_accepted; auto. exact (near_accepts N). }
  rewrite A. cbn [bind]. change (r_path (s_results (for_run c k))) with RP.
  destruct (near_makedirs N (or_intror eq_refl)) as (s1 & -> & H1). cbn [bind].
  change (r_path (s_results (for_run c k))) with RP.
  pose proof (near_ext N H1) as N1. destruct (near_makedirs N1 (or_introl eq_refl)) as (s2 & -> & H2). cbn [bind].
  pose proof (near_ext N1 H2) as N2. destruct (near_append (if log then start_messages name P else []) N2) as (s3 & -> & N3 & H3). cbn [bind].
  destruct (near_copy N3) as (s4 & -> & H4). cbn [bind]. exists s4. conj; auto.
  - eapply near_ext; eauto.
  - intros p Hp. rewrite H4, H3, H2, H1 by auto. reflexivity.
Qed.

(** The files of a run. *)
Lemma near_write s k i kind t s' : near s -> In k (clusters_of c) -> i < runs -> In kind kinds ->
  write_file ((P ++ [K_name k]) ++ [run_file (fst kind) k i (snd kind)]) t s = Some s' ->
  near s' /\ s' (P ++ results_file (fst kind) (snd kind) k i) = Some (File t) /\ (forall p, p <> P ++ results_file (fst kind) (snd kind) k i -> s' p = s p).
Proof.
  intros N Hk Hi Hkind. rewrite <- app_assoc. change ([K_name k] ++ [run_file (fst kind) k i (snd kind)]) with [K_name k; run_file (fst kind) k i (snd kind)].
  rewrite run_file_spec. set (p0 := P ++ results_file (fst kind) (snd kind) k i). intros E. apply write_spec in E as (E1 & E2 & E3 & E4). conj; auto. constructor.
  - intros p. destruct (path_eq_dec p p0) as [->|Np]; [right; right|rewrite E4 by exact Np; apply (n_frame N)]. split; [right; right; exists k, i, kind; conj; auto|eauto].
  - rewrite E4; [apply (n_copy N)|]. intros E. apply app_inv_head in E. discriminate.
  - intros q Hq. rewrite E4; [apply (n_dirs N), Hq|]. intros ->. pose proof (n_dirs N Hq). congruence.
  - rewrite E4; [apply (n_log N)|]. intros E. apply app_inv_head in E. discriminate.
Qed.
Lemma near_mkdir s k s' : near s -> In k (clusters_of c) -> mkdir (P ++ [K_name k]) s = Some s' ->
  near s' /\ s' (P ++ [K_name k]) = Some Directory /\ (forall p, p <> P ++ [K_name k] -> s' p = s p).
Proof.
  intros N Hk E. apply mkdir_spec in E as (E1 & E2 & E3 & E4). conj; auto.
  assert (NB : base <> K_name k) by (intros Eb; apply (E2 content); rewrite <- Eb; apply (n_copy N)). constructor.
  - intros p. destruct (path_eq_dec p (P ++ [K_name k])) as [->|Np]; [|rewrite E4 by exact Np; apply (n_frame N)].
    destruct (n_frame N (P ++ [K_name k])) as [F|[(F1 & F2 & F3)|(W & t & Et)]].
    + destruct (s0 (P ++ [K_name k])) as [[|t]|] eqn:E0; [left; rewrite E3; auto|destruct (E2 t); congruence|].
      right. left. conj; auto. right. right. exists k. auto.
    + right. left. auto.
    + destruct (E2 t Et).
  - rewrite E4; [apply (n_copy N)|]. intros E. apply app_inv_head in E. congruence.
  - intros q Hq. destruct (path_eq_dec q (P ++ [K_name k])) as [->|Nq]; auto. rewrite E4 by exact Nq. apply (n_dirs N), Hq.
  - rewrite E4; [apply (n_log N)|]. intros E. apply app_inv_head in E. discriminate.
Qed.
Definition file_of_run (k : Z) (i : nat) (p : dir) : Prop := exists kind, In kind kinds /\ p = P ++ results_file (fst kind) (snd kind) k i.
Lemma other_files k i k' i' p : (i, k) <> (i', k') -> file_of_run k i p -> file_of_run k' i' p -> False.
Proof.
  intros N (a & Ha & ->) (b & Hb & E). apply app_inv_head in E. apply results_file_inj in E as (_ & -> & ->); auto.
Qed.
Lemma near_results s k i o s' : near s -> In k (clusters_of c) -> i < runs -> write_results P (for_run c k) k i o s = Some s' ->
  near s' /\ has_results P (c_from_prior (s_mcmc c)) k i o s' /\ (forall p, p <> logfile -> p <> P ++ [K_name k] -> ~ file_of_run k i p -> s' p = s p).
Proof.
  intros N Hk Hi H. unfold write_results in H.
  destruct (near_append (o_log o) N) as (s1 & E1 & N1 & H1). rewrite E1 in H. cbn [bind] in H.
  destruct (mkdir (P ++ [K_name k]) s1) as [s2|] eqn:E2; [|discriminate]. cbn [bind] in H. destruct (near_mkdir N1 Hk E2) as (N2 & D2 & H2).
  destruct (write_file _ (o_stats o) s2) as [s3|] eqn:E3; [|discriminate]. cbn [bind] in H.
  destruct (@near_write s2 k i ("stats", ".txt")%string _ s3 N2 Hk Hi ltac:(simpl; tauto) E3) as (N3 & F3 & H3).
  destruct (write_file _ (o_clusters o) s3) as [s4|] eqn:E4; [|discriminate]. cbn [bind] in H.
  destruct (@near_write s3 k i ("clusters", ".txt")%string _ s4 N3 Hk Hi ltac:(simpl; tauto) E4) as (N4 & F4 & H4).
  destruct (write_file _ (o_opstats o) s4) as [s5|] eqn:E5; [|discriminate]. cbn [bind] in H.
  destruct (@near_write s4 k i ("operator_stats", ".txt")%string _ s5 N4 Hk Hi ltac:(simpl; tauto) E5) as (N5 & F5 & H5).
  cbn [fst snd] in *.
  assert (D : forall a b : string * string, In a kinds -> In b kinds -> a <> b -> P ++ results_file (fst a) (snd a) k i <> P ++ results_file (fst b) (snd b) k i).
  { intros a b Ha Hb Nab E. apply app_inv_head in E. apply results_file_inj in E as (E & _); auto. }
  assert (K1 : In ("stats", ".txt")%string kinds) by (simpl; tauto). assert (K2 : In ("clusters", ".txt")%string kinds) by (simpl; tauto).
  assert (K3 : In ("operator_stats", ".txt")%string kinds) by (simpl; tauto). assert (K4 : In ("likelihood", ".h5")%string kinds) by (simpl; tauto).
  pose proof (D _ _ K1 K2 ltac:(discriminate)) as D12. pose proof (D _ _ K1 K3 ltac:(discriminate)) as D13. pose proof (D _ _ K2 K3 ltac:(discriminate)) as D23.
  pose proof (D _ _ K1 K4 ltac:(discriminate)) as D14. pose proof (D _ _ K2 K4 ltac:(discriminate)) as D24. pose proof (D _ _ K3 K4 ltac:(discriminate)) as D34.
  cbn [fst snd] in *.
  assert (A : s5 (P ++ results_file "stats" ".txt" k i) = Some (File (o_stats o)) /\ s5 (P ++ results_file "clusters" ".txt" k i) = Some (File (o_clusters o))).
  { rewrite !H5, !H4 by auto. auto. }
  destruct A as (A1 & A2).
  assert (O : forall p, p <> logfile -> p <> P ++ [K_name k] -> ~ file_of_run k i p -> s5 p = s p).
  { intros p L B F. rewrite H5, H4, H3, H2, H1; auto; intros ->; apply F; [exists ("stats", ".txt")%string|exists ("clusters", ".txt")%string|exists ("operator_stats", ".txt")%string]; auto. }
  change (c_from_prior (s_mcmc (for_run c k))) with (c_from_prior (s_mcmc c)) in H. destruct (c_from_prior (s_mcmc c)).
  - injection H as <-. conj; auto. unfold has_results. conj; auto. discriminate.
  - destruct (@near_write s5 k i ("likelihood", ".h5")%string _ s' N5 Hk Hi K4 H) as (N6 & F6 & H6). cbn [fst snd] in *. conj; auto.
    + unfold has_results. conj; auto; rewrite H6; auto.
    + intros p L B F. rewrite H6; [apply O; auto|]. intros ->. apply F. exists ("likelihood", ".h5")%string. auto.
Qed.
Lemma near_runner r s k i now s' : near s -> In k (clusters_of c) -> i < runs -> runner to_int to_float to_bool to_str parse analyse cwd r i k path name now s = Some s' ->
  near s' /\ (exists o, analyse r (for_run c k) (map s0 (input_files c)) i = Some o /\ has_results P (c_from_prior (s_mcmc c)) k i o s') /\
  (forall p, p <> logfile -> p <> P ++ [K_name k] -> ~ file_of_run k i p -> s' p = s p).
Proof.
  intros N Hk Hi H. unfold runner in H. destruct (near_experiment k true now N) as (s1 & E1 & N1 & H1). rewrite E1 in H. cbn [bind] in H.
  change (input_files (for_run c k)) with (input_files c) in H. rewrite (near_inputs N1) in H.
  destruct (analyse r (for_run c k) (map s0 (input_files c)) i) as [o|] eqn:Eo; [|discriminate]. cbn [bind] in H.
  destruct (near_results N1 Hk Hi H) as (N2 & R & O). conj; eauto. intros p L B F. rewrite O by auto. apply H1, L.
Qed.
Lemma keeps_results from_prior k i o s s' k0 i0 : (i0, k0) <> (i, k) -> (forall p, p <> logfile -> p <> P ++ [K_name k0] -> ~ file_of_run k0 i0 p -> s' p = s p) ->
  has_results P from_prior k i o s -> has_results P from_prior k i o s'.
Proof.
  intros N H R. assert (E : forall kind, In kind kinds -> s' (P ++ results_file (fst kind) (snd kind) k i) = s (P ++ results_file (fst kind) (snd kind) k i)).
  { intros kind Hk. apply H.
    - intros E. apply app_inv_head in E. discriminate.
    - intros E. apply app_inv_head in E. discriminate.
    - intros F. apply (other_files N F). exists kind. auto. }
  unfold has_results in *. destruct R as (R1 & R2 & R3 & R4).
  pose proof (E ("stats", ".txt")%string ltac:(simpl; tauto)) as E1. pose proof (E ("clusters", ".txt")%string ltac:(simpl; tauto)) as E2.
  pose proof (E ("operator_stats", ".txt")%string ltac:(simpl; tauto)) as E3. pose proof (E ("likelihood", ".h5")%string ltac:(simpl; tauto)) as E4.
  cbn [fst snd] in *. rewrite E1, E2, E3, E4. auto.
Qed.
Lemma near_run_all r : forall jobs clock s s', near s -> (forall i k, In (i, k) jobs -> In k (clusters_of c) /\ i < runs) -> NoDup jobs ->
  run_all to_int to_float to_bool to_str parse analyse cwd r jobs path name clock s = Some s' ->
  near s' /\ (forall i k, In (i, k) jobs -> exists o, analyse r (for_run c k) (map s0 (input_files c)) i = Some o /\ has_results P (c_from_prior (s_mcmc c)) k i o s') /\
  (forall i k o, ~ In (i, k) jobs -> has_results P (c_from_prior (s_mcmc c)) k i o s -> has_results P (c_from_prior (s_mcmc c)) k i o s').
Proof.
  induction jobs as [|[i k] jobs IH]; intros clock s s' N HJ ND H; cbn [run_all] in H.
  - injection H as <-. conj; auto. intros i k [].
  - destruct (runner _ _ _ _ _ _ _ r i k path name (clock 0) s) as [s1|] eqn:E; [|discriminate]. cbn [bind] in H.
    inversion ND as [|x l N1 N2]; subst. destruct (HJ i k (or_introl eq_refl)) as (Hk & Hi).
    destruct (near_runner N Hk Hi E) as (M & (o & Eo & R) & O).
    destruct (IH _ _ _ M (fun i k I => HJ i k (or_intror I)) N2 H) as (M' & A & B). conj; auto.
    + intros i' k' [Ej|Hj]; [injection Ej as <- <-; exists o; split; auto|auto].
    + intros i' k' o' Nj R'. apply B; [intros Hj; apply Nj; right; auto|]. eapply keeps_results; [|exact O|exact R']. intros Ej. apply Nj. left. auto.
Qed.

(** The first reading of the configuration. *)
Lemma first_near nm log now name' c' results s' : experiment_name nm now = name ->
  experiment to_int to_float to_bool to_str parse cwd path nm None log now s0 = Some (name', c', results, s') -> name' = name /\ c' = c /\ results = P /\ near s'.
Proof.
  intros En H. unfold experiment in H. rewrite En in H. unfold load in H. rewrite Hfile, Hparse in H. cbn [bind] in H. rewrite Hload in H. cbn [bind] in H.
  destruct (makedirs RP s0) as [a|] eqn:Ea; [|discriminate]. cbn [bind] in H.
  destruct (makedirs P a) as [b|] eqn:Eb; [|discriminate]. cbn [bind] in H.
  destruct (append_file _ _ b) as [e|] eqn:Ee; [|discriminate]. cbn [bind] in H.
  destruct (copy_file _ _ e) as [f|] eqn:Ef; [|discriminate]. cbn [bind] in H. injection H as <- <- <- <-. conj; auto.
  destruct (makedirs_spec Ea) as (A1 & A2 & A3). destruct (makedirs_spec Eb) as (B1 & B2 & B3). apply append_spec in Ee as (_ & X2 & (t1 & X3 & _) & X4).
  assert (LC : P ++ [base] <> logfile) by (intros E; apply app_inv_head in E; congruence).
  assert (Kb : b (P ++ [base]) = s0 (P ++ [base])).
  { rewrite B2, A2; auto. intros (r & E). rewrite <- app_assoc in E. rewrite <- (app_nil_r P) in E at 1. apply app_inv_head in E. discriminate. }
  destruct (copy_spec Ef) as (t & Y1 & Y2 & Y3 & Y4 & Y5); [rewrite X4, Kb by exact LC; exact Hdir|].
  assert (Ht : t = content).
  { rewrite X4 in Y1 by (intros E; apply Hcfg; rewrite E; apply below_app). rewrite B3, A3 in Y1; [congruence|congruence|]. rewrite A3; congruence. }
  assert (D : forall q, below q P \/ below q RP -> b q = Some Directory).
  { intros q [Hq|Hq]; [auto|]. rewrite B3; rewrite A1; auto; discriminate. }
  assert (G : forall q, b q = s0 q \/ (s0 q = None /\ b q = Some Directory /\ (below q P \/ below q RP))).
  { intros q. destruct (s0 q) as [n|] eqn:E0; [left; rewrite B3, A3; auto; rewrite ?A3; congruence|].
    destruct (b q) as [n|] eqn:Eq; [right|left; auto]. assert (L : below q P \/ below q RP \/ b q = s0 q).
    { assert (DB : below q P \/ ~ below q P) by (rewrite <- in_prefixes; destruct (in_dec path_eq_dec q (prefixes P)); auto).
      assert (DA : below q RP \/ ~ below q RP) by (rewrite <- in_prefixes; destruct (in_dec path_eq_dec q (prefixes RP)); auto).
      destruct DB as [DB|DB]; auto. destruct DA as [DA|DA]; auto. right. right. rewrite B2, A2; auto. }
    destruct L as [L|[L|L]]; [| |congruence]; rewrite D in Eq by auto; injection Eq as <-; auto. }
  constructor.
  - intros p. destruct (path_eq_dec p (P ++ [base])) as [->|N1]; [right; right; split; [right; left; reflexivity|eauto]|].
    rewrite Y5 by exact N1. destruct (path_eq_dec p logfile) as [->|N2]; [right; right; split; [left; reflexivity|eauto]|].
    rewrite X4 by exact N2. destruct (G p) as [E|(E1 & E2 & E3)]; auto. right. left. conj; auto. unfold may_create. tauto.
  - rewrite Y4, Ht. reflexivity.
  - intros q Hq. assert (q <> logfile) by (intros ->; apply X2; auto).
    rewrite Y5, X4; auto. intros ->. pose proof (D _ Hq) as Z. rewrite Kb in Z. auto.
  - rewrite Y5 by auto. rewrite X3. assert (Lb : b logfile = s0 logfile \/ b logfile = Some Directory) by (destruct (G logfile) as [E|(_ & E & _)]; auto).
    destruct Lb as [-> |Lb]; [|contradiction]. destruct (s0 logfile) as [[|old]|]; eauto.
Qed.

(** When nothing is in the way *)
Section Fresh.
Hypothesis F1 : forall q t, below q P \/ below q RP -> s0 q <> Some (File t).
Hypothesis F2 : forall q, below P q -> q <> P -> s0 q = None /\ ~ below q RP.
Hypothesis F3 : forall k, In k (clusters_of c) -> base <> K_name k.

Lemma child_not (x : str) l : P ++ x :: l <> P.
Proof. intros E. rewrite <- (app_nil_r P) in E at 2. apply app_inv_head in E. discriminate. Qed.
Lemma first_works nm log now : experiment_name nm now = name ->
  exists s', experiment to_int to_float to_bool to_str parse cwd path nm None log now s0 = Some (name, c, P, s').
Proof.
  intros En. unfold experiment. rewrite En. unfold load. rewrite Hfile, Hparse. cbn [bind]. rewrite Hload. cbn [bind].
  destruct (@makedirs_works RP s0) as (a & Ea); [intros q t Hq; auto|]. rewrite Ea. cbn [bind]. destruct (makedirs_spec Ea) as (A1 & A2 & A3).
  destruct (@makedirs_works P a) as (b & Eb).
  { intros q t Hq E. assert (DA : below q RP \/ ~ below q RP) by (rewrite <- in_prefixes; destruct (in_dec path_eq_dec q (prefixes RP)); auto).
    destruct DA as [DA|DA]; [rewrite A1 in E; congruence|]. rewrite A2 in E by auto. apply (F1 (or_introl Hq) E). }
  rewrite Eb. cbn [bind]. destruct (makedirs_spec Eb) as (B1 & B2 & B3).
  assert (Fr : forall x l, b (P ++ x :: l) = None).
  { intros x l. destruct (@F2 (P ++ x :: l) (below_app _ _) (@child_not x l)) as (E & NB).
    rewrite B2, A2; auto. intros (r & E'). rewrite <- app_assoc in E'. apply (@child_not x (l ++ r)). symmetry. exact E'. }
  destruct (@write_works logfile (match b logfile with Some (File old) => old ++ (if log then start_messages name P else []) | _ => if log then start_messages name P else [] end) b) as (e & Ee).
  { rewrite parent_last. apply B1, below_refl. }
  { rewrite Fr. discriminate. }
  change (write_file logfile _ b) with (append_file logfile (if log then start_messages name P else []) b) in Ee. rewrite Ee. cbn [bind].
  apply append_spec in Ee as (_ & X2 & (t1 & X3 & _) & X4).
  destruct (@copy_works cfg (P ++ [base]) e content) as (f & Ef).
  - rewrite X4 by (intros E; apply Hcfg; rewrite E; apply below_app). rewrite B3, A3; rewrite ?A3; congruence.
  - intros E. apply Hcfg. rewrite E. apply below_app.
  - rewrite parent_last. rewrite X4; [apply B1, below_refl|]. intros E. apply (@child_not (s_ "experiment.log") []). symmetry. exact E.
  - rewrite X4, Fr; [discriminate|]. intros E. apply app_inv_head in E. congruence.
  - rewrite Ef. cbn [bind]. eauto.
Qed.
Lemma results_work s k i o : near s -> In k (clusters_of c) -> i < runs -> exists s', write_results P (for_run c k) k i o s = Some s'.
Proof.
  intros N Hk Hi. unfold write_results.
  destruct (near_append (o_log o) N) as (s1 & E1 & N1 & _). rewrite E1. cbn [bind].
  destruct (@mkdir_works (P ++ [K_name k]) s1) as (s2 & E2).
  { rewrite parent_last. apply (n_dirs N1). left. apply below_refl. }
  { intros t E. destruct (n_frame N1 (P ++ [K_name k])) as [G|[(_ & G & _)|(W & _)]].
    - rewrite (proj1 (@F2 (P ++ [K_name k]) (below_app _ _) (@child_not _ []))) in G. congruence.
    - congruence.
    - destruct W as [W|[W|(k' & i' & kind & _ & _ & W & _)]]; apply app_inv_head in W; try discriminate. injection W as W. apply (F3 Hk). symmetry. exact W. }
  rewrite E2. cbn [bind]. destruct (near_mkdir N1 Hk E2) as (N2 & D2 & _).
  assert (ND : forall s kind, near s -> s (P ++ results_file (fst kind) (snd kind) k i) <> Some Directory).
  { intros z kind Nz E. destruct (n_frame Nz (P ++ results_file (fst kind) (snd kind) k i)) as [G|[(_ & _ & [G|[G|(k' & _ & G)]])|(W & t & Et)]].
    - rewrite (proj1 (@F2 (P ++ results_file (fst kind) (snd kind) k i) (below_app _ _) (@child_not _ _))) in G. congruence.
    - destruct G as (r & G). rewrite <- app_assoc in G. eapply child_not. symmetry. exact G.
    - exact (proj2 (@F2 _ (below_app _ _) (@child_not _ _)) G).
    - apply app_inv_head in G. discriminate.
    - congruence. }
  assert (W : forall z kind t, near z -> In kind kinds -> z (P ++ [K_name k]) = Some Directory -> exists z', write_file ((P ++ [K_name k]) ++ [run_file (fst kind) k i (snd kind)]) t z = Some z' /\ near z' /\ z' (P ++ [K_name k]) = Some Directory).
  { intros z kind t Nz Hkind Dz. destruct (@write_works ((P ++ [K_name k]) ++ [run_file (fst kind) k i (snd kind)]) t z) as (z' & Ez).
    - rewrite parent_last. exact Dz.
    - rewrite <- app_assoc. change ([K_name k] ++ [run_file (fst kind) k i (snd kind)]) with [K_name k; run_file (fst kind) k i (snd kind)]. rewrite run_file_spec. apply ND, Nz.
    - exists z'. destruct (near_write Nz Hk Hi Hkind Ez) as (M1 & _ & M2). conj; auto. rewrite M2; auto. intros E. apply app_inv_head in E. discriminate. }
  destruct (W s2 ("stats", ".txt")%string (o_stats o) N2 ltac:(simpl; tauto) D2) as (s3 & E3 & N3 & D3). cbn [fst snd] in E3. rewrite E3. cbn [bind].
  destruct (W s3 ("clusters", ".txt")%string (o_clusters o) N3 ltac:(simpl; tauto) D3) as (s4 & E4 & N4 & D4). cbn [fst snd] in E4. rewrite E4. cbn [bind].
  destruct (W s4 ("operator_stats", ".txt")%string (o_opstats o) N4 ltac:(simpl; tauto) D4) as (s5 & E5 & N5 & D5). cbn [fst snd] in E5. rewrite E5. cbn [bind].
  destruct (c_from_prior _); [eauto|].
  destruct (W s5 ("likelihood", ".h5")%string (o_likelihood o) N5 ltac:(simpl; tauto) D5) as (s6 & E6 & _). cbn [fst snd] in E6. rewrite E6. eauto.
Qed.
Lemma run_all_works r : (forall i k, i < runs -> In k (clusters_of c) -> exists o, analyse r (for_run c k) (map s0 (input_files c)) i = Some o) ->
  forall jobs clock s, near s -> (forall i k, In (i, k) jobs -> In k (clusters_of c) /\ i < runs) ->
  exists s', run_all to_int to_float to_bool to_str parse analyse cwd r jobs path name clock s = Some s'.
Proof.
  intros HA. induction jobs as [|[i k] jobs IH]; intros clock s N HJ; cbn [run_all]; [eauto|].
  destruct (HJ i k (or_introl eq_refl)) as (Hk & Hi). destruct (near_experiment k true (clock 0) N) as (s1 & E1 & N1 & H1).
  destruct (HA i k Hi Hk) as (o & Eo). destruct (results_work o N1 Hk Hi) as (s2 & E2).
  assert (E : runner to_int to_float to_bool to_str parse analyse cwd r i k path name (clock 0) s = Some s2).
  { unfold runner. rewrite E1. cbn [bind]. change (input_files (for_run c k)) with (input_files c). rewrite (near_inputs N1), Eo. exact E2. }
  rewrite E. cbn [bind]. apply IH; [apply (near_runner N Hk Hi E)|]. intros i' k' H. apply HJ. right. exact H.
Qed.
End Fresh.
End Analysis.

(** * Whole analyses *)
Section Main.
Variable to_int : json -> option Z.
Variable to_float : json -> option Q.
Variable to_bool : json -> option bool.
Variable to_str : json -> option str.
Hypothesis CV : conversions to_int to_float to_bool to_str.
Variable parse : str -> str -> option (dict value).
Variable Random : Type.
Variable analyse : Random -> config -> list (option node) -> nat -> option outputs.
Variables (cwd : dir) (path : str) (s0 : disk) (content : str) (d : dict value) (c : config) (nm : option str) (clock : nat -> datetime) (r : Random).
Notation cfg := (fix_relative_path path cwd).
Notation base := (base_name cfg).
Notation RP := (r_path (s_results c)).
Notation name := (experiment_name nm (clock 0)).
Notation P := (fix_relative_path name RP).
Notation runs := (Z.to_nat (c_runs (s_mcmc c))).
Hypothesis Hfile : s0 cfg = Some (File content).
Hypothesis Hparse : parse base content = Some d.
Hypothesis Hload : from_file to_int to_float to_bool to_str (is_file s0) (can_make s0) (base_directory cwd path) d None = Some c.
Hypothesis Hcfg : ~ below P cfg.

Lemma name_given : name <> [].
Proof. unfold experiment_name. destruct nm as [[|x n]|]; try discriminate; destruct (name_plain (clock 0)) as (x & n & -> & _); discriminate. Qed.
Lemma jobs_spec i k : In (i, k) (list_prod (seq 0 runs) (clusters_of c)) <-> i < runs /\ In k (clusters_of c).
Proof. rewrite in_prod_iff, in_seq. split; intros [? ?]; split; auto; lia. Qed.
Lemma main_near s' : (forall f, In f (input_files c) -> ~ below P f) -> NoDup (clusters_of c) -> base <> s_ "experiment.log" ->
  s0 (P ++ [base]) <> Some Directory -> ~ below (P ++ [base]) RP ->
  main to_int to_float to_bool to_str parse analyse cwd r path nm None clock s0 = Some s' ->
  near cwd path s0 content c name s' /\
  (forall i k, i < runs -> In k (clusters_of c) ->
     exists o, analyse r (for_run c k) (map s0 (input_files c)) i = Some o /\ has_results P (c_from_prior (s_mcmc c)) k i o s').
Proof.
  intros Hi ND Hl Hd Hr H.
  unfold main in H. destruct (experiment _ _ _ _ _ _ path nm None false (clock 0) s0) as [[[[n1 c1] p1] s1]|] eqn:E; [|discriminate]. cbn [bind] in H.
  destruct (first_near Hfile Hparse Hload Hcfg Hl Hd Hr eq_refl E) as (-> & -> & -> & N).
  assert (NP : NoDup (list_prod (seq 0 runs) (clusters_of c))) by (apply NoDup_list_prod; auto; apply seq_NoDup).
  destruct (@near_run_all _ _ _ _ CV parse Random analyse cwd path s0 content d c name name_given Hfile Hparse Hload Hcfg Hi Hl Hd Hr r _ _ _ _ N
    (fun i k I => conj (proj2 (proj1 (jobs_spec i k) I)) (proj1 (proj1 (jobs_spec i k) I))) NP H) as (N' & A & _).
  split; auto. intros i k I1 I2. apply A, jobs_spec. auto.
Qed.
Lemma free_outside s p t : way_is_free P RP s -> s p = Some (File t) -> ~ below P p.
Proof.
  intros (F1 & F2) E B. destruct (path_eq_dec p P) as [->|N]; [apply (F1 P t); auto; left; apply below_refl|].
  destruct (F2 p B N). congruence.
Qed.
Lemma main_works : base <> s_ "experiment.log" -> way_is_free P RP s0 -> (forall k, In k (clusters_of c) -> base <> K_name k) ->
  (forall i k, i < runs -> In k (clusters_of c) -> exists o, analyse r (for_run c k) (map s0 (input_files c)) i = Some o) ->
  exists s', main to_int to_float to_bool to_str parse analyse cwd r path nm None clock s0 = Some s'.
Proof.
  intros Hl F K A. pose proof F as (F1 & F2).
  assert (Hi : forall f, In f (input_files c) -> ~ below P f).
  { intros f Hf. assert (X : is_file s0 f = true) by (eapply inputs_are_files; eauto). apply is_file_true in X as (t & X). apply (free_outside F X). }
  assert (Hd : s0 (P ++ [base]) <> Some Directory).
  { destruct (F2 (P ++ [base])) as (X & _); [apply below_app|apply child_not|]. rewrite X. discriminate. }
  assert (Hr : ~ below (P ++ [base]) RP) by (apply (F2 (P ++ [base])); [apply below_app|apply child_not]).
  destruct (@first_works _ _ _ _ parse cwd path s0 content d c name Hfile Hparse Hload Hcfg Hl F1 F2 nm false (clock 0) eq_refl) as (s1 & E).
  destruct (first_near Hfile Hparse Hload Hcfg Hl Hd Hr eq_refl E) as (_ & _ & _ & N).
  unfold main. rewrite E. cbn [bind].
  apply (@run_all_works _ _ _ _ CV parse Random analyse cwd path s0 content d c name name_given Hfile Hparse Hload Hcfg Hi Hl Hd Hr F2 K r A); auto.
  intros i k I. apply jobs_spec in I. tauto.
Qed.
End Main.
