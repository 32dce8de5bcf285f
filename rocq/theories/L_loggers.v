(** Lemmas on label matching, log files and the clusters file. *)
From Coq Require Import Sorted.
From Verif Require Export S_loggers L_text.
Set Implicit Arguments.
Unset Strict Implicit.

(** * Permutations *)
Lemma selects_In A (x : A) (r l : list A) : In (x, r) (selects l) <-> exists a b, l = a ++ x :: b /\ r = a ++ b.
Proof.
  revert r; induction l as [|y l IH]; intros r; simpl.
  - split; [tauto|]. intros (a & b & E & _). destruct a; discriminate.
  - split.
    + intros [E|Hin].
      * injection E as <- <-. exists [], l. auto.
      * apply in_map_iff in Hin. destruct Hin as ((z & r') & E & Hin). injection E as <- <-.
        apply IH in Hin. destruct Hin as (a & b & -> & ->). exists (y :: a), b. auto.
    + intros (a & b & E & Er). destruct a as [|z a]; simpl in *.
      * left. congruence.
      * right. apply in_map_iff. exists (x, a ++ b). split; [congruence|]. apply IH. exists a, b. split; congruence.
Qed.
Lemma perms_In A n : forall (l p : list A), length l = n -> (In p (perms n l) <-> Permutation p l).
Proof.
  induction n as [|n IH]; intros l p Hl; simpl.
  - destruct l; [|discriminate]. split.
    + intros [<-|[]]. constructor.
    + intros H. left. symmetry. apply Permutation_nil. symmetry. exact H.
  - rewrite in_flat_map. split.
    + intros ((x & r) & Hs & Hin). apply in_map_iff in Hin. destruct Hin as (q & <- & Hq).
      apply selects_In in Hs. destruct Hs as (a & b & -> & ->).
      apply IH in Hq. 2:{ rewrite app_length in *; simpl in Hl. lia. }
      transitivity (x :: a ++ b); [constructor; exact Hq|apply Permutation_middle].
    + intros HP. destruct p as [|x p].
      { apply Permutation_length in HP. simpl in HP. lia. }
      assert (Hin : In x l) by (eapply Permutation_in; [exact HP|left; auto]).
      apply in_split in Hin. destruct Hin as (a & b & ->).
      exists (x, a ++ b). split; [apply selects_In; exists a, b; auto|].
      apply in_map. apply IH. { rewrite app_length in *; simpl in Hl. lia. }
      apply Permutation_cons_app_inv with (a := x). exact HP.
Qed.
Lemma Sorted_map_cons x (L : list (list nat)) : StronglySorted lex_lt L -> StronglySorted lex_lt (map (cons x) L).
Proof.
  induction 1 as [|p L HS IH HF]; simpl; constructor; auto.
  apply Forall_map. eapply Forall_impl; [|exact HF]. intros q Hq. apply lex_next, Hq.
Qed.
Lemma Sorted_app (R : list nat -> list nat -> Prop) L M : StronglySorted R L -> StronglySorted R M ->
  (forall a b, In a L -> In b M -> R a b) -> StronglySorted R (L ++ M).
Proof.
  induction 1 as [|p L HS IH HF]; intros HM H; simpl; auto.
  constructor.
  - apply IH; auto. intros a b Ha Hb. apply H; simpl; auto.
  - apply Forall_app. split; auto. apply Forall_forall. intros b Hb. apply H; simpl; auto.
Qed.
Lemma selects_sorted (l : list nat) : StronglySorted lt l -> StronglySorted (fun a b => fst a < fst b) (selects l).
Proof.
  induction 1 as [|x l HS IH HF]; simpl; constructor.
  - clear -IH. induction IH as [|p L HS IH HF]; simpl; constructor; auto.
    apply Forall_map. eapply Forall_impl; [|exact HF]. intros (a & b). destruct p. simpl. auto.
  - apply Forall_map. apply Forall_forall. intros (y & r) Hin. simpl.
    apply selects_In in Hin. destruct Hin as (a & b & -> & _). rewrite Forall_forall in HF. apply HF. rewrite in_app_iff; simpl; auto.
Qed.
Lemma sorted_remove (x : nat) a b : StronglySorted lt (a ++ x :: b) -> StronglySorted lt (a ++ b).
Proof.
  induction a as [|y a IH]; simpl; intros H; apply StronglySorted_inv in H; destruct H as (H & HF); auto.
  constructor; auto. rewrite Forall_app in *. destruct HF as (Ha & Hb). inversion Hb; subst. auto.
Qed.
Lemma perms_sorted n : forall l, length l = n -> StronglySorted lt l -> StronglySorted lex_lt (perms n l).
Proof.
  induction n as [|n IH]; intros l Hl HS; simpl.
  - repeat constructor.
  - assert (Hs := selects_sorted HS).
    assert (Hsub : forall x r, In (x, r) (selects l) -> StronglySorted lex_lt (perms n r)).
    { intros x r Hin. apply selects_In in Hin. destruct Hin as (a & b & -> & ->).
      apply IH; [rewrite app_length in *; simpl in Hl; lia|]. eapply sorted_remove; eauto. }
    clear HS Hl. induction Hs as [|(x & r) L HL IHL HF]; simpl; [constructor|].
    apply Sorted_app.
    + apply Sorted_map_cons. apply (Hsub x r). left; auto.
    + apply IHL. intros y r' Hin. apply (Hsub y r'). right; auto.
    + intros p q Hp Hq. apply in_map_iff in Hp. destruct Hp as (p' & <- & _).
      apply in_flat_map in Hq. destruct Hq as ((y & r') & Hy & Hq). apply in_map_iff in Hq. destruct Hq as (q' & <- & _).
      apply lex_here. rewrite Forall_forall in HF. apply (HF (y, r') Hy).
Qed.
Lemma seq_sorted n : forall k, StronglySorted lt (seq k n).
Proof.
  induction n as [|n IH]; intros k; simpl; constructor; auto.
  apply Forall_forall. intros x Hx. apply in_seq in Hx. lia.
Qed.
Lemma get_permutations_In K p : In p (get_permutations K) <-> is_perm K p.
Proof. apply perms_In. apply seq_length. Qed.
Lemma get_permutations_sorted K : StronglySorted lex_lt (get_permutations K).
Proof. apply perms_sorted; [apply seq_length|apply seq_sorted]. Qed.

Lemma max_by_spec A (f : A -> nat) (R : A -> A -> Prop) : forall l best done,
  StronglySorted R (done ++ l) -> In best done ->
  (forall x, In x done -> f x < f best \/ (f x = f best /\ (x = best \/ R best x))) ->
  let r := max_by f best l in
  In r (done ++ l) /\ forall x, In x (done ++ l) -> f x < f r \/ (f x = f r /\ (x = r \/ R r x)).
Proof.
  induction l as [|y l IH]; intros best done HS Hb Hd r; subst r; simpl.
  - rewrite app_nil_r. auto.
  - replace (done ++ y :: l) with ((done ++ [y]) ++ l) in * by (rewrite <- app_assoc; auto).
    apply IH; auto.
    + rewrite in_app_iff. destruct (f best <? f y); simpl; auto.
    + intros x Hx. apply in_app_iff in Hx.
      assert (HR : R best y).
      { rewrite <- app_assoc in HS. clear -HS Hb. induction done as [|z done IH]; [destruct Hb|].
        simpl in HS. apply StronglySorted_inv in HS. destruct HS as (HS & HF). destruct Hb as [->|Hb]; auto.
        rewrite Forall_forall in HF. apply HF. rewrite in_app_iff; simpl; auto. }
      destruct (Nat.ltb_spec (f best) (f y)) as [Hlt|Hge].
      * destruct Hx as [Hx|[<-|[]]].
        -- destruct (Hd x Hx) as [H|(H & _)]; lia.
        -- right. auto.
      * destruct Hx as [Hx|[<-|[]]]; auto. destruct (Nat.eq_dec (f y) (f best)) as [E|E]; [right; auto|left; lia].
Qed.

Lemma best_permutation_first cl prev :
  let K := length cl in let p := get_best_permutation cl prev in
  is_perm K p /\ forall q, is_perm K q ->
    agreement cl prev q < agreement cl prev p \/ (agreement cl prev q = agreement cl prev p /\ (q = p \/ lex_lt p q)).
Proof.
  intros K p. subst p. unfold get_best_permutation. fold K.
  assert (HI := get_permutations_In K). assert (HS := get_permutations_sorted K).
  destruct (get_permutations K) as [|p ps] eqn:E.
  { exfalso. apply (proj2 (HI (seq 0 K))). apply Permutation_refl. }
  destruct (@max_by_spec _ (agreement cl prev) lex_lt ps p [p]) as (Hin & Hmax); auto; try (left; reflexivity).
  { intros x [<-|[]]. auto. }
  split.
  - apply HI. exact Hin.
  - intros q Hq. apply Hmax. apply HI in Hq. exact Hq.
Qed.

(** * Tables *)
Lemma map2_map A B C D (f : B -> C -> D) (a : A -> B) (b : A -> C) l : map2 f (map a l) (map b l) = map (fun x => f (a x) (b x)) l.
Proof. induction l; simpl; congruence. Qed.
Lemma list_tab A (d : A) l n : length l = n -> l = map (fun i => nth i l d) (seq 0 n).
Proof.
  intros <-. induction l as [|x l IH]; simpl; auto. f_equal. rewrite <- seq_shift, map_map. exact IH.
Qed.
Lemma reorder_tab A (d : A) p l K : length p = K -> reorder d p l = map (fun i => nth (nth i p 0) l d) (seq 0 K).
Proof. intros H. unfold reorder. rewrite (list_tab 0 H) at 1. rewrite map_map. reflexivity. Qed.
Lemma perm_length K p : is_perm K p -> length p = K.
Proof. intros H. apply Permutation_length in H. rewrite seq_length in H. exact H. Qed.
Lemma perm_lt K p i : is_perm K p -> i < K -> nth i p 0 < K.
Proof.
  intros H Hi. assert (Hin : In (nth i p 0) p) by (apply nth_In; rewrite (perm_length H); auto).
  eapply Permutation_in in Hin; [|exact H]. apply in_seq in Hin. lia.
Qed.
Lemma wf_row K n cl i : wf_clusters K n cl -> i < K -> length (nth i cl []) = n.
Proof. intros (HK & HF) Hi. rewrite Forall_forall in HF. apply HF. apply nth_In. lia. Qed.
Lemma wf_tab K n cl i : wf_clusters K n cl -> i < K -> nth i cl [] = map (fun j => bit cl i j) (seq 0 n).
Proof. intros H Hi. unfold bit. apply list_tab. eapply wf_row; eauto. Qed.
Lemma permute_tab K n cl p : wf_clusters K n cl -> is_perm K p ->
  reorder [] p cl = map (fun i => map (fun j => bit cl (nth i p 0) j) (seq 0 n)) (seq 0 K).
Proof.
  intros Hw Hp. rewrite (reorder_tab _ _ (perm_length Hp)). apply map_ext_in. intros i Hi. apply in_seq in Hi.
  apply (@wf_tab K); auto. apply perm_lt; auto; lia.
Qed.
Lemma agreement_spec K n logged cl p : wf_clusters K n cl -> is_perm K p ->
  agreement cl (table K n logged) p = spec_agreement K n logged cl p.
Proof.
  intros Hw Hp. unfold agreement. change (permute [] p cl) with (reorder [] p cl). rewrite (permute_tab Hw Hp). unfold table.
  rewrite map2_map. unfold spec_agreement. f_equal. apply map_ext. intros i. rewrite map2_map. reflexivity.
Qed.
Lemma best_is_label K n logged cl : wf_clusters K n cl -> best_label K n logged cl (get_best_permutation cl (table K n logged)).
Proof.
  intros Hw. destruct (best_permutation_first cl (table K n logged)) as (Hp & Hmax).
  rewrite (proj1 Hw) in *. split; auto.
  intros q Hq. rewrite <- !agreement_spec; auto.
Qed.
Lemma reorder_wf K n cl p : wf_clusters K n cl -> is_perm K p -> wf_clusters K n (reorder [] p cl).
Proof.
  intros Hw Hp. rewrite (permute_tab Hw Hp). split.
  - rewrite map_length, seq_length. reflexivity.
  - apply Forall_map. apply Forall_forall. intros i _. rewrite map_length, seq_length. reflexivity.
Qed.
Lemma hits_snoc logged cl i j : hits (logged ++ [cl]) i j = hits logged i j + (if bit cl i j then 1 else 0).
Proof. unfold hits. rewrite filter_app, app_length. simpl. destruct (bit cl i j); reflexivity. Qed.
Lemma table_snoc K n logged cl : wf_clusters K n cl ->
  map2 (map2 (fun m (b : bool) => m + (if b then 1 else 0))) (table K n logged) cl = table K n (logged ++ [cl]).
Proof.
  intros Hw. rewrite (list_tab [] (proj1 Hw)). unfold table. rewrite map2_map. apply map_ext_in. intros i Hi. apply in_seq in Hi.
  rewrite (wf_tab Hw) at 1 by lia. rewrite map2_map. apply map_ext. intros j.
  rewrite <- (list_tab [] (proj1 Hw)). rewrite hits_snoc. reflexivity.
Qed.
Lemma perm_1 K p : K <= 1 -> is_perm K p -> p = seq 0 K.
Proof.
  intros HK Hp. destruct K as [|[|]]; [| |lia]; simpl in *.
  - apply Permutation_nil. symmetry. exact Hp.
  - apply Permutation_length_1_inv. symmetry. exact Hp.
Qed.
Lemma reorder_id A (d : A) l K : length l = K -> reorder d (seq 0 K) l = l.
Proof. intros H. symmetry. apply list_tab. exact H. Qed.

(** Matching, seen from outside: after the arrays [logged]. *)
Definition mstate_of (K n : nat) (st : mstate) (logged : list bmat) : Prop :=
  if ms_match st then ms_sum st = table K n logged else K <= 1.
Lemma init_matching_of K n cl st : wf_clusters K n cl -> mstate_of K n (init_matching cl {| ms_match := true; ms_sum := st |}) [].
Proof.
  intros Hw. unfold mstate_of, init_matching. simpl. rewrite (proj1 Hw).
  destruct (Nat.leb_spec K 1); auto. rewrite (list_tab [] (proj1 Hw)), map_map. unfold table. apply map_ext_in. intros i Hi. apply in_seq in Hi.
  rewrite (wf_tab Hw) by lia. rewrite map_map. reflexivity.
Qed.
Lemma matching_of K n logged cl st : wf_clusters K n cl -> mstate_of K n st logged ->
  exists p, best_label K n logged cl p /\
    (forall A (d : A) l, length l = K -> apply_perm d (fst (matching cl st)) l = reorder d p l) /\
    mstate_of K n (snd (matching cl st)) (logged ++ [reorder [] p cl]).
Proof.
  intros Hw Hst. unfold mstate_of, matching in *. assert (HB := best_is_label logged Hw).
  destruct (ms_match st) eqn:Em.
  - rewrite Hst. exists (get_best_permutation cl (table K n logged)). conj; auto.
    cbn [snd ms_match ms_sum]. change (permute [] ?p cl) with (reorder [] p cl).
    apply table_snoc. apply reorder_wf; auto. apply HB.
  - exists (get_best_permutation cl (table K n logged)). cbn [fst snd]. rewrite Em. conj; auto.
    intros A d l Hl. simpl. rewrite (perm_1 Hst (proj1 HB)), reorder_id; auto.
Qed.

(** * Log files *)
Section Files.
Variables State Sample Chunk : Type.
Variable header row : Sample -> State -> State * list Chunk.
Notation lg := (logger State Chunk).
Lemma writes_open : forall ss (l : lg) d, lg_open l = true -> lg_disk l = Some d ->
  exists out l', run_log header row (map Write ss) l = Some l' /\ records row (lg_state l) ss out /\
    lg_open l' = true /\ lg_disk l' = Some (d ++ concat out).
Proof.
  induction ss as [|s ss IH]; intros l d Ho Hd.
  - exists [], l. simpl. rewrite app_nil_r. conj; auto. constructor.
  - simpl. set (l1 := write_sample header row s l).
    assert (Hs : lg_open l1 = true /\ lg_disk l1 = Some (d ++ snd (row s (lg_state l))) /\ lg_state l1 = fst (row s (lg_state l))).
    { unfold l1, write_sample. rewrite Ho. unfold append. simpl. rewrite Hd. auto. }
    destruct Hs as (Ho1 & Hd1 & Hs1). destruct (IH l1 _ Ho1 Hd1) as (out & l' & Hr & Hrec & Ho' & Hd').
    exists (snd (row s (lg_state l)) :: out), l'. conj; auto.
    + constructor. rewrite <- Hs1. exact Hrec.
    + rewrite Hd'. simpl. rewrite app_assoc. reflexivity.
Qed.
Lemma writes_closed s ss (l : lg) : lg_open l = false ->
  exists content l', run_log header row (map Write (s :: ss)) l = Some l' /\ good_file header row (lg_state l) s ss content /\
    lg_open l' = true /\ lg_disk l' = Some content.
Proof.
  intros Ho. set (l0 := append (header s (lg_state l)) (open_file l)).
  assert (Ho0 : lg_open l0 = true) by reflexivity.
  assert (Hd0 : lg_disk l0 = Some (snd (header s (lg_state l)))) by reflexivity.
  destruct (writes_open (s :: ss) Ho0 Hd0) as (out & l' & Hr & Hrec & Ho' & Hd').
  exists (snd (header s (lg_state l)) ++ concat out), l'. conj; auto.
  - cbn [map run_log] in *. rewrite <- Hr. f_equal. unfold write_sample. rewrite Ho. reflexivity.
  - exists out. split; auto.
Qed.
Lemma run_app a b (l : lg) : run_log header row (a ++ b) l =
  match run_log header row a l with None => None | Some l => run_log header row b l end.
Proof.
  revert l; induction a as [|[s|] a IH]; intros l; simpl; auto.
  destruct (close l); auto.
Qed.
End Files.

(** * The two log files use the same labels *)
Definition clusters_line (s : lsample) : str := format_cluster_columns (ls_clusters s) ++ [newline].
Lemma clusters_records K n : forall ss st logged out,
  Forall (wf_sample K n) ss -> mstate_of K n st logged -> records clusters_row st ss out ->
  exists ps, labelled K n logged (map ls_clusters ss) ps /\ concat out = map2 (fun p s => clusters_line (renumber p s)) ps ss.
Proof.
  induction ss as [|s ss IH]; intros st logged out Hw Hst Hr; inversion Hr; subst; clear Hr.
  - exists []. simpl. split; [constructor|reflexivity].
  - inversion Hw as [|? ? Hs Hw']; subst. destruct Hs as (Hcl & Hce).
    destruct (matching_of Hcl Hst) as (p & HB & Hap & Hst').
    match goal with H : records _ _ ss _ |- _ => rename H into Hr end.
    unfold clusters_row in *. destruct (matching (ls_clusters s) st) as (po & st') eqn:Em. cbn [fst snd] in *.
    destruct (IH _ _ _ Hw' Hst' Hr) as (ps & HL & Ho).
    exists (p :: ps). split; [constructor; auto|].
    simpl. rewrite Ho. f_equal. unfold clusters_line. simpl. rewrite Hap; auto. apply Hcl.
Qed.
Section Both.
Variable d : names.
Variable single_lh single_prior : list (list Q) -> list (list effect) -> list bool -> effect -> Q.
Variable fmt : Q -> str.
(** The line for a sample whose clusters are not renumbered. *)
Definition params_line (cols : list str) (s : lsample) : str :=
  join [tab] (map (fun c => match dict_get (row_items d single_lh single_prior s (ls_clusters s) (ls_ce s)) c with Some q => fmt q | None => [] end) cols) ++ [newline].
Lemma params_records K n cols : forall ss st mst logged outp outc,
  Forall (wf_sample K n) ss -> ps_matching st = mst -> ps_columns st = cols -> mstate_of K n mst logged ->
  records (params_row d single_lh single_prior fmt) st ss outp -> records clusters_row mst ss outc ->
  exists ps, labelled K n logged (map ls_clusters ss) ps /\
    concat outc = map2 (fun p s => clusters_line (renumber p s)) ps ss /\
    concat outp = map2 (fun p s => params_line cols (renumber p s)) ps ss.
Proof.
  induction ss as [|s ss IH]; intros st mst logged outp outc Hw Em Ec Hst Hr Hr'; inversion Hr; inversion Hr'; subst; clear Hr Hr'.
  - exists []. simpl. conj; auto. constructor.
  - inversion Hw as [|? ? Hs Hw']; subst. destruct Hs as (Hcl & Hce).
    destruct (matching_of Hcl Hst) as (p & HB & Hap & Hst').
    match goal with H : records (params_row _ _ _ _) _ ss _ |- _ => rename H into Hrp end.
    match goal with H : records clusters_row _ ss _ |- _ => rename H into Hrc end.
    assert (Ecr : clusters_row s (ps_matching st) = (snd (matching (ls_clusters s) (ps_matching st)), [clusters_line (renumber p s)])).
    { unfold clusters_row, clusters_line. simpl. rewrite <- Hap by apply Hcl.
      destruct (matching (ls_clusters s) (ps_matching st)); reflexivity. }
    assert (Epr : snd (params_row d single_lh single_prior fmt s st) = [params_line (ps_columns st) (renumber p s)]).
    { unfold params_row, params_line, row_values. cbn [snd]. rewrite map_map. f_equal. f_equal. f_equal.
      apply map_ext. intros c. rewrite (Hap _ [] (ls_clusters s)) by apply Hcl. rewrite (Hap _ [] (ls_ce s)) by exact Hce.
      replace (row_items d single_lh single_prior (renumber p s) (ls_clusters (renumber p s)) (ls_ce (renumber p s)))
        with (row_items d single_lh single_prior s (reorder [] p (ls_clusters s)) (reorder [] p (ls_ce s))); [reflexivity|].
      unfold row_items. cbn [renumber ls_step ls_lh ls_prior ls_clusters ls_weights ls_ce ls_cf].
      replace (length (reorder [] p (ls_clusters s))) with (length (ls_clusters s)); [reflexivity|].
      unfold reorder. rewrite map_length, (perm_length (proj1 HB)). apply Hcl. }
    rewrite Ecr in *. cbn [fst snd] in *.
    destruct (IH (fst (params_row d single_lh single_prior fmt s st)) (snd (matching (ls_clusters s) (ps_matching st))) _ _ _ Hw' eq_refl eq_refl Hst' Hrp Hrc) as (ps & HL & Ho & Ho').
    exists (p :: ps). conj; [constructor; auto| |].
    + simpl. rewrite Ho. reflexivity.
    + rewrite Epr. simpl. rewrite Ho'. reflexivity.
Qed.
End Both.

(** * Reading the clusters file *)
Lemma all_opt_map A B (f : A -> option B) (g : A -> B) l : (forall x, In x l -> f x = Some (g x)) -> all_opt (map f l) = Some (map g l).
Proof.
  induction l as [|x l IH]; intros H; simpl; auto.
  rewrite H by (left; auto). rewrite IH; auto. intros y Hy. apply H. right; auto.
Qed.
Lemma decode_encode c : decode_cluster (encode_cluster c) = Some c.
Proof.
  unfold decode_cluster, encode_cluster. rewrite map_map. rewrite (@all_opt_map _ _ _ (fun b => b)); [rewrite map_id; reflexivity|].
  intros [|] _; reflexivity.
Qed.
Lemma encode_chars c a : In a (encode_cluster c) -> a <> tab /\ a <> newline.
Proof. unfold encode_cluster. rewrite in_map_iff. intros ([|] & <- & _); split; discriminate. Qed.
Lemma parse_format cl : cl <> [] -> parse_cluster_columns (format_cluster_columns cl) = Some cl.
Proof.
  intros H. unfold parse_cluster_columns, format_cluster_columns.
  rewrite split_join.
  - rewrite map_map. rewrite (@all_opt_map _ _ _ (fun c => c)); [rewrite map_id; reflexivity|]. intros c _. apply decode_encode.
  - destruct cl; [congruence|discriminate].
  - intros a Ha. apply in_map_iff in Ha. destruct Ha as (c & <- & _). intros Hin. apply encode_chars in Hin. destruct Hin; congruence.
Qed.
Lemma format_no_newline cl : ~ In newline (format_cluster_columns cl).
Proof.
  apply not_in_join; [intros [H|[]]; discriminate|].
  intros a Ha. apply in_map_iff in Ha. destruct Ha as (c & <- & _). intros Hin. apply encode_chars in Hin. destruct Hin; congruence.
Qed.
Lemma format_not_nil K n cl : wf_clusters K n cl -> 1 <= K -> 1 <= n -> format_cluster_columns cl <> [].
Proof.
  intros Hw HK Hn. assert (HL := proj1 Hw). destruct cl as [|c cl]; [simpl in HL; lia|].
  assert (Hc : length c = n) by (apply (@wf_row K n (c :: cl) 0 Hw); lia).
  destruct c as [|b c]; [simpl in Hc; lia|].
  unfold format_cluster_columns. simpl. destruct (map encode_cluster cl); discriminate.
Qed.
(** Transposition: clusters x samples. *)
Definition by_cluster (K : nat) (l : list bmat) : list bmat := map (fun i => map (fun cl => nth i cl []) l) (seq 0 K).
Lemma append_columns_tab K : forall (acc : list bmat) cl, length acc = K -> length cl = K ->
  append_columns acc cl = Some (map2 (fun a r => a ++ [r]) acc cl).
Proof.
  induction K as [|K IH]; intros [|a acc] [|r cl] Ha Hc; simpl in *; try lia; auto.
  rewrite IH by lia. reflexivity.
Qed.
Lemma by_cluster_snoc K l cl : length cl = K -> map2 (fun a r => a ++ [r]) (by_cluster K l) cl = by_cluster K (l ++ [cl]).
Proof.
  intros H. rewrite (list_tab [] H). unfold by_cluster. rewrite map2_map. rewrite <- (list_tab [] H). apply map_ext. intros i.
  rewrite map_app. reflexivity.
Qed.
Lemma read_lines_spec K n : 1 <= K -> 1 <= n -> forall l acc, Forall (wf_clusters K n) l ->
  read_lines (map format_cluster_columns l ++ [[]]) (by_cluster K acc) = Some (by_cluster K (acc ++ l)).
Proof.
  intros HK Hn. induction l as [|cl l IH]; intros acc Hw; simpl.
  - rewrite app_nil_r. reflexivity.
  - inversion Hw as [|? ? Hcl Hw']; subst.
    assert (Hne : format_cluster_columns cl <> []) by (eapply format_not_nil; eauto).
    assert (Hpar : parse_cluster_columns (format_cluster_columns cl) = Some cl).
    { apply parse_format. intros ->. destruct Hcl as (Hcl & _). simpl in Hcl. lia. }
    destruct (format_cluster_columns cl) eqn:E; [congruence|]. rewrite Hpar.
    rewrite (@append_columns_tab K); [|unfold by_cluster; rewrite map_length, seq_length; auto|apply Hcl].
    rewrite by_cluster_snoc by apply Hcl. rewrite IH; auto. rewrite <- app_assoc. reflexivity.
Qed.
Lemma read_clusters_spec K n l : 1 <= K -> 1 <= n -> l <> [] -> Forall (wf_clusters K n) l ->
  read_clusters (concat (map (fun cl => format_cluster_columns cl ++ [newline]) l)) = Some (by_cluster K l).
Proof.
  intros HK Hn Hne Hw.
  assert (Hsp : split newline (concat (map (fun cl => format_cluster_columns cl ++ [newline]) l)) = map format_cluster_columns l ++ [[]]).
  { replace (map (fun cl => format_cluster_columns cl ++ [newline]) l) with (map (fun r => r ++ [newline]) (map format_cluster_columns l)) by (rewrite map_map; reflexivity).
    apply split_lines. intros a Ha. apply in_map_iff in Ha. destruct Ha as (c & <- & _). apply format_no_newline. }
  unfold read_clusters. rewrite Hsp. destruct l as [|c l]; [congruence|].
  assert (HF : wf_clusters K n c) by (inversion Hw; auto).
  replace (length (split tab (hd [] (map format_cluster_columns (c :: l) ++ [[]])))) with K.
  - assert (E : by_cluster K [] = repeat [] K).
    { unfold by_cluster. simpl. clear. generalize 0. induction K as [|K IH]; intros k; simpl; auto. f_equal. apply IH. }
    etransitivity; [apply f_equal; symmetry; exact E|]. apply (@read_lines_spec K n HK Hn (c :: l) []). exact Hw.
  - simpl. unfold format_cluster_columns. rewrite split_join.
    + rewrite map_length. symmetry. apply HF.
    + destruct HF as (HF & _). destruct c; [simpl in HF; lia|discriminate].
    + intros a Ha. apply in_map_iff in Ha. destruct Ha as (b & <- & _). intros Hin. apply encode_chars in Hin. destruct Hin; congruence.
Qed.

Lemma no_smaller n : forall k p, Permutation p (seq k n) -> ~ lex_lt p (seq k n).
Proof.
  induction n as [|n IH]; intros k p HP HL; simpl in *; inversion HL; subst.
  - assert (Hin : In a (k :: seq (S k) n)) by (eapply Permutation_in; [exact HP|left; auto]).
    destruct Hin as [->|Hin]; [lia|]. apply in_seq in Hin. lia.
  - apply Permutation_cons_inv in HP. eapply IH; eauto.
Qed.
Lemma list_sum_0 A (f : A -> nat) l : (forall x, In x l -> f x = 0) -> list_sum (map f l) = 0.
Proof. induction l as [|x l IH]; intros H; auto. cbn [map list_sum fold_right] in *. rewrite (H x) by (left; auto). apply IH. intros; apply H; right; auto. Qed.
Lemma first_identity K n cl p : best_label K n [] cl p -> p = seq 0 K.
Proof.
  intros (Hp & Hmax). assert (H0 : forall q, spec_agreement K n [] cl q = 0).
  { intros q. apply list_sum_0. intros i _. apply list_sum_0. intros j _. destruct (bit _ _ _); reflexivity. }
  destruct (Hmax (seq 0 K) (Permutation_refl _)) as [H|(_ & [H|H])].
  - rewrite !H0 in H. lia.
  - auto.
  - exfalso. eapply no_smaller; eauto.
Qed.
Lemma best_unique K n logged cl p q : best_label K n logged cl p -> best_label K n logged cl q -> p = q.
Proof.
  intros (Hp & Hpm) (Hq & Hqm).
  destruct (Hpm q Hq) as [H|(E & [H|H])]; destruct (Hqm p Hp) as [H'|(E' & [H'|H'])]; auto; try lia.
  exfalso. clear -H H'. revert q H H'. induction p as [|a p IH]; intros q H H'; inversion H; subst; inversion H'; subst; try lia. eauto.
Qed.
Lemma labelled_length K n : forall cls logged ps, labelled K n logged cls ps -> length ps = length cls.
Proof. induction 1; simpl; auto. Qed.
Lemma by_cluster_nth K l i : i < K -> nth i (by_cluster K l) [] = map (fun cl => nth i cl []) l.
Proof.
  intros Hi. unfold by_cluster.
  rewrite (nth_indep _ [] ((fun i => map (fun cl : bmat => nth i cl []) l) 0)) by (rewrite map_length, seq_length; auto).
  rewrite (map_nth (fun i => map (fun cl : bmat => nth i cl []) l)), seq_nth by auto. reflexivity.
Qed.
