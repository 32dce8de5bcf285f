(** Proofs for C01, C02, C05: the heap semantics of [M_state] refines the deep-copy semantics of
    [S_state]. *)
From Verif Require Import Base M_state S_state.

Set Implicit Arguments.

Section Refine.
Variable A : Type.
Implicit Types (w : world A) (p q : param).

Definition view w (i : nat) : option (pval A) :=
  match nth_error (params w) i with
  | None => None
  | Some p => Some {| v_value := read_value w p; v_version := p_version p; v_gv := read_gv w p |}
  end.

Definition viewV w i := option_map (fun x => (v_value x, v_version x)) (view w i).

Definition inrange w := forall i p, nth_error (params w) i = Some p ->
  p_ref p < length (arrs w) /\ p_gref p < length (gvs w).
Definition exclV w := forall i j p q, i <> j -> nth_error (params w) i = Some p ->
  nth_error (params w) j = Some q -> p_shared p = false -> p_ref p <> p_ref q.
Definition exclG w := forall i j p q, i <> j -> nth_error (params w) i = Some p ->
  nth_error (params w) j = Some q -> p_shared p = false -> p_gref p <> p_gref q.

Lemma nth_app_lt (B : Type) (l r : list B) i d : i < length l -> nth i (l ++ r) d = nth i l d.
Proof. intros; apply app_nth1; auto. Qed.

Lemma nth_last (B : Type) (l : list B) x d : nth (length l) (l ++ [x]) d = x.
Proof. rewrite app_nth2, Nat.sub_diag; auto. Qed.

Lemma nth_upd_same (B : Type) (f : B -> B) l i d : i < length l -> nth i (upd i f l) d = f (nth i l d).
Proof.
  revert i; induction l as [|x r IH]; intros [|i] H; simpl in *; auto; try lia.
  apply IH; lia.
Qed.

Lemma nth_upd_other (B : Type) (f : B -> B) l i j d : i <> j -> nth j (upd i f l) d = nth j l d.
Proof.
  revert i j; induction l as [|x r IH]; intros [|i] [|j] H; simpl in *; auto; try congruence.
Qed.

(** ** resolve_if_shared *)

Lemma resolve_params w i p : nth_error (params w) i = Some p ->
  exists p', nth_error (params (resolve_if_shared w i p)) i = Some p' /\
             p_shared p' = false /\ p_version p' = p_version p /\
             read_value (resolve_if_shared w i p) p' = read_value w p /\
             read_gv (resolve_if_shared w i p) p' = read_gv w p.
Proof.
  intros H. unfold resolve_if_shared. destruct (p_shared p) eqn:E.
  - eexists; split; [|split; [|split; [|split]]].
    + simpl. rewrite nth_error_upd_same, H. reflexivity.
    + reflexivity.
    + reflexivity.
    + unfold read_value; simpl. apply nth_last.
    + unfold read_gv; simpl. apply nth_last.
  - exists p; auto.
Qed.

Lemma resolve_view w i p : nth_error (params w) i = Some p -> inrange w ->
  forall j, view (resolve_if_shared w i p) j = view w j.
Proof.
  intros H R j. unfold resolve_if_shared. destruct (p_shared p) eqn:E; [|reflexivity].
  unfold view; simpl. rewrite nth_error_upd.
  destruct (Nat.eqb_spec i j) as [<-|n].
  - rewrite H; simpl. unfold read_value, read_gv; simpl. rewrite !nth_last; reflexivity.
  - destruct (nth_error (params w) j) as [q|] eqn:Q; [|reflexivity].
    destruct (R _ _ Q). unfold read_value, read_gv; simpl. rewrite !nth_app_lt; auto.
Qed.

Lemma resolve_inrange w i p : nth_error (params w) i = Some p -> inrange w ->
  inrange (resolve_if_shared w i p).
Proof.
  intros H R. unfold resolve_if_shared. destruct (p_shared p) eqn:E; [|exact R].
  intros j q. simpl. rewrite !app_length, nth_error_upd; simpl.
  destruct (Nat.eqb_spec i j) as [<-|n].
  - rewrite H; simpl. intros [= <-]; simpl; lia.
  - intros Q; destruct (R _ _ Q); lia.
Qed.

Lemma resolve_exclV w i p : nth_error (params w) i = Some p -> inrange w -> exclV w ->
  exclV (resolve_if_shared w i p).
Proof.
  intros H R X. unfold resolve_if_shared. destruct (p_shared p) eqn:E; [|exact X].
  intros j k q r n. simpl. rewrite !nth_error_upd.
  destruct (Nat.eqb_spec i j) as [<-|nj]; destruct (Nat.eqb_spec i k) as [<-|nk]; try congruence.
  - rewrite H; simpl. intros [= <-] K _; simpl. destruct (R _ _ K); lia.
  - rewrite H; simpl. intros J [= <-] _; simpl. destruct (R _ _ J); lia.
  - intros J K S; eapply (X j k); eauto.
Qed.

Lemma resolve_exclG w i p : nth_error (params w) i = Some p -> inrange w -> exclG w ->
  exclG (resolve_if_shared w i p).
Proof.
  intros H R X. unfold resolve_if_shared. destruct (p_shared p) eqn:E; [|exact X].
  intros j k q r n. simpl. rewrite !nth_error_upd.
  destruct (Nat.eqb_spec i j) as [<-|nj]; destruct (Nat.eqb_spec i k) as [<-|nk]; try congruence.
  - rewrite H; simpl. intros [= <-] K _; simpl. destruct (R _ _ K); lia.
  - rewrite H; simpl. intros J [= <-] _; simpl. destruct (R _ _ J); lia.
  - intros J K S; eapply (X j k); eauto.
Qed.

(** ** write_value, bump, write_gv *)

Lemma write_value_view w i p f : nth_error (params w) i = Some p -> p_shared p = false ->
  inrange w -> exclV w ->
  forall j, view (write_value w i f) j =
    if i =? j then option_map (fun x => {| v_value := f (v_value x); v_version := v_version x;
                                           v_gv := v_gv x |}) (view w j)
    else view w j.
Proof.
  intros H S R X j. unfold write_value; rewrite H. unfold view; simpl.
  destruct (Nat.eqb_spec i j) as [<-|n].
  - rewrite H; simpl. unfold read_value, read_gv; simpl.
    rewrite nth_upd_same; [reflexivity | apply (R _ _ H)].
  - destruct (nth_error (params w) j) as [q|] eqn:Q; [|reflexivity].
    unfold read_value, read_gv; simpl. rewrite nth_upd_other; [reflexivity|].
    eapply (X i j); eauto.
Qed.

Lemma write_value_params w i f : params (write_value w i f) = params w.
Proof. unfold write_value; destruct (nth_error (params w) i); reflexivity. Qed.

Lemma write_value_inrange w i f : inrange w -> inrange (write_value w i f).
Proof.
  intros R j q; rewrite write_value_params; intros Q; specialize (R _ _ Q).
  unfold write_value. destruct (nth_error (params w) i); simpl; rewrite ?upd_length; exact R.
Qed.

Lemma exclV_params w w' : params w' = params w -> exclV w -> exclV w'.
Proof. unfold exclV; intros ->; auto. Qed.
Lemma exclG_params w w' : params w' = params w -> exclG w -> exclG w'.
Proof. unfold exclG; intros ->; auto. Qed.

Lemma bump_view w i : forall j, view (set_param w i bump) j =
    if i =? j then option_map (fun x => {| v_value := v_value x; v_version := v_version x + 1;
                                           v_gv := v_gv x |}%Z) (view w j)
    else view w j.
Proof.
  intros j. unfold view, set_param; simpl. rewrite nth_error_upd.
  destruct (Nat.eqb_spec i j) as [<-|n]; destruct (nth_error (params w) _); reflexivity.
Qed.

Lemma bump_nth w i j p : nth_error (params (set_param w i bump)) j = Some p ->
  exists q, nth_error (params w) j = Some q /\ p_ref q = p_ref p /\ p_gref q = p_gref p /\
            p_shared q = p_shared p.
Proof.
  simpl. rewrite nth_error_upd. destruct (Nat.eqb_spec i j) as [<-|n].
  - destruct (nth_error (params w) i) as [q|]; simpl; intros [= <-]; exists q; auto.
  - intros H; exists p; auto.
Qed.

Lemma bump_inrange w i : inrange w -> inrange (set_param w i bump).
Proof.
  intros R j q Q. apply bump_nth in Q as (q' & Q & E1 & E2 & _).
  destruct (R _ _ Q). simpl. rewrite <- E1, <- E2; auto.
Qed.

Lemma bump_exclV w i : exclV w -> exclV (set_param w i bump).
Proof.
  intros X j k q r n J K S.
  apply bump_nth in J as (q' & J & E1 & _ & E3); apply bump_nth in K as (r' & K & F1 & _ & _).
  rewrite <- E1, <- F1. eapply (X j k); eauto; congruence.
Qed.

Lemma bump_exclG w i : exclG w -> exclG (set_param w i bump).
Proof.
  intros X j k q r n J K S.
  apply bump_nth in J as (q' & J & _ & E2 & E3); apply bump_nth in K as (r' & K & _ & F2 & _).
  rewrite <- E2, <- F2. eapply (X j k); eauto; congruence.
Qed.

Lemma write_gv_params w i g : params (write_gv w i g) = params w.
Proof. unfold write_gv; destruct (nth_error (params w) i); reflexivity. Qed.

Lemma write_gv_inrange w i g : inrange w -> inrange (write_gv w i g).
Proof.
  intros R j q; rewrite write_gv_params; intros Q; specialize (R _ _ Q).
  unfold write_gv. destruct (nth_error (params w) i); simpl; rewrite ?upd_length; exact R.
Qed.

Lemma write_gv_viewV w i g j : viewV (write_gv w i g) j = viewV w j.
Proof.
  unfold viewV, view. rewrite write_gv_params.
  destruct (nth_error (params w) j) as [q|]; [|reflexivity]. simpl.
  unfold write_gv; destruct (nth_error (params w) i); reflexivity.
Qed.

Lemma write_gv_view w i g p : nth_error (params w) i = Some p -> p_shared p = false ->
  inrange w -> exclG w ->
  forall j, view (write_gv w i g) j =
    if i =? j then option_map (fun x => {| v_value := v_value x; v_version := v_version x;
                                           v_gv := upd g (fun _ => v_version x) (v_gv x) |}) (view w j)
    else view w j.
Proof.
  intros H S R X j. unfold write_gv; rewrite H. unfold view; simpl.
  destruct (Nat.eqb_spec i j) as [<-|n].
  - rewrite H; simpl. unfold read_value, read_gv; simpl.
    rewrite nth_upd_same; [reflexivity | apply (R _ _ H)].
  - destruct (nth_error (params w) j) as [q|] eqn:Q; [|reflexivity].
    unfold read_value, read_gv; simpl. rewrite nth_upd_other; [reflexivity|].
    eapply (X i j); eauto.
Qed.

(** ** all operations on one parameter *)

Definition is_sv (o : pop A) : bool := match o with SetValue _ => true | _ => false end.

Definition spec_popV (o : pop A) (x : list A * Z) : list A * Z :=
  let y := spec_pop o {| v_value := fst x; v_version := snd x; v_gv := [] |} in
  (v_value y, v_version y).

Lemma spec_popV_proj o x : (v_value (spec_pop o x), v_version (spec_pop o x))
                         = spec_popV o (v_value x, v_version x).
Proof. unfold spec_popV; destruct o; simpl; try reflexivity; destruct (_ <? _); reflexivity. Qed.

Lemma viewV_of_view w w' i o :
  (forall j, view w' j = if i =? j then option_map (spec_pop o) (view w j) else view w j) ->
  forall j, viewV w' j = if i =? j then option_map (spec_popV o) (viewV w j) else viewV w j.
Proof.
  intros H j. unfold viewV. rewrite H. destruct (i =? j); [|reflexivity].
  destruct (view w j) as [x|]; simpl; [|reflexivity]. rewrite spec_popV_proj; reflexivity.
Qed.

Lemma set_value_view w i v : inrange w -> forall j,
  viewV (do_set_value w i v) j =
    if i =? j then option_map (spec_popV (SetValue v)) (viewV w j) else viewV w j.
Proof.
  intros R j. unfold viewV, view, do_set_value; simpl. rewrite nth_error_upd.
  destruct (Nat.eqb_spec i j) as [<-|n].
  - destruct (nth_error (params w) i); simpl; [|reflexivity].
    unfold read_value, spec_popV; simpl. rewrite nth_last; reflexivity.
  - destruct (nth_error (params w) j) as [q|] eqn:Q; simpl; [|reflexivity].
    destruct (R _ _ Q). unfold read_value; simpl. rewrite nth_app_lt; auto.
Qed.

Lemma set_value_inrange w i v : inrange w -> inrange (do_set_value w i v).
Proof.
  intros R j q. simpl. rewrite app_length, nth_error_upd; simpl.
  destruct (Nat.eqb_spec i j) as [<-|n].
  - destruct (nth_error (params w) i) as [p|] eqn:P; simpl; [|discriminate].
    intros [= <-]; simpl. destruct (R _ _ P); lia.
  - intros Q; destruct (R _ _ Q); lia.
Qed.

Lemma set_value_exclV w i v : inrange w -> exclV w -> exclV (do_set_value w i v).
Proof.
  intros R X j k q r n. simpl. rewrite !nth_error_upd.
  destruct (Nat.eqb_spec i j) as [<-|nj]; destruct (Nat.eqb_spec i k) as [<-|nk]; try congruence.
  - destruct (nth_error (params w) i) as [p|] eqn:P; simpl; [|discriminate].
    intros [= <-] K _; simpl. destruct (R _ _ K); lia.
  - destruct (nth_error (params w) i) as [p|] eqn:P; simpl; [|discriminate].
    intros J [= <-] _; simpl. destruct (R _ _ J); lia.
  - intros J K S; eapply (X j k); eauto.
Qed.

(** Facts about an edit of the whole array. *)
Lemma abort_edit_facts w i p f : nth_error (params w) i = Some p -> inrange w -> exclV w ->
  inrange (do_abort_edit w i p f) /\ exclV (do_abort_edit w i p f) /\
  (exclG w -> exclG (do_abort_edit w i p f)) /\
  (forall j, view (do_abort_edit w i p f) j =
     if i =? j then option_map (fun x => {| v_value := f (v_value x); v_version := v_version x;
                                            v_gv := v_gv x |}) (view w j) else view w j) /\
  exists p', nth_error (params (do_abort_edit w i p f)) i = Some p' /\ p_shared p' = false.
Proof.
  intros H R X. unfold do_abort_edit.
  destruct (resolve_params w i H) as (p' & H' & S' & _).
  assert (R' := resolve_inrange _ H R). assert (X' := resolve_exclV _ H R X).
  split; [|split; [|split; [|split]]].
  - apply write_value_inrange; auto.
  - eapply exclV_params; [apply write_value_params|auto].
  - intros G. eapply exclG_params; [apply write_value_params|]. apply resolve_exclG; auto.
  - intros j. rewrite (@write_value_view _ _ _ f H' S' R' X'), !resolve_view; auto.
  - exists p'. rewrite write_value_params; auto.
Qed.

Lemma edit_facts w i p f : nth_error (params w) i = Some p -> inrange w -> exclV w ->
  inrange (do_edit w i p f) /\ exclV (do_edit w i p f) /\
  (exclG w -> exclG (do_edit w i p f)) /\
  (forall j, view (do_edit w i p f) j =
     if i =? j then option_map (fun x => {| v_value := f (v_value x); v_version := v_version x + 1;
                                            v_gv := v_gv x |}%Z) (view w j) else view w j) /\
  exists p', nth_error (params (do_edit w i p f)) i = Some p' /\ p_shared p' = false.
Proof.
  intros H R X. change (do_edit w i p f) with (set_param (do_abort_edit w i p f) i bump).
  destruct (@abort_edit_facts w i p f H R X) as (R' & X' & G' & V' & p' & H' & S').
  split; [|split; [|split; [|split]]].
  - apply bump_inrange; auto.
  - apply bump_exclV; auto.
  - intros G; apply bump_exclG; auto.
  - intros j. rewrite bump_view, V'. destruct (i =? j); [|reflexivity].
    destruct (view w j); reflexivity.
  - exists (bump p'); simpl. rewrite nth_error_upd_same, H'; auto.
Qed.

Lemma view_at w i p : nth_error (params w) i = Some p ->
  view w i = Some {| v_value := read_value w p; v_version := p_version p; v_gv := read_gv w p |}.
Proof. unfold view; intros ->; reflexivity. Qed.

Lemma if_view w i (F G : pval A -> pval A) p j :
  nth_error (params w) i = Some p ->
  (forall x, view w i = Some x -> F x = G x) ->
  (if i =? j then option_map F (view w j) else view w j) =
  (if i =? j then option_map G (view w j) else view w j).
Proof.
  intros H E. destruct (Nat.eqb_spec i j) as [<-|]; [|reflexivity].
  destruct (view w i) as [x|] eqn:V; simpl; [|reflexivity]. rewrite E; auto.
Qed.

Lemma if_view_id w i (F : pval A -> pval A) p j :
  nth_error (params w) i = Some p ->
  (forall x, view w i = Some x -> F x = x) ->
  view w j = (if i =? j then option_map F (view w j) else view w j).
Proof.
  intros H E. destruct (Nat.eqb_spec i j) as [<-|]; [|reflexivity].
  destruct (view w i) as [x|] eqn:V; simpl; [|reflexivity]. rewrite E; auto.
Qed.

Lemma write_gv_write w i g p : nth_error (params w) i = Some p ->
  nth_error (params (write_gv w i g)) i = Some p.
Proof. rewrite write_gv_params; auto. Qed.

Lemma edit_group_facts w i p g f : nth_error (params w) i = Some p -> inrange w -> exclV w ->
  inrange (do_edit_group w i p g f) /\ exclV (do_edit_group w i p g f) /\
  (exclG w -> exclG (do_edit_group w i p g f)) /\
  (forall j, viewV (do_edit_group w i p g f) j =
     if i =? j then option_map (spec_popV (EditGroup g f)) (viewV w j) else viewV w j) /\
  (exclG w -> forall j, view (do_edit_group w i p g f) j =
     if i =? j then option_map (spec_pop (EditGroup g f)) (view w j) else view w j).
Proof.
  intros H R X. unfold do_edit_group.
  destruct (Nat.ltb_spec g (length (read_value w p))) as [L|L].
  - change (set_param (write_value (resolve_if_shared w i p) i (upd g f)) i bump)
      with (do_edit w i p (upd g f)).
    destruct (@edit_facts w i p (upd g f) H R X) as (R' & X' & G' & V' & p' & H' & S').
    assert (E : forall x, view w i = Some x -> (g <? length (v_value x)) = true).
    { intros x V. rewrite (view_at _ _ H) in V. injection V as <-; simpl. apply Nat.ltb_lt; auto. }
    split; [|split; [|split; [|split]]].
    + apply write_gv_inrange; auto.
    + eapply exclV_params; [apply write_gv_params|auto].
    + intros G. eapply exclG_params; [apply write_gv_params|auto].
    + intros j. rewrite write_gv_viewV. unfold viewV. rewrite V'.
      destruct (Nat.eqb_spec i j) as [<-|]; [|reflexivity].
      destruct (view w i) as [x|] eqn:V; simpl; [|reflexivity].
      unfold spec_popV; simpl. rewrite E; reflexivity.
    + intros G j. rewrite (@write_gv_view _ i g p' H' S' R' (G' G)), V'.
      destruct (Nat.eqb_spec i j) as [<-|]; [|reflexivity].
      destruct (view w i) as [x|] eqn:V; simpl; [|reflexivity]. rewrite E; reflexivity.
  - assert (E : forall x, view w i = Some x -> spec_pop (EditGroup g f) x = x).
    { intros x V. rewrite (view_at _ _ H) in V. injection V as <-; simpl.
      destruct (Nat.ltb_spec g (length (read_value w p))); [lia|reflexivity]. }
    assert (W : forall j, view (resolve_if_shared w i p) j =
      if i =? j then option_map (spec_pop (EditGroup g f)) (view w j) else view w j).
    { intros j. rewrite resolve_view; auto. eapply if_view_id; eauto. }
    split; [|split; [|split; [|split]]].
    + apply resolve_inrange; auto.
    + apply resolve_exclV; auto.
    + apply resolve_exclG; auto.
    + apply viewV_of_view; auto.
    + auto.
Qed.

Lemma raw_assign_facts w i v : inrange w -> exclV w ->
  inrange (do_raw_assign w i v) /\ exclV (do_raw_assign w i v) /\
  (exclG w -> exclG (do_raw_assign w i v)) /\
  (forall j, view (do_raw_assign w i v) j =
     if i =? j then option_map (spec_pop (RawAssign v)) (view w j) else view w j).
Proof.
  intros R X. split; [|split; [|split]].
  - intros j q; simpl. rewrite app_length, nth_error_upd; simpl.
    destruct (Nat.eqb_spec i j) as [<-|n].
    + destruct (nth_error (params w) i) as [p|] eqn:Q; simpl; [|discriminate]. intros [= <-]; simpl.
      destruct (R _ _ Q); lia.
    + intros Q; destruct (R _ _ Q); lia.
  - intros j k q r n; simpl. rewrite !nth_error_upd.
    destruct (Nat.eqb_spec i j) as [<-|nj]; destruct (Nat.eqb_spec i k) as [<-|nk]; try congruence.
    + destruct (nth_error (params w) i); simpl; [|discriminate]. intros [= <-] K _; simpl. destruct (R _ _ K); lia.
    + destruct (nth_error (params w) i); simpl; [|discriminate]. intros J [= <-] _; simpl. destruct (R _ _ J); lia.
    + intros J K S; eapply (X j k); eauto.
  - intros G j k q r n; simpl. rewrite !nth_error_upd.
    destruct (Nat.eqb_spec i j) as [<-|nj]; destruct (Nat.eqb_spec i k) as [<-|nk]; try congruence.
    + destruct (nth_error (params w) i) as [p|] eqn:P; simpl; [|discriminate]. intros [= <-] K; simpl. intros S.
      eapply (G i k); eauto.
    + destruct (nth_error (params w) i) as [p|] eqn:P; simpl; [|discriminate]. intros J [= <-] S; simpl.
      eapply (G j i); eauto.
    + intros J K S; eapply (G j k); eauto.
  - intros j. unfold view; simpl. rewrite nth_error_upd.
    destruct (Nat.eqb_spec i j) as [<-|n].
    + destruct (nth_error (params w) i) as [p|]; simpl; [|reflexivity].
      unfold read_value, read_gv; simpl. rewrite nth_last; reflexivity.
    + destruct (nth_error (params w) j) as [q|] eqn:Q; [|reflexivity].
      destruct (R _ _ Q). unfold read_value, read_gv; simpl. rewrite nth_app_lt; auto.
Qed.

Lemma pop_facts w i o : inrange w -> exclV w ->
  inrange (do_pop w i o) /\ exclV (do_pop w i o) /\
  (forall j, viewV (do_pop w i o) j =
     if i =? j then option_map (spec_popV o) (viewV w j) else viewV w j) /\
  (is_sv o = false -> exclG w -> exclG (do_pop w i o) /\
     forall j, view (do_pop w i o) j =
       if i =? j then option_map (spec_pop o) (view w j) else view w j).
Proof.
  intros R X. unfold do_pop. destruct (nth_error (params w) i) as [p|] eqn:H.
  2: { assert (N : view w i = None) by (unfold view; rewrite H; reflexivity).
       assert (W : forall j, view w j = if i =? j then option_map (spec_pop o) (view w j) else view w j).
       { intros j; destruct (Nat.eqb_spec i j) as [<-|]; [rewrite N|]; reflexivity. }
       split; [|split; [|split]]; auto. apply viewV_of_view; auto. }
  assert (G : forall w', (inrange w' /\ exclV w' /\ (exclG w -> exclG w') /\
     (forall j, view w' j = if i =? j then option_map (spec_pop o) (view w j) else view w j)) ->
     inrange w' /\ exclV w' /\
     (forall j, viewV w' j = if i =? j then option_map (spec_popV o) (viewV w j) else viewV w j) /\
     (is_sv o = false -> exclG w -> exclG w' /\
     forall j, view w' j = if i =? j then option_map (spec_pop o) (view w j) else view w j)).
  { intros w' (a & b & c & d). split; [|split; [|split]]; auto. apply viewV_of_view; auto. }
  destruct o as [v|f|g f|g f|f|f|g f|v].
  - split; [|split; [|split]].
    + apply set_value_inrange; auto.
    + apply set_value_exclV; auto.
    + apply set_value_view; auto.
    + discriminate.
  - apply G. destruct (@edit_facts w i p f H R X) as (a & b & c & d & _); auto.
  - destruct (@edit_group_facts w i p g f H R X) as (a & b & c & d & e). split; [|split; [|split]]; auto.
  - destruct (@edit_group_facts w i p g f H R X) as (a & b & c & d & e). split; [|split; [|split]]; auto.
  - apply G. destruct (@edit_facts w i p f H R X) as (a & b & c & d & _); auto.
  - apply G. destruct (@abort_edit_facts w i p f H R X) as (a & b & c & d & _); auto.
  - apply G. destruct (Nat.ltb_spec g (length (read_value w p))) as [L|L].
    + destruct (@abort_edit_facts w i p (upd g f) H R X) as (a & b & c & d & _).
      split; [|split; [|split]]; auto. intros j; rewrite d. eapply if_view; eauto.
      intros x V; rewrite (view_at _ _ H) in V; injection V as <-; simpl.
      destruct (Nat.ltb_spec g (length (read_value w p))); [reflexivity|lia].
    + split; [|split; [|split]].
      * apply resolve_inrange; auto.
      * apply resolve_exclV; auto.
      * apply resolve_exclG; auto.
      * intros j; rewrite resolve_view; auto. eapply if_view_id; eauto.
        intros x V; rewrite (view_at _ _ H) in V; injection V as <-; simpl.
        destruct (Nat.ltb_spec g (length (read_value w p))); [lia|reflexivity].
  - apply G. apply raw_assign_facts; auto.
Qed.

(** ** copy and new *)

Lemma nth_error_snoc (B : Type) (l : list B) x j :
  nth_error (l ++ [x]) j =
  if j =? length l then Some x else nth_error l j.
Proof.
  destruct (Nat.eqb_spec j (length l)) as [->|n]; [apply nth_error_app_last|].
  destruct (Nat.lt_ge_cases j (length l)).
  - apply nth_error_app1; auto.
  - rewrite (proj2 (nth_error_None l j)); auto.
    apply nth_error_None. rewrite app_length; simpl; lia.
Qed.

Lemma copy_facts w i : i < length (params w) -> inrange w -> exclV w ->
  inrange (do_copy w i) /\ exclV (do_copy w i) /\ (exclG w -> exclG (do_copy w i)) /\
  length (params (do_copy w i)) = S (length (params w)) /\
  forall j, view (do_copy w i) j = if j =? length (params w) then view w i else view w j.
Proof.
  intros L R X. unfold do_copy.
  destruct (nth_error (params w) i) as [p|] eqn:H.
  2: { apply nth_error_None in H; lia. }
  set (p' := {| p_ref := p_ref p; p_version := p_version p; p_shared := true; p_gref := p_gref p |}).
  assert (N : forall j q, nth_error (upd i (fun _ => p') (params w) ++ [p']) j = Some q ->
            exists i' q', nth_error (params w) i' = Some q' /\ p_ref q' = p_ref q /\ p_gref q' = p_gref q /\
                       (p_shared q = false -> q' = q /\ i' = j /\ i <> j)).
  { intros j q. rewrite nth_error_snoc, upd_length, nth_error_upd.
    destruct (Nat.eqb_spec j (length (params w))) as [->|n].
    - intros [= <-]. exists i, p; simpl; intuition congruence.
    - destruct (Nat.eqb_spec i j) as [<-|n'].
      + rewrite H; simpl. intros [= <-]. exists i, p; simpl; intuition congruence.
      + intros Q; exists j, q; repeat split; auto. }
  assert (U : forall j q, nth_error (upd i (fun _ => p') (params w) ++ [p']) j = Some q ->
            p_shared q = false -> nth_error (params w) j = Some q /\ i <> j).
  { intros j q Q S. destruct (N _ _ Q) as (i' & q' & Q' & _ & _ & Z). destruct (Z S) as (-> & -> & ?); auto. }
  assert (Y : forall j q k, k <> j -> nth_error (upd i (fun _ => p') (params w) ++ [p']) k = Some q ->
             i <> j -> exists k' q', k' <> j /\ nth_error (params w) k' = Some q' /\
                p_ref q' = p_ref q /\ p_gref q' = p_gref q).
  { intros j q k n Q n'. rewrite nth_error_snoc, upd_length, nth_error_upd in Q.
    destruct (Nat.eqb_spec k (length (params w))) as [->|m].
    - injection Q as <-. exists i, p; auto.
    - destruct (Nat.eqb_spec i k) as [<-|m'].
      + rewrite H in Q; simpl in Q; injection Q as <-. exists i, p; auto.
      + exists k, q; auto. }
  split; [|split; [|split; [|split]]].
  - intros j q Q; simpl in *. destruct (N _ _ Q) as (i' & q' & Q' & <- & <- & _). apply (R _ _ Q').
  - intros j k q r n J K S; simpl in *. destruct (U _ _ J S) as (J' & nj).
    destruct (Y j r k) as (k' & r' & n' & K' & <- & _); auto.
    eapply (X j k'); eauto.
  - intros G j k q r n J K S; simpl in *. destruct (U _ _ J S) as (J' & nj).
    destruct (Y j r k) as (k' & r' & n' & K' & _ & <-); auto.
    eapply (G j k'); eauto.
  - simpl. rewrite app_length, upd_length; simpl; lia.
  - intros j. unfold view; simpl. rewrite nth_error_snoc, upd_length, nth_error_upd, H.
    destruct (Nat.eqb_spec j (length (params w))) as [->|n]; [reflexivity|].
    destruct (Nat.eqb_spec i j) as [<-|n']; [rewrite H|]; reflexivity.
Qed.

Lemma new_facts w v : inrange w -> exclV w ->
  inrange (do_new w v) /\ exclV (do_new w v) /\ (exclG w -> exclG (do_new w v)) /\
  length (params (do_new w v)) = S (length (params w)) /\
  forall j, view (do_new w v) j =
    if j =? length (params w)
    then Some {| v_value := v; v_version := 0; v_gv := repeat 0%Z (length v) |} else view w j.
Proof.
  intros R X. unfold do_new. split; [|split; [|split; [|split]]].
  - intros j q; simpl. rewrite nth_error_snoc, !app_length; simpl.
    destruct (Nat.eqb_spec j (length (params w))) as [->|n].
    + intros [= <-]; simpl; lia.
    + intros Q; destruct (R _ _ Q); lia.
  - intros j k q r n; simpl. rewrite !nth_error_snoc.
    destruct (Nat.eqb_spec j (length (params w))) as [->|nj];
      destruct (Nat.eqb_spec k (length (params w))) as [->|nk]; try congruence.
    + intros [= <-] K _; simpl. destruct (R _ _ K); lia.
    + intros J [= <-] _; simpl. destruct (R _ _ J); lia.
    + intros J K S; eapply (X j k); eauto.
  - intros G j k q r n; simpl. rewrite !nth_error_snoc.
    destruct (Nat.eqb_spec j (length (params w))) as [->|nj];
      destruct (Nat.eqb_spec k (length (params w))) as [->|nk]; try congruence.
    + intros [= <-] K _; simpl. destruct (R _ _ K); lia.
    + intros J [= <-] _; simpl. destruct (R _ _ J); lia.
    + intros J K S; eapply (G j k); eauto.
  - simpl. rewrite app_length; simpl; lia.
  - intros j. unfold view; simpl. rewrite nth_error_snoc.
    destruct (Nat.eqb_spec j (length (params w))) as [->|n].
    + unfold read_value, read_gv; simpl. rewrite !nth_last; reflexivity.
    + destruct (nth_error (params w) j) as [q|] eqn:Q; [|reflexivity].
      destruct (R _ _ Q). unfold read_value, read_gv; simpl. rewrite !nth_app_lt; auto.
Qed.

Lemma copy_all_facts ps : forall w, (forall i, In i ps -> i < length (params w)) ->
  inrange w -> exclV w -> forall w' ps', copy_all w ps = (w', ps') ->
  inrange w' /\ exclV w' /\ (exclG w -> exclG w') /\
  (forall j, j < length (params w) -> view w' j = view w j) /\
  ps' = seq (length (params w)) (length ps) /\
  length (params w') = length (params w) + length ps /\
  map (view w') ps' = map (view w) ps.
Proof.
  induction ps as [|i r IH]; intros w L R X w' ps' E; simpl in E.
  - injection E as <- <-. simpl. repeat match goal with |- _ /\ _ => split end; auto.
  - destruct (copy_all (do_copy w i) r) as [w2 r'] eqn:C. injection E as <- <-.
    destruct (@copy_facts w i) as (R1 & X1 & G1 & N1 & V1); auto. { apply L; left; auto. }
    destruct (IH (do_copy w i)) with (w' := w2) (ps' := r') as (R2 & X2 & G2 & V2 & P2 & N2 & M2); auto.
    { intros k K; rewrite N1. assert (k < length (params w)) by (apply L; right; auto). lia. }
    assert (O : forall j, j < length (params w) -> view (do_copy w i) j = view w j).
    { intros j J. rewrite V1. destruct (Nat.eqb_spec j (length (params w))); [lia|reflexivity]. }
    split; [|split; [|split; [|split; [|split; [|split]]]]]; auto.
    + intros j J. rewrite V2, O; auto. rewrite N1; lia.
    + simpl. rewrite P2, N1. reflexivity.
    + rewrite N2, N1. simpl; lia.
    + simpl. f_equal.
      * rewrite V2 by lia. rewrite V1, Nat.eqb_refl. reflexivity.
      * rewrite M2. apply map_ext_in. intros k K. apply O, L; right; auto.
Qed.

Lemma new_all_facts vs : forall w, inrange w -> exclV w -> forall w' ps', new_all w vs = (w', ps') ->
  inrange w' /\ exclV w' /\ (exclG w -> exclG w') /\
  (forall j, j < length (params w) -> view w' j = view w j) /\
  ps' = seq (length (params w)) (length vs) /\
  length (params w') = length (params w) + length vs /\
  map (view w') ps' = map (fun v => Some {| v_value := v; v_version := 0%Z;
                                           v_gv := repeat 0%Z (length v) |}) vs.
Proof.
  induction vs as [|v r IH]; intros w R X w' ps' E; simpl in E.
  - injection E as <- <-. simpl. repeat match goal with |- _ /\ _ => split end; auto.
  - destruct (new_all (do_new w v) r) as [w2 r'] eqn:C. injection E as <- <-.
    destruct (@new_facts w v) as (R1 & X1 & G1 & N1 & V1); auto.
    destruct (IH (do_new w v)) with (w' := w2) (ps' := r') as (R2 & X2 & G2 & V2 & P2 & N2 & M2); auto.
    split; [|split; [|split; [|split; [|split; [|split]]]]]; auto.
    + intros j J. rewrite V2 by lia. rewrite V1.
      destruct (Nat.eqb_spec j (length (params w))); [lia|reflexivity].
    + simpl. rewrite P2, N1. reflexivity.
    + rewrite N2, N1. simpl; lia.
    + simpl. f_equal; [|exact M2]. rewrite V2 by lia. rewrite V1, Nat.eqb_refl. reflexivity.
Qed.

(** ** whole systems *)

Definition wf_samples (y : sys A) : Prop :=
  NoDup (concat (sys_samples y)) /\
  forall i, In i (concat (sys_samples y)) -> i < length (params (sys_w y)).

Lemma pop_params_length w i o : length (params (do_pop w i o)) = length (params w).
Proof.
  assert (RL : forall p, length (params (resolve_if_shared w i p)) = length (params w)).
  { intros p. unfold resolve_if_shared; destruct (p_shared p); simpl; rewrite ?upd_length; auto. }
  unfold do_pop. destruct (nth_error (params w) i) as [p|]; [|reflexivity].
  destruct o; simpl; unfold do_edit_group, do_set_items, do_abort_edit;
    repeat match goal with |- context [if ?b then _ else _] => destruct b end;
    rewrite ?write_gv_params; simpl; rewrite ?upd_length, ?write_value_params; auto.
Qed.

Lemma concat_in (B : Type) (l : list (list B)) n x b : nth_error l n = Some x -> In b x -> In b (concat l).
Proof. intros N I. apply in_concat. exists x; split; auto. eapply nth_error_In; eauto. Qed.

Lemma NoDup_app_inv (B : Type) (l r : list B) : NoDup (l ++ r) ->
  NoDup l /\ NoDup r /\ forall x, In x l -> In x r -> False.
Proof.
  induction l as [|a l IH]; simpl; intros N.
  - split; [constructor|auto].
  - inversion N as [|? ? Na Nl]; subst. destruct (IH Nl) as (N1 & N2 & D).
    split; [|split; auto].
    + constructor; auto. intros I; apply Na, in_or_app; auto.
    + intros x [<-|I] J; [apply Na, in_or_app; auto|eauto].
Qed.

Lemma NoDup_concat_nth (B : Type) (l : list (list B)) : NoDup (concat l) ->
  forall s k s' k' x x' b, nth_error l s = Some x -> nth_error l s' = Some x' ->
    nth_error x k = Some b -> nth_error x' k' = Some b -> s = s' /\ k = k'.
Proof.
  induction l as [|y r IH]; intros N s k s' k' x x' b H H' K K'.
  - destruct s; discriminate.
  - simpl in N. destruct (NoDup_app_inv _ _ N) as (Ny & Nr & D).
    destruct s as [|s], s' as [|s']; simpl in *.
    + injection H as <-; injection H' as <-. split; auto.
      rewrite NoDup_nth_error in Ny. apply Ny; [|congruence]. eapply nth_error_Some_lt; eauto.
    + injection H as <-. exfalso; eapply D; [eapply nth_error_In; eauto|].
      eapply concat_in; eauto. eapply nth_error_In; eauto.
    + injection H' as <-. exfalso; eapply D; [eapply nth_error_In; eauto|].
      eapply concat_in; eauto. eapply nth_error_In; eauto.
    + destruct (IH Nr s k s' k' x x' b); auto.
Qed.

Lemma NoDup_app_intro (B : Type) (l r : list B) : NoDup l -> NoDup r ->
  (forall x, In x l -> In x r -> False) -> NoDup (l ++ r).
Proof.
  induction l as [|a l IH]; simpl; intros N R D; auto.
  inversion N; subst. constructor.
  - intros I; apply in_app_or in I as [I|I]; [auto|eapply D; eauto].
  - apply IH; auto. intros x I J; eapply D; eauto.
Qed.

Lemma wf_samples_snoc (y : sys A) w' n :
  wf_samples y -> length (params w') = length (params (sys_w y)) + n ->
  wf_samples {| sys_w := w'; sys_samples := sys_samples y ++ [seq (length (params (sys_w y))) n] |}.
Proof.
  intros [N L] E; split; simpl; rewrite concat_app; simpl; rewrite app_nil_r.
  - apply NoDup_app_intro; auto. { apply seq_NoDup. }
    intros x I J; apply in_seq in J. specialize (L _ I). lia.
  - intros i I; apply in_app_or in I as [I|I].
    + specialize (L _ I); lia.
    + apply in_seq in I; lia.
Qed.

Lemma map_view_ext (C : Type) (g h : nat -> C) (y : list (list nat)) n :
  (forall i, In i (concat y) -> i < n) -> (forall i, i < n -> g i = h i) ->
  map (map g) y = map (map h) y.
Proof.
  intros L E. apply map_ext_in; intros x X; apply map_ext_in; intros i I.
  apply E, L. apply in_concat; eauto.
Qed.

(** Generic update of one slot. *)
Lemma slot_update (C : Type) (g h : nat -> option C) (F : C -> C) (l : list (list nat)) s k i ps :
  NoDup (concat l) -> nth_error l s = Some ps -> nth_error ps k = Some i ->
  (forall j, h j = if i =? j then option_map F (g j) else g j) ->
  map (map h) l = upd s (upd k (option_map F)) (map (map g) l).
Proof.
  intros N S K E. apply nth_error_ext; intros s'.
  rewrite nth_error_map, nth_error_upd, nth_error_map.
  destruct (nth_error l s') as [ps'|] eqn:S'; simpl; [|destruct (s =? s'); reflexivity].
  assert (Q : forall k' j, nth_error ps' k' = Some j ->
              h j = if (s =? s') && (k =? k') then option_map F (g j) else g j).
  { intros k' j K'. rewrite E. destruct (Nat.eqb_spec i j) as [<-|n].
    - destruct (@NoDup_concat_nth _ l N s k s' k' _ _ _ S S' K K') as [<- <-]. rewrite !Nat.eqb_refl; reflexivity.
    - destruct (Nat.eqb_spec s s') as [<-|]; [|reflexivity].
      destruct (Nat.eqb_spec k k') as [<-|]; [|reflexivity]. congruence. }
  assert (G : map h ps' = if s =? s' then upd k (option_map F) (map g ps') else map g ps').
  { apply nth_error_ext; intros k'. rewrite nth_error_map.
    destruct (s =? s') eqn:B.
    - rewrite nth_error_upd, nth_error_map.
      destruct (nth_error ps' k') as [j|] eqn:K'; simpl; [|destruct (k =? k'); reflexivity].
      rewrite (Q _ _ K'); simpl. destruct (k =? k'); reflexivity.
    - rewrite nth_error_map. destruct (nth_error ps' k') as [j|] eqn:K'; simpl; [|reflexivity].
      rewrite (Q _ _ K'); reflexivity. }
  rewrite G. destruct (s =? s'); reflexivity.
Qed.

Lemma observe_view (y : sys A) : observe y = map (map (view (sys_w y))) (sys_samples y).
Proof. reflexivity. Qed.

Lemma observe_values_view (y : sys A) :
  observe_values y = map (map (viewV (sys_w y))) (sys_samples y).
Proof.
  unfold observe_values. rewrite observe_view, map_map. apply map_ext; intros ps.
  rewrite map_map; reflexivity.
Qed.

Definition invV (y : sys A) (ss : list (list (pval A))) : Prop :=
  inrange (sys_w y) /\ exclV (sys_w y) /\ wf_samples y /\ observe_values y = spec_values ss.

Definition specV_of (ss : list (list (pval A))) := spec_values ss.

Lemma spec_values_upd s k o ss :
  spec_values (upd s (upd k (spec_pop (A := A) o)) ss) =
  upd s (upd k (option_map (spec_popV o))) (spec_values ss).
Proof.
  unfold spec_values. apply map_upd. intros x _.
  apply map_upd. intros p _; simpl. rewrite spec_popV_proj; reflexivity.
Qed.

Lemma upd_none (B : Type) (f : B -> B) l i : nth_error l i = None -> upd i f l = l.
Proof. intros H; apply upd_out, nth_error_None; auto. Qed.

Lemma stepV y ss o : invV y ss -> invV (do_sop y o) (spec_sop ss o).
Proof.
  intros (R & X & W & O). rewrite observe_values_view in O. destruct o as [vs|s|s k o]; simpl.
  - destruct (new_all (sys_w y) vs) as [w' ps'] eqn:E.
    destruct (new_all_facts vs R X E) as (R' & X' & _ & V' & P' & N' & M').
    split; [|split; [|split]]; simpl; auto.
    + subst ps'. apply wf_samples_snoc; auto.
    + rewrite observe_values_view; simpl. unfold spec_values in *. rewrite !map_app; simpl. f_equal.
      * rewrite <- O. eapply map_view_ext; [apply W|]. intros i I; unfold viewV; rewrite V'; auto.
      * f_equal. unfold viewV. rewrite <- (map_map (view w')), M', !map_map. reflexivity.
  - assert (S : nth_error (map (map (viewV (sys_w y))) (sys_samples y)) s = nth_error (spec_values ss) s)
      by (rewrite O; reflexivity).
    unfold spec_values in S. rewrite !nth_error_map in S.
    destruct (nth_error (sys_samples y) s) as [ps|] eqn:Y; destruct (nth_error ss s) as [x|] eqn:Z;
      simpl in S; try discriminate.
    2: { split; [|split; [|split]]; auto. rewrite observe_values_view; auto. }
    destruct (copy_all (sys_w y) ps) as [w' ps'] eqn:E.
    assert (L : forall i, In i ps -> i < length (params (sys_w y))).
    { intros i I. apply W. eapply concat_in; eauto. }
    destruct (copy_all_facts ps L R X E) as (R' & X' & _ & V' & P' & N' & M').
    split; [|split; [|split]]; simpl; auto.
    + subst ps'. apply wf_samples_snoc; auto.
    + rewrite observe_values_view; simpl. unfold spec_values in *. rewrite !map_app; simpl. f_equal.
      * rewrite <- O. eapply map_view_ext; [apply W|]. intros i I; unfold viewV; rewrite V'; auto.
      * f_equal. injection S as S. rewrite <- S. unfold viewV.
        rewrite <- (map_map (view w')), M', map_map. reflexivity.
  - destruct (nth_error (sys_samples y) s) as [ps|] eqn:Y.
    2: { split; [|split; [|split]]; auto. rewrite observe_values_view, O.
         rewrite upd_none; auto.
         assert (S : nth_error (spec_values ss) s = None) by (rewrite <- O, nth_error_map, Y; auto).
         unfold spec_values in S. rewrite nth_error_map in S. destruct (nth_error ss s); auto; discriminate. }
    destruct (nth_error ps k) as [i|] eqn:K.
    2: { split; [|split; [|split]]; auto. rewrite observe_values_view, O. f_equal.
         symmetry; apply upd_id. intros x Z. apply upd_none.
         assert (S : nth_error (spec_values ss) s = Some (map (viewV (sys_w y)) ps))
           by (rewrite <- O, nth_error_map, Y; auto).
         unfold spec_values in S. rewrite nth_error_map, Z in S. injection S as S.
         assert (T : nth_error (map (viewV (sys_w y)) ps) k = None) by (rewrite nth_error_map, K; auto).
         rewrite <- S, nth_error_map in T. destruct (nth_error x k); auto; discriminate. }
    destruct (pop_facts i o R X) as (R' & X' & V' & _).
    split; [|split; [|split]]; simpl; auto.
    + destruct W as [N L]; split; simpl; auto. rewrite pop_params_length; auto.
    + rewrite observe_values_view; simpl.
      rewrite (@slot_update _ (viewV (sys_w y)) (viewV (do_pop (sys_w y) i o)) (spec_popV o) _ s k i ps (proj1 W) Y K V'), O.
      symmetry; apply spec_values_upd.
Qed.

Definition init_sys : sys A :=
  {| sys_w := {| arrs := []; gvs := []; params := [] |}; sys_samples := [] |}.

Lemma inrange_init : inrange (sys_w init_sys).
Proof. intros [|i] p; discriminate. Qed.
Lemma exclV_init : exclV (sys_w init_sys).
Proof. intros [|i] j p q _ H; discriminate. Qed.
Lemma exclG_init : exclG (sys_w init_sys).
Proof. intros [|i] j p q _ H; discriminate. Qed.
Lemma wf_init : wf_samples init_sys.
Proof. split; simpl; [constructor|tauto]. Qed.

Lemma runV ops : forall y ss, invV y ss -> invV (fold_left (@do_sop A) ops y) (fold_left (@spec_sop A) ops ss).
Proof. induction ops as [|o r IH]; intros y ss I; simpl; auto. apply IH, stepV, I. Qed.

Lemma samples_isolated ops : observe_values (run ops) = spec_values (spec_run (A := A) ops).
Proof.
  destruct (@runV ops init_sys []) as (_ & _ & _ & E).
  - split; [apply inrange_init|split; [apply exclV_init|split; [apply wf_init|reflexivity]]].
  - exact E.
Qed.

(** *** with group versions *)

Definition invG (y : sys A) (ss : list (list (pval A))) : Prop :=
  inrange (sys_w y) /\ exclV (sys_w y) /\ exclG (sys_w y) /\ wf_samples y /\
  observe y = map (map Some) ss.

Lemma stepG y ss o : is_set_value o = false -> invG y ss -> invG (do_sop y o) (spec_sop ss o).
Proof.
  intros NS (R & X & G & W & O). rewrite observe_view in O. destruct o as [vs|s|s k o]; simpl.
  - destruct (new_all (sys_w y) vs) as [w' ps'] eqn:E.
    destruct (new_all_facts vs R X E) as (R' & X' & G' & V' & P' & N' & M').
    split; [|split; [|split; [|split]]]; simpl; auto.
    + subst ps'. apply wf_samples_snoc; auto.
    + rewrite observe_view; simpl. rewrite !map_app; simpl. f_equal.
      * rewrite <- O. eapply map_view_ext; [apply W|]. auto.
      * f_equal. rewrite M', map_map. reflexivity.
  - assert (S : nth_error (map (map (view (sys_w y))) (sys_samples y)) s = nth_error (map (map Some) ss) s)
      by (rewrite O; reflexivity).
    rewrite !nth_error_map in S.
    destruct (nth_error (sys_samples y) s) as [ps|] eqn:Y; destruct (nth_error ss s) as [x|] eqn:Z;
      simpl in S; try discriminate.
    2: { split; [|split; [|split; [|split]]]; auto. }
    destruct (copy_all (sys_w y) ps) as [w' ps'] eqn:E.
    assert (L : forall i, In i ps -> i < length (params (sys_w y))).
    { intros i I. apply W. eapply concat_in; eauto. }
    destruct (copy_all_facts ps L R X E) as (R' & X' & G' & V' & P' & N' & M').
    split; [|split; [|split; [|split]]]; simpl; auto.
    + subst ps'. apply wf_samples_snoc; auto.
    + rewrite observe_view; simpl. rewrite !map_app; simpl. f_equal.
      * rewrite <- O. eapply map_view_ext; [apply W|]. auto.
      * f_equal. injection S as S. rewrite <- S. exact M'.
  - destruct (nth_error (sys_samples y) s) as [ps|] eqn:Y.
    2: { split; [|split; [|split; [|split]]]; auto. rewrite observe_view, O.
         rewrite upd_none; auto.
         assert (S : nth_error (map (map Some) ss) s = None) by (rewrite <- O, nth_error_map, Y; auto).
         rewrite nth_error_map in S. destruct (nth_error ss s); auto; discriminate. }
    destruct (nth_error ps k) as [i|] eqn:K.
    2: { split; [|split; [|split; [|split]]]; auto. rewrite observe_view, O. f_equal.
         symmetry; apply upd_id. intros x Z. apply upd_none.
         assert (S : nth_error (map (map Some) ss) s = Some (map (view (sys_w y)) ps))
           by (rewrite <- O, nth_error_map, Y; auto).
         rewrite nth_error_map, Z in S. injection S as S.
         assert (T : nth_error (map (view (sys_w y)) ps) k = None) by (rewrite nth_error_map, K; auto).
         rewrite <- S, nth_error_map in T. destruct (nth_error x k); auto; discriminate. }
    assert (NS' : is_sv o = false) by (destruct o; simpl in *; auto).
    destruct (pop_facts i o R X) as (R' & X' & _ & Q). destruct (Q NS' G) as (G' & V').
    split; [|split; [|split; [|split]]]; simpl; auto.
    + destruct W as [N L]; split; simpl; auto. rewrite pop_params_length; auto.
    + rewrite observe_view; simpl.
      rewrite (@slot_update _ (view (sys_w y)) (view (do_pop (sys_w y) i o)) (spec_pop o) _ s k i ps (proj1 W) Y K V'), O.
      symmetry. apply map_upd. intros x _. apply map_upd. reflexivity.
Qed.

Lemma runG ops : forallb (fun o => negb (is_set_value o)) ops = true ->
  forall y ss, invG y ss -> invG (fold_left (@do_sop A) ops y) (fold_left (@spec_sop A) ops ss).
Proof.
  induction ops as [|o r IH]; intros H y ss I; simpl in *; auto.
  apply andb_prop in H as [H1 H2]. apply IH; auto. apply stepG; auto.
  destruct (is_set_value o); auto; discriminate.
Qed.

Lemma tracking_isolated ops : forallb (fun o => negb (is_set_value o)) ops = true ->
  observe (run ops) = map (map Some) (spec_run (A := A) ops).
Proof.
  intros H. destruct (@runG ops H init_sys []) as (_ & _ & _ & _ & E).
  - split; [apply inrange_init|split; [apply exclV_init|split; [apply exclG_init|split; [apply wf_init|reflexivity]]]].
  - exact E.
Qed.

(** ** C05 *)

Lemma slot_spec (ss : list (list (pval A))) s k : slot (spec_values ss) s k =
  match nth_error ss s with
  | None => None
  | Some l => option_map (fun x => (v_value x, v_version x)) (nth_error l k)
  end.
Proof.
  unfold slot, spec_values. rewrite nth_error_map. destruct (nth_error ss s) as [l|]; simpl; [|reflexivity].
  rewrite nth_error_map. destruct (nth_error l k); reflexivity.
Qed.

Lemma completed_edit_noticed (ops : list (sop A)) (o : sop A) s k v n v' n' :
  (forall s' k' f, o <> SParam s' k' (AbortEdit f)) ->
  (forall s' k' g f, o <> SParam s' k' (AbortEditGroup g f)) ->
  (forall s' k' v, o <> SParam s' k' (RawAssign v)) ->
  slot (observe_values (run ops)) s k = Some (v, n) ->
  slot (observe_values (run (ops ++ [o]))) s k = Some (v', n') ->
  (v' = v /\ n' = n) \/ (n < n')%Z.
Proof.
  intros N1 N2 N3. rewrite !samples_isolated. unfold spec_run. rewrite fold_left_app; simpl.
  set (ss := fold_left (spec_sop (A:=A)) ops []). rewrite !slot_spec.
  assert (K : forall r l, nth_error ss s = Some l -> nth_error (ss ++ r) s = Some l).
  { intros r l H. rewrite nth_error_app1; auto. eapply nth_error_Some_lt; eauto. }
  destruct o as [vs|s0|s0 k0 o]; simpl.
  - destruct (nth_error ss s) as [l|] eqn:S; [|discriminate]. rewrite (K _ _ eq_refl).
    intros -> [= -> ->]; auto.
  - destruct (nth_error ss s) as [l|] eqn:S; [|discriminate].
    destruct (nth_error ss s0); [rewrite (K _ _ eq_refl)|rewrite S]; intros -> [= -> ->]; auto.
  - rewrite nth_error_upd. destruct (nth_error ss s) as [l|] eqn:S; [|discriminate].
    destruct (s0 =? s); simpl.
    2: { intros -> [= -> ->]; auto. }
    rewrite nth_error_upd. destruct (nth_error l k) as [x|]; simpl; [|discriminate].
    destruct (k0 =? k); simpl.
    2: { intros [= -> ->] [= -> ->]; auto. }
    destruct x as [xv xn xg]; simpl.
    destruct o as [u|f|g f|g f|f|f|g f|u]; simpl; try destruct (_ <? _); simpl;
      intros [= -> ->] [= <- <-]; auto; try (right; lia).
    + exfalso; eapply N1; reflexivity.
    + exfalso; eapply N2; reflexivity.
    + exfalso; eapply N3; reflexivity.
Qed.

End Refine.
