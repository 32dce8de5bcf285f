(** Lemmas for C22-C24. *)
From Verif Require Import S_init L_operators.
Set Implicit Arguments.
Unset Strict Implicit.
Open Scope nat_scope.

Lemma member_lt c o : member c o -> o < length c.
Proof. unfold member. intros H. destruct (Nat.lt_ge_cases o (length c)); auto. rewrite nth_overflow in H by auto. discriminate. Qed.
Lemma member_nth_error c o : member c o <-> nth_error c o = Some true.
Proof.
  split.
  - intros H. pose proof (member_lt H). rewrite (nth_error_nth' c false) by auto. unfold member in H. congruence.
  - intros H. apply (nth_error_nth _ _ false H).
Qed.
Lemma member_mark c s o : s < length c -> (member (mark s c) o <-> o = s \/ member c o).
Proof.
  intros Hs. rewrite !member_nth_error. unfold mark. rewrite nth_error_upd.
  destruct (Nat.eqb_spec s o) as [->|Hne].
  - rewrite (nth_error_nth' c false) by auto. simpl. tauto.
  - split; [auto|]. intros [->|]; [congruence|auto].
Qed.
Lemma member_zeros n o : ~ member (zeros n) o.
Proof. unfold member, zeros. intros H. rewrite nth_repeat in H. discriminate. Qed.
Lemma size_mark c s : s < length c -> ~ member c s -> size (mark s c) = S (size c).
Proof.
  intros Hs Hn. unfold mark. apply size_upd_true. rewrite (nth_error_nth' c false) by auto. unfold member in Hn.
  destruct (nth s c false); congruence.
Qed.
Lemma size_zeros n : size (zeros n) = 0.
Proof. unfold size, zeros. induction n; simpl; auto. Qed.
Lemma size_subset : forall c d, length c = length d -> (forall o, member c o -> member d o) -> size c <= size d.
Proof.
  unfold size. induction c as [|b c IH]; intros [|b' d] Hl H; simpl in *; try discriminate; auto.
  assert (IHd : length (filter (fun b => b) c) <= length (filter (fun b => b) d)).
  { apply IH; [lia|]. intros o Ho. apply (H (S o)). exact Ho. }
  specialize (H 0). unfold member in H; simpl in H. destruct b, b'; simpl; try lia.
Qed.
Lemma size_le_length c : size c <= length c.
Proof. unfold size. induction c as [|[] c IH]; simpl; lia. Qed.
Lemma size_full c : length c <= size c -> forall o, o < length c -> member c o.
Proof.
  induction c as [|b c IH]; intros H o Ho; simpl in *; [lia|]. pose proof (size_le_length c). unfold size in *; simpl in H.
  destruct b; simpl in H; [|lia]. destruct o as [|o]; [reflexivity|]. apply IH; lia.
Qed.
Lemma size_pos c : 0 < size c -> exists o, member c o.
Proof.
  unfold size. induction c as [|b c IH]; simpl; [lia|]. destruct b; [exists 0; reflexivity|].
  intros H. destruct IH as [o Ho]; auto. exists (S o). exact Ho.
Qed.
Lemma pick_in l r x : pick l r = Some x -> In x l.
Proof. apply nth_error_In. Qed.
Lemma pick_none l r : pick l r = None -> l = [].
Proof.
  unfold pick. intros H. apply nth_error_None in H. destruct l as [|x l]; auto.
  pose proof (Nat.mod_upper_bound r (length (x :: l))). simpl length in *. lia.
Qed.

(** * Connectedness *)
Section Conn.
Variable adj : bmat.
Lemma edge_sym a b : edge adj a b -> edge adj b a.
Proof. unfold edge. tauto. Qed.
Lemma linked_members c a b : linked adj c a b -> member c a /\ member c b.
Proof. intros H. induction H; tauto. Qed.
Lemma linked_trans c a b d : linked adj c a b -> linked adj c b d -> linked adj c a d.
Proof. intros H1 H2. induction H2 as [x Hx|x y z H IH Hz He]; auto. eapply linked_step; [apply IH; auto|auto|exact He]. Qed.
Lemma linked_sym c a b : linked adj c a b -> linked adj c b a.
Proof.
  intros H. induction H as [a Ha|a b d H IH Hd He]; [constructor; auto|].
  eapply linked_trans; [|exact IH]. eapply linked_step; [constructor; auto| |apply edge_sym; exact He].
  apply (linked_members H).
Qed.
Lemma linked_mono c c' a b : (forall o, member c o -> member c' o) -> linked adj c a b -> linked adj c' a b.
Proof. intros Hs H. induction H; [constructor; auto|eapply linked_step; eauto]. Qed.
Lemma connected_mark c s m : s < length c -> member c m -> edge adj m s -> connected adj c -> connected adj (mark s c).
Proof.
  intros Hs Hm He Hc. assert (Hsub : forall o, member c o -> member (mark s c) o) by (intros; apply member_mark; auto).
  assert (Hr : forall a, member (mark s c) a -> linked adj (mark s c) m a).
  { intros a Ha. apply member_mark in Ha as [->|Ha]; auto.
    - eapply linked_step; [constructor; auto| |exact He]. apply member_mark; auto.
    - eapply linked_mono; [exact Hsub|]. apply Hc; auto. }
  intros a b Ha Hb. eapply linked_trans; [apply linked_sym|]; apply Hr; auto.
Qed.
Lemma connected_single n s : s < n -> connected adj (mark s (zeros n)).
Proof.
  intros Hs a b Ha Hb. assert (Hl : s < length (zeros n)) by (unfold zeros; rewrite repeat_length; auto).
  apply member_mark in Ha as [->|Ha]; auto; [|exfalso; eapply member_zeros; eauto].
  apply member_mark in Hb as [->|Hb]; auto; [|exfalso; eapply member_zeros; eauto].
  constructor. apply member_mark; auto.
Qed.
(** A connected set that meets [d] but is not inside it has an edge leaving [d]. *)
Lemma leaving_edge c d a b : connected adj c -> member c a -> member c b -> member d a -> ~ member d b ->
  exists u v, member c u /\ member c v /\ edge adj u v /\ member d u /\ ~ member d v.
Proof.
  intros Hc Ha Hb Hda Hdb. pose proof (Hc a b Ha Hb) as H. clear Hc. induction H as [a _|a b e H IH He Hed]; [contradiction|].
  destruct (linked_members H) as [_ Hmb]. unfold member in *. destruct (nth b d false) eqn:E.
  - exists b, e. repeat apply conj; auto.
  - apply IH; auto.
Qed.
Lemma neighbours_spec cluster occ s : nth_error (get_neighbours cluster occ adj) s = Some true <->
  exists m, member (nth s adj []) m /\ member cluster m /\ s < length adj /\ nth_error occ s = Some false.
Proof.
  unfold get_neighbours. rewrite nth_error_map2. split.
  - destruct (nth_error adj s) as [row|] eqn:Er; [|discriminate]. destruct (nth_error occ s) as [b|] eqn:Eo; [|discriminate].
    intros [= H]. apply andb_true_iff in H as [H1 H2]. apply existsb_exists in H1 as (x & Hin & ->).
    apply In_nth_error in Hin as [m Hm]. rewrite nth_error_map2 in Hm.
    destruct (nth_error row m) as [u|] eqn:Eu; [|discriminate]. destruct (nth_error cluster m) as [v|] eqn:Ev; [|discriminate].
    injection Hm as Hm. apply andb_true_iff in Hm as [-> ->]. exists m. rewrite (nth_error_nth _ _ [] Er).
    repeat apply conj; try (apply member_nth_error; auto); [apply nth_error_Some; congruence|].
    apply negb_true_iff in H2. congruence.
  - intros (m & H1 & H2 & H3 & H4). rewrite (nth_error_nth' adj []) by auto. rewrite H4. f_equal.
    rewrite andb_true_r. apply existsb_exists. exists true. split; auto. apply nth_error_In with m.
    rewrite nth_error_map2. apply member_nth_error in H1, H2. rewrite H1, H2. reflexivity.
Qed.
End Conn.

Section Init.
Variables (n : nat) (adj : bmat) (k n_clusters : nat).
Variable rnd : nat -> nat.
Hypothesis Hk : 1 <= k.
Hypothesis Hadj : length adj = n.

(** What growing does; [occ0] are the sites occupied before. *)
Definition growing (occ0 cluster occ : list bool) : Prop :=
  length cluster = n /\ length occ = n /\ connected adj cluster /\
  (forall o, member occ o <-> member occ0 o \/ member cluster o) /\ (forall o, member cluster o -> ~ member occ0 o).
Lemma grow_steps_spec occ0 m : forall t cluster occ, growing occ0 cluster occ ->
  let g := grow_steps adj rnd m t cluster occ in
  growing occ0 (g_cluster g) (g_occ g) /\ size cluster <= size (g_cluster g) /\
  (if g_ok g then size (g_cluster g) = size cluster + m
   else size (g_cluster g) < size cluster + m /\ nonzero (get_neighbours (g_cluster g) (g_occ g) adj) = []).
Proof.
  induction m as [|m IH]; intros t cluster occ H; simpl.
  - split; auto.
  - destruct (pick _ _) as [s|] eqn:E; simpl.
    + apply pick_in, in_nonzero, neighbours_spec in E as (b & Hb1 & Hb2 & Hs & Ho).
      destruct H as (H1 & H2 & H3 & H4 & H5).
      assert (Hns : ~ member cluster s). { intros Hc. assert (member occ s) by (apply H4; auto). apply member_nth_error in H. congruence. }
      assert (Hno : ~ member occ0 s). { intros Hc. assert (member occ s) by (apply H4; auto). apply member_nth_error in H. congruence. }
      assert (Hg : growing occ0 (mark s cluster) (mark s occ)).
      { unfold growing, mark. rewrite !upd_length. fold (mark s cluster) (mark s occ). repeat apply conj; auto.
        - eapply connected_mark with (m := b); auto; [lia|]. right. auto.
        - intros o. rewrite !member_mark by lia. rewrite H4. tauto.
        - intros o Ho'. apply member_mark in Ho' as [->|Ho']; auto; lia. }
      specialize (IH (S t) _ _ Hg). cbv zeta in IH. rewrite size_mark in IH by (auto; lia).
      destruct IH as (I1 & I2 & I3). split; auto. split; [lia|].
      destruct (g_ok _); [lia|]. destruct I3. split; [lia|auto].
    + apply pick_none in E. split; auto. split; auto. split; [lia|auto].
Qed.

Definition leaves_room (cl : bmat) (occ : list bool) : Prop :=
  forall c, length c = n -> connected adj c -> k <= size c -> apart c cl -> apart c [occ].

Lemma grow_cluster_spec t occ : length occ = n ->
  let g := grow_cluster n adj k rnd t occ in
  length (g_cluster g) = n /\ length (g_occ g) = n /\
  if g_ok g then growing occ (g_cluster g) (g_occ g) /\ size (g_cluster g) = k
  else (forall o, member occ o -> member (g_occ g) o) /\
       ((forall o, o < n -> member occ o) /\ g_occ g = occ \/
        growing occ (g_cluster g) (g_occ g) /\ 1 <= size (g_cluster g) < k /\
        nonzero (get_neighbours (g_cluster g) (g_occ g) adj) = []).
Proof.
  intros Hl. unfold grow_cluster. destruct (pick _ _) as [i|] eqn:E; cbv zeta.
  - apply pick_in in E. unfold free_sites in E. apply filter_In in E as [Hi Hf]. apply in_seq in Hi.
    assert (Hno : ~ member occ i). { unfold member. destruct (nth i occ false); [discriminate|auto]. }
    assert (Hlz : length (zeros n) = n) by (unfold zeros; apply repeat_length).
    assert (Hg : growing occ (mark i (zeros n)) (mark i occ)).
    { unfold growing, mark. rewrite !upd_length. fold (mark i (zeros n)) (mark i occ). repeat apply conj; auto.
      - apply connected_single. lia.
      - intros o. rewrite !member_mark by lia. pose proof (@member_zeros n o). tauto.
      - intros o Ho. apply member_mark in Ho as [->|Ho]; auto; [|lia]. exfalso; eapply member_zeros; eauto. }
    assert (Hs1 : size (mark i (zeros n)) = 1).
    { rewrite size_mark; [rewrite size_zeros; auto|lia|]. apply member_zeros. }
    pose proof (@grow_steps_spec occ (k - 1) (S t) _ _ Hg) as H. cbv zeta in H. rewrite Hs1 in H.
    destruct H as (G & G2 & H). pose proof G as (L1 & L2 & _ & G4 & _). split; auto. split; auto. destruct (g_ok _).
    + split; auto. lia.
    + destruct H. split; [intros o Ho; apply G4; auto|]. right. split; auto. split; auto. lia.
  - simpl. repeat apply conj; auto; [apply repeat_length|]. left. split; auto.
    apply pick_none in E. intros o Ho. unfold member. destruct (nth o occ false) eqn:En; auto. exfalso.
    assert (Hin : In o (free_sites n occ)). { unfold free_sites. apply filter_In. rewrite in_seq, En. split; auto. lia. }
    rewrite E in Hin. contradiction.
Qed.

(** * Invariant of the outer loops *)
Variable prev : bmat.
Let p := length prev.
Definition inv (st : istate) : Prop :=
  length (initial_clusters st) = n_clusters /\ Forall (fun c => length c = n) (initial_clusters st) /\
  length (occupied st) = n /\ p <= n_generated st <= n_clusters /\
  (forall i, n_generated st <= i -> forall o, ~ member (nth i (initial_clusters st) []) o) /\
  firstn p (initial_clusters st) = prev /\
  (forall i, p <= i < n_generated st -> size (nth i (initial_clusters st) []) = k /\ connected adj (nth i (initial_clusters st) [])) /\
  disjoint_groups (initial_clusters st) /\
  (forall i o, member (nth i (initial_clusters st) []) o -> member (occupied st) o).

Lemma nth_upd_row (cl : bmat) i j c : i < length cl -> nth j (upd i (fun _ => c) cl) [] = if i =? j then c else nth j cl [].
Proof.
  intros Hi. assert (H : nth_error (upd i (fun _ => c) cl) j = if i =? j then Some c else nth_error cl j).
  { rewrite nth_error_upd. destruct (Nat.eqb_spec i j) as [<-|]; auto. rewrite (nth_error_nth' cl []) by auto. reflexivity. }
  destruct (i =? j); [apply (nth_error_nth _ _ [] H)|].
  destruct (nth_error cl j) as [c'|] eqn:E.
  - rewrite (nth_error_nth _ _ [] H), (nth_error_nth _ _ [] E). reflexivity.
  - apply nth_error_None in H, E. rewrite !nth_overflow by auto. reflexivity.
Qed.
Lemma firstn_upd A (f : A -> A) m : forall (l : list A) i, m <= i -> firstn m (upd i f l) = firstn m l.
Proof. induction m as [|m IH]; intros [|x l] [|i] H; simpl; auto; try lia. rewrite IH by lia. reflexivity. Qed.

Lemma inv_success st g : inv st -> n_generated st < n_clusters -> growing (occupied st) (g_cluster g) (g_occ g) ->
  size (g_cluster g) = k ->
  inv {| initial_clusters := upd (n_generated st) (fun _ => g_cluster g) (initial_clusters st);
         occupied := g_occ g; n_generated := S (n_generated st); i_t := g_t g |}.
Proof.
  intros (I1 & I2 & I3 & I4 & I5 & I6 & I7 & I8 & I9) Hlt (G1 & G2 & G3 & G4 & G5) Hs. unfold inv; simpl.
  rewrite upd_length. assert (Hr : forall j, nth j (upd (n_generated st) (fun _ => g_cluster g) (initial_clusters st)) [] =
    if n_generated st =? j then g_cluster g else nth j (initial_clusters st) []) by (intros; apply nth_upd_row; lia).
  repeat apply conj; auto; try lia.
  - apply Forall_upd; auto.
  - intros i Hi o. rewrite Hr. destruct (Nat.eqb_spec (n_generated st) i); [lia|]. apply I5. lia.
  - rewrite firstn_upd by lia. auto.
  - intros i Hi. rewrite Hr. destruct (Nat.eqb_spec (n_generated st) i); [auto|]. apply I7. lia.
  - intros o i j. rewrite !Hr. destruct (Nat.eqb_spec (n_generated st) i), (Nat.eqb_spec (n_generated st) j); intros Hi Hj; try congruence.
    + exfalso. eapply G5; eauto.
    + exfalso. eapply G5; [exact Hj|]. eapply I9; eauto.
    + eapply I8; eauto.
  - intros i o. rewrite Hr. destruct (Nat.eqb_spec (n_generated st) i); intros Ho; apply G4; eauto.
Qed.
Lemma inv_failure st g : inv st -> length (g_occ g) = n -> (forall o, member (occupied st) o -> member (g_occ g) o) ->
  inv {| initial_clusters := initial_clusters st; occupied := g_occ g; n_generated := n_generated st; i_t := g_t g |}.
Proof.
  intros (I1 & I2 & I3 & I4 & I5 & I6 & I7 & I8 & I9) Hl Ho. unfold inv; simpl. repeat apply conj; auto; try lia. eauto.
Qed.

(** * Sites lost in failed attempts are useless *)
Definition room (st : istate) : Prop := leaves_room (initial_clusters st) (occupied st).
Lemma apart_one c occ : apart c [occ] <-> forall o, member c o -> ~ member occ o.
Proof.
  split; [intros H o Ho; apply (H o 0 Ho)|]. intros H o i Ho. destruct i as [|[|i]]; simpl; auto; unfold member; simpl; destruct o; discriminate.
Qed.
Lemma room_success st g : symmetric adj -> inv st -> room st -> n_generated st < n_clusters -> growing (occupied st) (g_cluster g) (g_occ g) ->
  room {| initial_clusters := upd (n_generated st) (fun _ => g_cluster g) (initial_clusters st);
         occupied := g_occ g; n_generated := S (n_generated st); i_t := g_t g |}.
Proof.
  intros _ (I1 & I2 & I3 & I4 & I5 & _) Hr Hlt (G1 & G2 & G3 & G4 & G5) c Hl Hc Hs Ha. simpl in *.
  assert (Hrow : forall j, nth j (upd (n_generated st) (fun _ => g_cluster g) (initial_clusters st)) [] =
    if n_generated st =? j then g_cluster g else nth j (initial_clusters st) []) by (intros; apply nth_upd_row; lia).
  apply apart_one. intros o Ho Ho'. apply G4 in Ho' as [Ho'|Ho'].
  - assert (Ha' : apart c (initial_clusters st)).
    { intros o' i Ho1 Ho2. pose proof (Ha o' i Ho1) as Hn. rewrite Hrow in Hn.
      destruct (Nat.eqb_spec (n_generated st) i) as [<-|]; auto. exact (I5 _ (le_n _) _ Ho2). }
    specialize (Hr c Hl Hc Hs Ha'). rewrite apart_one in Hr. exact (Hr o Ho Ho').
  - apply (Ha o (n_generated st) Ho). rewrite Hrow, Nat.eqb_refl. auto.
Qed.
Lemma room_failure st g : symmetric adj -> inv st -> room st -> growing (occupied st) (g_cluster g) (g_occ g) ->
  size (g_cluster g) < k -> nonzero (get_neighbours (g_cluster g) (g_occ g) adj) = [] ->
  room {| initial_clusters := initial_clusters st; occupied := g_occ g; n_generated := n_generated st; i_t := g_t g |}.
Proof.
  intros Hsym (I1 & I2 & I3 & I4 & I5 & _) Hr (G1 & G2 & G3 & G4 & G5) Hsz Hstuck c Hl Hc Hs Ha. simpl in *.
  specialize (Hr c Hl Hc Hs Ha). rewrite apart_one in *. intros o Ho Ho'. apply G4 in Ho' as [Ho'|Ho']; [exact (Hr o Ho Ho')|].
  assert (Hex : exists b, member c b /\ ~ member (g_cluster g) b).
  { assert (Hd : (forall b, member c b -> member (g_cluster g) b) \/ exists b, member c b /\ ~ member (g_cluster g) b).
    { clear - Hl G1. assert (Hi : forall m, (forall b, b < m -> member c b -> member (g_cluster g) b) \/ exists b, member c b /\ ~ member (g_cluster g) b).
      { induction m as [|m [IH|IH]]; [left; intros; lia| |auto].
        destruct (nth m c false) eqn:E1.
        - destruct (nth m (g_cluster g) false) eqn:E2.
          + left. intros b Hb Hm. destruct (Nat.eq_dec b m) as [->|]; [exact E2|]. apply IH; auto. lia.
          + right. exists m. split; [exact E1|]. unfold member. congruence.
        - left. intros b Hb Hm. destruct (Nat.eq_dec b m) as [->|]; [unfold member in Hm; congruence|]. apply IH; auto. lia. }
      destruct (Hi n) as [H|H]; [left|right; auto]. intros b Hb. apply H; auto. rewrite <- Hl. apply member_lt. auto. }
    destruct Hd as [Hd|Hd]; auto. apply size_subset in Hd; [lia|congruence]. }
  destruct Hex as (b & Hb & Hnb).
  destruct (@leaving_edge adj c (g_cluster g) o b) as (u & v & Hu & Hv & He & Hdu & Hdv); auto.
  assert (Hin : In v (nonzero (get_neighbours (g_cluster g) (g_occ g) adj))).
  { apply in_nonzero, neighbours_spec. exists u. assert (Hvn : v < n) by (rewrite <- Hl; apply member_lt; auto).
    repeat apply conj; auto; [destruct He; auto|lia|].
    destruct (nth_error (g_occ g) v) as [[]|] eqn:E; auto.
    - exfalso. apply member_nth_error in E. apply G4 in E as [E|E]; auto. exact (Hr v Hv E).
    - apply nth_error_None in E. lia. }
  rewrite Hstuck in Hin. contradiction.
Qed.

Lemma for_loop_spec m : forall st, inv st -> m = n_clusters - n_generated st ->
  let '(ok, st') := for_loop n adj k rnd (seq (n_generated st) m) st in
  inv st' /\ (symmetric adj -> room st -> room st') /\
  (if ok then n_generated st' = n_clusters
   else n_generated st' < n_clusters /\ Nat.min n (S (size (occupied st))) <= size (occupied st')).
Proof.
  induction m as [|m IH]; intros st Hi Hm; simpl.
  - split; auto. split; auto. destruct Hi as (_ & _ & _ & Hi & _). lia.
  - pose proof Hi as (I1 & I2 & I3 & I4 & I5 & _).
    pose proof (@grow_cluster_spec (i_t st) (occupied st) I3) as Hg. cbv zeta in Hg.
    set (g := grow_cluster n adj k rnd (i_t st) (occupied st)) in *. destruct Hg as (Hl1 & Hl2 & Hg).
    destruct (g_ok g).
    + destruct Hg as [Hg Hs].
      pose proof (@inv_success st g Hi ltac:(lia) Hg Hs) as Hi'.
      set (st1 := {| initial_clusters := upd (n_generated st) (fun _ => g_cluster g) (initial_clusters st);
         occupied := g_occ g; n_generated := S (n_generated st); i_t := g_t g |}) in *.
      specialize (IH st1 Hi'). simpl in IH. specialize (IH ltac:(lia)).
      assert (Hgrow : size (occupied st) <= size (g_occ g)).
      { apply size_subset; [congruence|]. intros o Ho. destruct Hg as (_ & _ & _ & G4 & _). apply G4. auto. }
      destruct (for_loop _ _ _ _ _ st1) as [ok st'] eqn:E. destruct IH as (J1 & J2 & J3).
      split; auto. split.
      * intros Hsym Hroom. apply J2; auto. apply room_success; auto. lia.
      * destruct ok; auto. destruct J3. split; auto. lia.
    + destruct Hg as [Hsub Hg]. split; [apply inv_failure; auto|]. simpl. split.
      * intros Hsym Hroom. destruct Hg as [[Hall Heq]|(Hg & Hs & Hst)].
        -- unfold room; simpl. rewrite Heq. exact Hroom.
        -- apply room_failure; auto. lia.
      * split; [lia|]. destruct Hg as [[Hall Heq]|(Hg & Hs & Hst)].
        -- rewrite Heq. assert (n <= size (occupied st)); [|lia].
           assert (Hf : size (repeat true n) <= size (occupied st)).
           { apply size_subset; [rewrite repeat_length; auto|]. intros o Ho. apply Hall.
             apply member_lt in Ho. rewrite repeat_length in Ho. auto. }
           assert (Hr : forall n, size (repeat true n) = n) by (unfold size; induction n0; simpl; auto).
           rewrite Hr in Hf. auto.
        -- destruct Hg as (G1 & G2 & G3 & G4 & G5).
           destruct (@size_pos (g_cluster g)) as [o Ho]; [lia|].
           assert (Ho' : o < length (occupied st)) by (rewrite I3, <- G1; apply member_lt; auto).
           assert (Hms : size (mark o (occupied st)) <= size (g_occ g)).
           { apply size_subset; [unfold mark; rewrite upd_length; congruence|].
             intros o' Hm'. apply member_mark in Hm' as [->|Hm']; auto; apply G4; auto. }
           rewrite size_mark in Hms; auto. lia.
Qed.

Lemma while_loop_spec : forall d attempts st, inv st -> attempts + d = 1000 ->
  exists r, while_loop n adj k n_clusters rnd (S d) attempts (seq (n_generated st) (n_clusters - n_generated st)) st = Some r /\
  match r with
  | Clusters_ok cl => exists st', cl = initial_clusters st' /\ inv st' /\ n_generated st' = n_clusters
  | Value_error st' => inv st' /\ n_generated st' < n_clusters /\
      (symmetric adj -> room st -> Nat.min n attempts <= size (occupied st) -> n <= 1000 ->
       room st' /\ n <= size (occupied st'))
  | Index_error => False
  end.
Proof.
  induction d as [|d IH]; intros attempts st Hi Hd.
  - cbn [while_loop]. pose proof (@for_loop_spec _ st Hi eq_refl) as H.
    destruct (for_loop _ _ _ _ _ st) as [[] st'].
    + destruct H as (J1 & J2 & J3). rewrite J3, Nat.eqb_refl. eexists; split; eauto. simpl. eauto.
    + destruct H as (J1 & J2 & J3 & J4). destruct (Nat.ltb_spec attempts 1000); [lia|]. eexists; split; [reflexivity|]. simpl.
      split; auto. split; auto. intros Hsym Hr Hm Hn. split; auto. lia.
  - cbn [while_loop]. pose proof (@for_loop_spec _ st Hi eq_refl) as H.
    destruct (for_loop _ _ _ _ _ st) as [[] st'].
    + destruct H as (J1 & J2 & J3). rewrite J3, Nat.eqb_refl. eexists; split; eauto. simpl. eauto.
    + destruct H as (J1 & J2 & J3 & J4). destruct (Nat.ltb_spec attempts 1000); [|lia].
      destruct (Nat.eqb_spec (n_generated st') n_clusters); [lia|].
      destruct (IH (S attempts) st' J1 ltac:(lia)) as (r & Hr & Hspec). exists r. split; auto.
      destruct r as [cl|st2|]; auto. destruct Hspec as (S1 & S2 & S3). split; auto. split; auto.
      intros Hsym Hroom Hm Hn. apply S3; auto. lia.
Qed.

Lemma or_rows rows : Forall (fun c => length c = n) rows -> forall acc, length acc = n ->
  length (fold_left (map2 orb) rows acc) = n /\
  forall o, member (fold_left (map2 orb) rows acc) o <-> member acc o \/ exists i, member (nth i rows []) o.
Proof.
  induction rows as [|c rows IH]; intros Hf acc Hl; simpl.
  - split; auto. intros o. split; auto. intros [H|[i H]]; auto. destruct i, o; discriminate.
  - inversion Hf as [|? ? Hc Hr]; subst.
    assert (Hl' : length (map2 orb acc c) = length adj) by (rewrite map2_length; lia).
    destruct (IH Hr _ Hl') as [L1 L2]. split; auto. intros o. rewrite L2.
    assert (Hm : member (map2 orb acc c) o <-> member acc o \/ member c o).
    { rewrite !member_nth_error, nth_error_map2. split.
      - destruct (nth_error acc o) as [[]|], (nth_error c o) as [[]|]; simpl; try discriminate; auto.
      - intros H. destruct (nth_error acc o) as [a|] eqn:E1, (nth_error c o) as [b|] eqn:E2.
        + destruct H as [[= ->]|[= ->]]; [reflexivity|rewrite orb_true_r; reflexivity].
        + apply nth_error_None in E2. assert (o < length acc) by (apply nth_error_Some; congruence). lia.
        + apply nth_error_None in E1. assert (o < length c) by (apply nth_error_Some; congruence). lia.
        + destruct H; discriminate. }
    rewrite Hm. split.
    + intros [[H|H]|[i H]]; auto; right; [exists 0|exists (S i)]; auto.
    + intros [H|[i H]]; auto. destruct i as [|i]; [auto|right; exists i; auto].
Qed.
Hypothesis Hprev : Forall (fun c => length c = n) prev.
Hypothesis Hdisj : disjoint_groups prev.
Hypothesis Hlen : p <= n_clusters.

Lemma start_rows i : nth i (initial_clusters (start n n_clusters prev)) [] =
  if i <? p then nth i prev [] else if i <? n_clusters then zeros n else [].
Proof.
  simpl. destruct (Nat.ltb_spec i p) as [Hi|Hi].
  - apply app_nth1; auto.
  - rewrite app_nth2 by auto. destruct (Nat.ltb_spec i n_clusters).
    + rewrite (nth_indep _ [] (zeros n)) by (rewrite repeat_length; unfold p in *; lia). apply nth_repeat.
    + apply nth_overflow. rewrite repeat_length. unfold p in *; lia.
Qed.
Lemma start_member i o : member (nth i (initial_clusters (start n n_clusters prev)) []) o <-> member (nth i prev []) o.
Proof.
  rewrite start_rows. destruct (Nat.ltb_spec i p) as [Hi|Hi]; [reflexivity|].
  rewrite (nth_overflow prev) by auto. split.
  - destruct (i <? n_clusters); intros H; [exfalso; eapply member_zeros; eauto|auto].
  - unfold member. destruct o; discriminate.
Qed.
Lemma start_inv : inv (start n n_clusters prev).
Proof.
  assert (Hlz : length (zeros n) = n) by apply repeat_length.
  destruct (or_rows Hprev Hlz) as [L1 L2].
  unfold inv. conj; auto.
  - simpl. rewrite app_length, repeat_length. unfold p in *; lia.
  - simpl. apply Forall_app. split; auto. apply Forall_forall. intros c Hc. apply repeat_spec in Hc as ->. auto.
  - simpl n_generated. intros i Hi o. rewrite start_member, nth_overflow by auto. unfold member. destruct o; discriminate.
  - simpl. unfold p. rewrite firstn_app, Nat.sub_diag. simpl. rewrite app_nil_r. apply firstn_all.
  - simpl n_generated. intros i Hi. unfold p in Hi. lia.
  - intros o i j Hi Hj. apply start_member in Hi, Hj. eapply Hdisj; eauto.
  - intros i o Ho. apply start_member in Ho. simpl. apply L2. right. eauto.
Qed.
Lemma start_room : room (start n n_clusters prev).
Proof.
  intros c Hl Hc Hs Ha. apply apart_one. intros o Ho Ho'. assert (Hlz : length (zeros n) = n) by apply repeat_length.
  destruct (or_rows Hprev Hlz) as [_ L2]. simpl in Ho'. apply L2 in Ho' as [Ho'|[i Ho']].
  - eapply member_zeros; eauto.
  - apply (Ha o i Ho). apply start_member. auto.
Qed.

Theorem generate_spec : 0 < n_clusters ->
  exists r, generate_initial_clusters n adj k n_clusters rnd prev 1001 = Some r /\
  match r with
  | Clusters_ok cl => cluster_shape n_clusters n cl /\ firstn p cl = prev /\ disjoint_groups cl /\
      forall i, p <= i < n_clusters -> size (nth i cl []) = k /\ connected adj (nth i cl [])
  | Value_error st => inv st /\ n_generated st < n_clusters /\
      (symmetric adj -> n <= 1000 -> forall c, length c = n -> connected adj c -> k <= size c -> ~ apart c (initial_clusters st))
  | Index_error => False
  end.
Proof.
  intros Hn. unfold generate_initial_clusters. destruct (Nat.eqb_spec n_clusters 0); [lia|].
  destruct (Nat.ltb_spec n_clusters (length prev)) as [H|_]; [unfold p in *; lia|].
  destruct (@while_loop_spec 1000 0 (start n n_clusters prev) start_inv eq_refl) as (r & Hr & Hspec).
  exists r. split; [exact Hr|]. destruct r as [cl|st|]; auto.
  - destruct Hspec as (st' & -> & (I1 & I2 & I3 & I4 & I5 & I6 & I7 & I8 & I9) & Hg). rewrite Hg in *.
    unfold cluster_shape. conj; auto.
  - destruct Hspec as (Hi & Hlt & H). split; auto. split; auto. intros Hsym Hn1 c Hl Hc Hs Ha.
    destruct H as [Hroom Hfull]; auto; [apply start_room|simpl; lia|].
    specialize (Hroom c Hl Hc Hs Ha). rewrite apart_one in Hroom.
    destruct (@size_pos c) as [o Ho]; [lia|]. apply (Hroom o Ho). destruct Hi as (_ & _ & I3 & _).
    apply size_full; [lia|]. rewrite I3, <- Hl. apply member_lt. auto.
Qed.
End Init.

(** * Initial effects *)
Open Scope Q_scope.
From Verif Require Import L_model.
From Coq Require Import Lqa.
Lemma count_nonneg m : 0 <= inject_Z (Z.of_nat m).
Proof. unfold Qle; simpl. lia. Qed.
Lemma Qsum_pos l : Forall (fun q => 0 <= q) l -> (exists q, In q l /\ 0 < q) -> 0 < Qsum l.
Proof.
  intros H (q & Hin & Hq). destruct (Qlt_le_dec 0 (Qsum l)) as [|Hle]; auto. exfalso.
  assert (Hz : Qsum l == 0) by (pose proof (Qsum_nonneg H); lra).
  apply Qsum_zero in Hz; auto. rewrite Forall_forall in Hz. specialize (Hz q Hin). lra.
Qed.

Theorem initial_effect_spec features group applicable f app :
  observed_applicable features applicable -> nth_error applicable f = Some app -> In true app ->
  exists v, nth_error (initial_effect features group applicable) f = Some (Some v) /\ on_states app v.
Proof.
  intros Hobs Hf Hin. unfold initial_effect. rewrite nth_error_mapi, Hf. simpl.
  set (c := sites_per_state features group app f).
  assert (Hc : forall s, nth_error c s = option_map (fun a : bool => inject_Z (Z.of_nat (count_state features group f s)) + (if a then 1 else 0)) (nth_error app s)).
  { intros s. unfold c, sites_per_state. apply nth_error_mapi. }
  assert (Hnn : Forall (fun q => 0 <= q) c).
  { apply Forall_forall. intros q Hq. apply In_nth_error in Hq as [s Hs]. rewrite Hc in Hs.
    destruct (nth_error app s) as [a|]; [|discriminate]. injection Hs as <-.
    pose proof (@count_nonneg (count_state features group f s)). destruct a; lra. }
  assert (Hpos : 0 < Qsum c).
  { apply Qsum_pos; auto. apply In_nth_error in Hin as [s Hs]. exists (inject_Z (Z.of_nat (count_state features group f s)) + 1). split.
    - apply nth_error_In with s. rewrite Hc, Hs. reflexivity.
    - pose proof (@count_nonneg (count_state features group f s)). lra. }
  destruct (Qeq_bool (Qsum c) 0) eqn:E; [apply Qeq_bool_iff in E; lra|].
  exists (map (fun q => q / Qsum c) c). split; [reflexivity|]. unfold on_states. conj.
  - rewrite map_length. unfold c, sites_per_state. apply mapi_length.
  - unfold Qdiv. rewrite Qsum_scale. apply Qmult_inv_r. lra.
  - intros s q a Hq Ha. rewrite nth_error_map, Hc, Ha in Hq. simpl in Hq. injection Hq as <-.
    pose proof (@count_nonneg (count_state features group f s)) as Hcn. destruct a.
    + apply Qlt_shift_div_l; auto. lra.
    + assert (Hz : count_state features group f s = 0%nat).
      { unfold count_state. destruct (filter _ _) as [|o r] eqn:Ef; auto. exfalso.
        assert (Ho : In o (filter (fun o => nth s (nth f (nth o features []) []) false) (nonzero group))) by (rewrite Ef; left; auto).
        apply filter_In in Ho as [_ Ho]. apply Hobs in Ho. rewrite (nth_error_nth _ _ [] Hf), (nth_error_nth _ _ false Ha) in Ho. discriminate. }
      rewrite Hz. simpl. unfold Qdiv. change (inject_Z 0) with 0. ring.
Qed.

(** * The whole function *)
Open Scope nat_scope.
Lemma while_fuel n adj k nc rnd : forall fuel attempts l st r,
  while_loop n adj k nc rnd fuel attempts l st = Some r -> forall fuel', fuel <= fuel' ->
  while_loop n adj k nc rnd fuel' attempts l st = Some r.
Proof.
  induction fuel as [|fuel IH]; intros attempts l st r H fuel' Hf; [discriminate|].
  destruct fuel' as [|fuel']; [lia|]. simpl in *. destruct (for_loop n adj k rnd l st) as [[] st'].
  - destruct (n_generated st' =? nc); auto. apply IH; auto. lia.
  - destruct (attempts <? 1000); auto. destruct (n_generated st' =? nc); auto. apply IH; auto. lia.
Qed.
Lemma generate_fuel n adj k nc rnd prev fuel fuel' r : fuel <= fuel' ->
  generate_initial_clusters n adj k nc rnd prev fuel = Some r -> generate_initial_clusters n adj k nc rnd prev fuel' = Some r.
Proof.
  intros Hf. unfold generate_initial_clusters. destruct (nc =? 0); auto. destruct (nc <? length prev); auto.
  intros H. eapply while_fuel; eauto.
Qed.
Lemma initial_clusters_terminate n adj k nc rnd prev :
  1 <= k -> length adj = n -> Forall (fun c => length c = n) prev -> disjoint_groups prev ->
  exists r, forall fuel, 1001 <= fuel -> generate_initial_clusters n adj k nc rnd prev fuel = Some r.
Proof.
  intros Hk Ha Hp Hd. destruct (Nat.eq_dec nc 0) as [->|Hn]; [eexists; intros; reflexivity|].
  destruct (Nat.lt_ge_cases nc (length prev)) as [Hl|Hl].
  - exists Index_error. intros. unfold generate_initial_clusters. destruct (Nat.eqb_spec nc 0); [lia|].
    destruct (Nat.ltb_spec nc (length prev)); [auto|lia].
  - destruct (@generate_spec n adj k nc rnd Hk Ha prev Hp Hd Hl ltac:(lia)) as (r & Hr & _).
    exists r. intros fuel Hf. eapply generate_fuel; eauto.
Qed.
Lemma agree_fuel n adj k nc rnd prev f1 f2 r1 r2 :
  generate_initial_clusters n adj k nc rnd prev f1 = Some r1 -> generate_initial_clusters n adj k nc rnd prev f2 = Some r2 -> r1 = r2.
Proof.
  intros H1 H2. apply generate_fuel with (fuel' := f1 + f2) in H1; [|lia]. apply generate_fuel with (fuel' := f1 + f2) in H2; [|lia]. congruence.
Qed.
Lemma initial_clusters_spec n adj k nc rnd prev fuel cl :
  1 <= k -> length adj = n -> Forall (fun c => length c = n) prev -> disjoint_groups prev ->
  generate_initial_clusters n adj k nc rnd prev fuel = Some (Clusters_ok cl) -> 0 < nc ->
  cluster_shape nc n cl /\ firstn (length prev) cl = prev /\ disjoint_groups cl /\
  forall i, length prev <= i < nc -> size (nth i cl []) = k /\ connected adj (nth i cl []).
Proof.
  intros Hk Ha Hp Hd H Hn. destruct (Nat.lt_ge_cases nc (length prev)) as [Hl|Hl].
  - exfalso. unfold generate_initial_clusters in H. destruct (Nat.eqb_spec nc 0); [lia|].
    destruct (Nat.ltb_spec nc (length prev)); [discriminate|lia].
  - destruct (@generate_spec n adj k nc rnd Hk Ha prev Hp Hd Hl Hn) as (r & Hr & Hs).
    rewrite <- (agree_fuel H Hr) in Hs. exact Hs.
Qed.
Lemma initial_clusters_error n adj k nc rnd prev fuel st :
  1 <= k -> length adj = n -> Forall (fun c => length c = n) prev -> disjoint_groups prev ->
  generate_initial_clusters n adj k nc rnd prev fuel = Some (Value_error st) ->
  symmetric adj -> n <= 1000 ->
  n_generated st < nc /\
  forall c, length c = n -> connected adj c -> k <= size c -> ~ apart c (initial_clusters st).
Proof.
  intros Hk Ha Hp Hd H Hsym Hn. destruct (Nat.eq_dec nc 0) as [->|Hnc]; [discriminate|].
  destruct (Nat.lt_ge_cases nc (length prev)) as [Hl|Hl].
  - exfalso. unfold generate_initial_clusters in H. destruct (Nat.eqb_spec nc 0); [lia|].
    destruct (Nat.ltb_spec nc (length prev)); [discriminate|lia].
  - destruct (@generate_spec n adj k nc rnd Hk Ha prev Hp Hd Hl ltac:(lia)) as (r & Hr & Hs).
    rewrite <- (agree_fuel H Hr) in Hs. destruct Hs as (_ & H1 & H2). auto.
Qed.
Lemma single_cluster_found n adj k rnd prev c :
  1 <= k -> length adj = n -> Forall (fun c => length c = n) prev -> disjoint_groups prev -> symmetric adj -> n <= 1000 ->
  length c = n -> connected adj c -> k <= size c -> apart c prev ->
  exists cl, generate_initial_clusters n adj k (S (length prev)) rnd prev 1001 = Some (Clusters_ok cl).
Proof.
  intros Hk Ha Hp Hd Hsym Hn Hl Hc Hs Hap.
  destruct (@generate_spec n adj k (S (length prev)) rnd Hk Ha prev Hp Hd ltac:(lia) ltac:(lia)) as (r & Hr & H).
  destruct r as [cl|st|]; [eauto| |contradiction]. exfalso. destruct H as (Hi & Hlt & H).
  apply (H Hsym Hn c Hl Hc Hs). intros o i Ho Hoi. destruct Hi as (I1 & I2 & I3 & I4 & I5 & I6 & _).
  destruct (Nat.lt_ge_cases i (length prev)) as [Hlt'|Hge].
  - apply (Hap o i Ho). rewrite <- (firstn_skipn (length prev) (initial_clusters st)), I6, app_nth1 in Hoi by auto. auto.
  - apply (I5 i ltac:(lia) o Hoi).
Qed.
