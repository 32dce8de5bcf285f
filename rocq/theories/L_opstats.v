(** Lemmas on the operator statistics file. *)
From Coq Require Import Lqa Lia.
From Verif Require Import L_mcmc L_text S_opstats.
Set Implicit Arguments.
Unset Strict Implicit.
Open Scope nat_scope.

(** * Text *)
Lemma rstrip_spaces k : rstrip (repeat space k) = [].
Proof. induction k; simpl; auto. rewrite IHk. destruct (ascii_dec space space); congruence. Qed.
Lemma rstrip_app s k : rstrip (s ++ repeat space k) = rstrip s.
Proof. induction s as [|c s IH]; simpl; [apply rstrip_spaces|]. rewrite IH. auto. Qed.
Lemma rstrip_id s : last s underscore <> space -> rstrip s = s.
Proof.
  induction s as [|c s IH]; auto. intros H. simpl. destruct s as [|d s].
  - simpl in *. destruct (ascii_dec c space); congruence.
  - rewrite IH by exact H. reflexivity.
Qed.
Lemma rstrip_ljust s w : last s underscore <> space -> rstrip (ljust s w) = s.
Proof. intros H. unfold ljust. rewrite rstrip_app. apply rstrip_id; auto. Qed.
Lemma digits_last s : Forall digit_char s -> last s underscore <> space.
Proof.
  intros F. assert (H : s = [] \/ digit_char (last s underscore)).
  { induction F as [|c s Hc F IH]; auto. right. destruct s; [exact Hc|]. destruct IH as [E|E]; [discriminate|exact E]. }
  destruct H as [->|H]; [discriminate|]. intros E. rewrite E in H. unfold digit_char in H. simpl in H.
  repeat (destruct H as [H|H]; [discriminate|]). exact H.
Qed.
Lemma ljust_no c s w : c <> space -> ~ In c s -> ~ In c (ljust s w).
Proof.
  unfold ljust. intros Hc Hs H. apply in_app_or in H as [H|H]; auto. apply repeat_spec in H. auto.
Qed.

(** * Numbers *)
Lemma decimal_uint d : forall acc, decimal acc (s_ (NilEmpty.string_of_uint d)) = Some (Nat.of_uint_acc d acc).
Proof.
  induction d; intros acc; auto; cbn [NilEmpty.string_of_uint s_ list_ascii_of_string decimal];
    match goal with |- context [digit ?c] => let v := eval compute in (digit c) in change (digit c) with v end;
    cbv iota beta; unfold s_ in IHd; rewrite IHd; cbn [Nat.of_uint_acc]; rewrite Nat.tail_mul_spec; do 2 f_equal; lia.
Qed.
Lemma read_str_nat n : read_nat (str_nat n) = Some n.
Proof.
  unfold str_nat. pose proof (DecimalNat.Unsigned.of_to n) as H. destruct (Nat.to_uint n) eqn:E; cbn [NilZero.string_of_uint].
  1: { simpl in H. subst n. reflexivity. }
  all: rewrite <- H; unfold Nat.of_uint; rewrite <- decimal_uint; reflexivity.
Qed.
Lemma str_nat_last n : last (str_nat n) underscore <> space.
Proof. apply digits_last, str_nat_digits. Qed.
Lemma str_nat_dash n : str_nat n <> s_ "-".
Proof. intros E. pose proof (read_str_nat n) as H. rewrite E in H. discriminate. Qed.

Lemma round_spec q : (inject_Z (round_half_even q) - q <= 1 # 2 /\ q - inject_Z (round_half_even q) <= 1 # 2)%Q.
Proof.
  unfold round_half_even. pose proof (Qfloor_le q) as H1. pose proof (Qlt_floor q) as H2.
  assert (E : (inject_Z (Qfloor q + 1) == inject_Z (Qfloor q) + 1)%Q) by (rewrite inject_Z_plus; reflexivity).
  rewrite E in H2. destruct (q - inject_Z (Qfloor q) ?= 1 # 2)%Q eqn:C.
  - apply Qeq_alt in C. destruct (Z.even _); rewrite ?E; split; lra.
  - apply Qlt_alt in C. split; lra.
  - apply Qgt_alt in C. rewrite E. split; lra.
Qed.
Lemma round_nonneg q : (0 <= q)%Q -> (0 <= round_half_even q)%Z.
Proof.
  intros H. unfold round_half_even. pose proof (Qfloor_resp_le 0 q H) as F. change (Qfloor 0) with 0%Z in F.
  destruct (_ ?= _)%Q; [destruct (Z.even _)| |]; lia.
Qed.
Lemma small_digit d : d < 10 -> exists c, str_nat d = [c] /\ digit c = Some d.
Proof. intros H. do 10 (destruct d as [|d]; [eexists; split; [reflexivity|reflexivity]|]). lia. Qed.
Lemma percent_parts n : 10 * (n mod 100 / 10) + n mod 10 = n mod 100 /\ n mod 100 / 10 < 10 /\ n mod 10 < 10.
Proof.
  pose proof (Nat.mod_upper_bound n 100). pose proof (Nat.mod_upper_bound n 10).
  assert (E : n mod 10 = (n mod 100) mod 10).
  { change 100 with (10 * 10). rewrite Nat.mod_mul_r by lia. rewrite Nat.mul_comm, Nat.mod_add by lia. rewrite Nat.mod_mod; lia. }
  rewrite E. pose proof (Nat.div_mod_eq (n mod 100) 10). pose proof (Nat.mod_upper_bound (n mod 100) 10).
  repeat split; lia.
Qed.
Lemma read_fmt_percent q : (0 <= q)%Q -> exists p, read_percent (fmt_percent q) = Some p /\ (Qabs (p - q) <= 1 # 200)%Q.
Proof.
  intros H. unfold fmt_percent. set (n := Z.to_nat (round_half_even (q * 100))).
  destruct (percent_parts n) as (P1 & P2 & P3).
  destruct (small_digit P2) as (x & Ex & Dx). destruct (small_digit P3) as (y & Ey & Dy). rewrite Ex, Ey.
  eexists. split.
  - unfold read_percent. change (s_ ".") with ["."%char]. change (s_ "%") with ["%"%char]. cbn [app].
    rewrite cut_app by (apply str_nat_no; unfold digit_char; simpl; intuition discriminate).
    destruct (ascii_dec "%" "%"); [|congruence]. rewrite read_str_nat.
    unfold read_nat. cbn [decimal]. rewrite Dx. cbn [decimal]. rewrite Dy. reflexivity.
  - replace (10 * (10 * 0 + n mod 100 / 10) + n mod 10) with (n mod 100) by lia.
    assert (E : (inject_Z (Z.of_nat (n / 100)) + inject_Z (Z.of_nat (n mod 100)) / 100 == inject_Z (Z.of_nat n) / 100)%Q).
    { pose proof (Nat.div_mod_eq n 100) as D. set (a := n / 100) in *. set (b := n mod 100) in *. clearbody a b.
      rewrite D. rewrite Nat2Z.inj_add, Nat2Z.inj_mul, inject_Z_plus, inject_Z_mult. change (inject_Z (Z.of_nat 100)) with 100%Q. field. }
    rewrite E. assert (Hn : Z.of_nat n = round_half_even (q * 100)).
    { unfold n. apply Z2Nat.id. apply round_nonneg. lra. }
    rewrite Hn. pose proof (round_spec (q * 100)) as [R1 R2].
    set (z := inject_Z (round_half_even (q * 100))) in *. clearbody z.
    assert (Ez : (z / 100 == z * (1 # 100))%Q) by field. rewrite Ez.
    apply Qabs_Qle_condition. split; lra.
Qed.
Lemma fmt_percent_chars q c : In c (fmt_percent q) -> digit_char c \/ c = "."%char \/ c = "%"%char.
Proof.
  assert (D : forall n, In c (str_nat n) -> digit_char c) by (intros n; apply Forall_forall; apply str_nat_digits).
  unfold fmt_percent. cbv zeta. rewrite !in_app_iff. change (s_ ".") with ["."%char]. change (s_ "%") with ["%"%char].
  cbn [In]. intros [H|[[H|[]]|[H|[H|[H|[]]]]]]; eauto.
Qed.
Lemma fmt_percent_last q : last (fmt_percent q) underscore = "%"%char.
Proof. unfold fmt_percent. rewrite !app_assoc. apply last_last. Qed.
Lemma rate_nonneg a b : (0 <= 100 * (inject_Z (Z.of_nat a) / inject_Z (Z.of_nat b)))%Q.
Proof.
  assert (0 <= inject_Z (Z.of_nat a) / inject_Z (Z.of_nat b))%Q.
  { unfold Qdiv. apply Qmult_le_0_compat; [|apply Qinv_le_0_compat]; change 0%Q with (inject_Z 0); rewrite <- Zle_Qle; lia. }
  lra.
Qed.

(** * The table *)
Lemma tab_digit : ~ digit_char tab. Proof. unfold digit_char; simpl; intuition discriminate. Qed.
Lemma newline_digit : ~ digit_char newline. Proof. unfold digit_char; simpl; intuition discriminate. Qed.
Lemma row_cells o : exists cells, get_log_message_row o = join [tab] cells /\ length cells = 5 /\
  forall c, c <> space -> (c = tab \/ c = newline) -> ~ In c (op_name o) -> forall x, In x cells -> ~ In c x.
Proof.
  unfold get_log_message_row. destruct (op_total o =? 0).
  - eexists. split; [reflexivity|]. split; [reflexivity|]. intros c Hc Ht Hn x Hx. cbn in Hx.
    repeat (destruct Hx as [Hx|Hx]; [subst x; first [apply ljust_no; auto|destruct Ht as [->| ->]; simpl; intuition discriminate]|]). destruct Hx.
  - eexists. split; [reflexivity|]. split; [reflexivity|]. intros c Hc Ht Hn x Hx.
    assert (D : ~ digit_char c) by (destruct Ht as [-> | ->]; [apply tab_digit|apply newline_digit]).
    cbn [In] in Hx. destruct Hx as [Hx|[Hx|[Hx|[Hx|[Hx|[]]]]]]; subst x;
      try (apply ljust_no; auto; apply str_nat_no; auto).
    intros H. apply fmt_percent_chars in H as [H|[H|H]]; auto; destruct Ht; subst; discriminate.
Qed.
Lemma row_no_newline o : clean_name (op_name o) -> ~ In newline (get_log_message_row o).
Proof.
  intros (_ & H & _). destruct (row_cells o) as (cells & -> & _ & Hc). apply not_in_join; [simpl; intuition discriminate|].
  apply Hc; auto. discriminate.
Qed.
Lemma read_row o : clean_name (op_name o) -> exists e, read_entry (get_log_message_row o) = Some e /\ shows (op_name o) (op_accepts o) (op_rejects o) e.
Proof.
  intros (Ht & Hn & Hl). pose proof (row_cells o) as (cells & E & _ & Hc).
  unfold read_entry. unfold get_log_message_row in *.
  destruct (Nat.eqb_spec (op_total o) 0) as [E0|E0].
  - rewrite split_join; [|discriminate|].
    + cbn [mapi mapi_from map]. rewrite (@rstrip_ljust (op_name o)) by auto.
      rewrite !(@rstrip_ljust (s_ "-")) by discriminate. eexists. split; [reflexivity|].
      split; [reflexivity|]. simpl. unfold op_total in E0. lia.
    + intros a Ha. cbn in Ha.
      repeat (destruct Ha as [Ha|Ha]; [subst a; first [apply ljust_no; [discriminate|auto]|simpl; intuition discriminate]|]). destruct Ha.
  - rewrite split_join; [|discriminate|].
    + cbn [map]. rewrite !rstrip_ljust by (auto; apply str_nat_last).
      rewrite rstrip_id by (rewrite fmt_percent_last; discriminate).
      assert (F : forallb (str_eqb (s_ "-")) [str_nat (op_accepts o); str_nat (op_rejects o); str_nat (op_total o); fmt_percent (100 * op_rate o)] = false).
      { cbn [forallb]. replace (str_eqb (s_ "-") (str_nat (op_accepts o))) with false; auto.
        symmetry. apply not_true_is_false. rewrite str_eqb_eq. intros H. symmetry in H. apply str_nat_dash in H. auto. }
      rewrite F, !read_str_nat. destruct (@read_fmt_percent (100 * op_rate o)) as (p & -> & Hp); [apply rate_nonneg|].
      eexists. split; [reflexivity|]. split; [reflexivity|]. simpl. unfold op_rate, op_total in *. repeat split; auto. lia.
    + intros a Ha. cbn [In] in Ha. destruct Ha as [Ha|[Ha|[Ha|[Ha|[Ha|[]]]]]]; subst a;
        try (apply ljust_no; [discriminate|auto; apply str_nat_no, tab_digit]).
      intros H. apply fmt_percent_chars in H as [H|[H|H]]; try discriminate. apply tab_digit in H. auto.
Qed.
Lemma lines_of rows : (forall r, In r rows -> ~ In newline r) -> text_lines (concat (map (fun r => r ++ [newline]) rows)) = rows.
Proof.
  intros H. unfold text_lines. induction rows as [|r rows IH]; auto.
  cbn [map concat]. rewrite <- app_assoc. cbn [app]. rewrite split_app by (apply H; simpl; auto).
  rewrite <- IH at 2 by (intros; apply H; simpl; auto). remember (split newline (concat _)) as t eqn:Et.
  destruct t; [symmetry in Et; apply split_nonempty in Et; destruct Et|]. reflexivity.
Qed.
Lemma header_no_newline : ~ In newline get_log_message_header.
Proof. vm_compute. intuition discriminate. Qed.
Lemma read_written ops : Forall (fun o => clean_name (op_name o)) ops -> exists es,
  read_stats (write_to ops) = Some (map s_ ["OPERATOR"; "ACCEPTS"; "REJECTS"; "TOTAL"; "ACC. RATE"]%string, es) /\
  Forall2 (fun o e => shows (op_name o) (op_accepts o) (op_rejects o) e) ops es.
Proof.
  intros F. unfold read_stats.
  assert (E : text_lines (write_to ops) = get_log_message_header :: map get_log_message_row ops).
  { unfold write_to. rewrite <- (@lines_of (get_log_message_header :: map get_log_message_row ops)).
    - cbn [map concat]. rewrite map_map, <- app_assoc. reflexivity.
    - intros r [<-|Hr]; [apply header_no_newline|]. apply in_map_iff in Hr as (o & <- & Ho).
      rewrite Forall_forall in F. apply row_no_newline, F; auto. }
  rewrite E. assert (G : exists es, all_opt (map read_entry (map get_log_message_row ops)) = Some es /\
    Forall2 (fun o e => shows (op_name o) (op_accepts o) (op_rejects o) e) ops es).
  { clear E. induction F as [|o ops Ho F (es & IH1 & IH2)]; [exists []; split; [reflexivity|constructor]|].
    destruct (read_row Ho) as (e & E1 & E2). exists (e :: es). split; [|constructor; auto].
    cbn [map all_opt]. rewrite E1, IH1. reflexivity. }
  destruct G as (es & -> & G2). exists es. split; auto.
Qed.

(** * The file during a run *)
Section Run.
Variable S : Type.
Variables (ll pr : S -> xf).
Variable fp : bool.
Variable names : list str.
Let after := after ll pr fp.
Definition stats_text (sm : sampler S) : str := write_to (operators_of names (op_ops (statistics sm))).

Lemma after_split draws sm i todo sm' : after draws sm (i + todo) = Ok sm' -> exists sm0, after draws sm i = Ok sm0.
Proof.
  revert sm'. induction todo as [|t IH]; intros sm' H; [rewrite Nat.add_0_r in H; eauto|].
  rewrite Nat.add_succ_r in H. simpl in H. fold after in H. destruct (after draws sm (i + t)) eqn:E; [eauto|discriminate].
Qed.
Lemma stats_loop_after draws sm n_steps n_samples : n_steps <> 1 ->
  forall todo i sm0 disk sm', after draws sm i = Ok sm0 -> i + todo <= n_steps -> after draws sm (i + todo) = Ok sm' ->
  stats_loop ll pr fp names n_steps n_samples draws todo i sm0 disk =
  Ok (sm', fold_left (fun d j => if j mod steps_per_sample n_steps n_samples =? 0
                                 then match after draws sm (Datatypes.S j) with Ok s => Some (stats_text s) | Err _ => d end
                                 else d) (seq i todo) disk).
Proof.
  intros Hn. induction todo as [|todo IH]; intros i sm0 disk sm' H Hle Ha.
  - rewrite Nat.add_0_r in Ha. simpl. congruence.
  - destruct (@after_split draws sm (Datatypes.S i) todo sm') as [sm1 H1]; [rewrite <- Ha; f_equal; lia|].
    assert (Hst : step_all ll pr fp i (draws i) sm0 = Ok sm1).
    { pose proof H1 as H2. simpl in H2. fold after in H2. rewrite H in H2. exact H2. }
    cbn [stats_loop]. rewrite Hst. cbn [rbind]. destruct (Nat.eqb_spec (n_steps - 1) 0) as [E0|E0]; [lia|].
    rewrite (IH (Datatypes.S i) sm1 _ sm'); [|auto|lia|rewrite <- Ha; f_equal; lia].
    cbn [seq fold_left]. rewrite H1. reflexivity.
Qed.
Lemma fold_last (f : nat -> option str) d k : 0 < d -> forall m disk, 0 < m ->
  (forall j, f j <> None) ->
  fold_left (fun acc j => if j mod d =? 0 then f j else acc) (seq 0 ((m - 1) * d + 1 + k)) disk = f ((m - 1) * d) \/ d <= k.
Proof.
  intros Hd m disk Hm Hf. destruct (le_lt_dec d k) as [|Hk]; auto. left.
  rewrite seq_app, fold_left_app. rewrite seq_app, fold_left_app. cbn [seq fold_left Nat.add].
  rewrite Nat.mod_mul by lia. cbn [Nat.eqb]. generalize (f ((m - 1) * d)) as v. intros v.
  assert (G : forall l, (forall j, In j l -> j mod d <> 0) -> fold_left (fun acc j => if j mod d =? 0 then f j else acc) l v = v).
  { induction l as [|x l IHl]; intros H; auto. simpl. destruct (Nat.eqb_spec (x mod d) 0) as [E|E].
    - exfalso. apply (H x); simpl; auto.
    - apply IHl. intros; apply H; simpl; auto. }
  apply G. intros j Hj. apply in_seq in Hj. intros E. apply Nat.mod_divide in E; [|lia]. destruct E as [q ->].
  assert (m - 1 < q < m - 1 + 1); nia.
Qed.
Lemma run_stats_file (ss : list S) draws steps samples disk : valid_spacing steps samples -> 1 < steps -> positive_draws draws ->
  exists sm sm', after draws (init_sampler ll pr fp (length names) ss) steps = Ok sm /\
    after draws (init_sampler ll pr fp (length names) ss) (Datatypes.S ((samples - 1) * (steps / samples))) = Ok sm' /\
    stats_run ll pr fp names ss steps samples draws disk = Ok (sm, Some (stats_text sm')).
Proof.
  intros (H1 & H2 & H3) Hs Hp. set (sm0 := init_sampler ll pr fp (length names) ss).
  destruct (@after_ok S ll pr fp draws sm0 steps Hp) as [sm Hsm].
  destruct (@after_ok S ll pr fp draws sm0 (Datatypes.S ((samples - 1) * (steps / samples))) Hp) as [sm' Hsm'].
  exists sm, sm'. split; [exact Hsm|]. split; [exact Hsm'|].
  assert (Esps : steps_per_sample steps samples = steps / samples).
  { unfold steps_per_sample. pose proof (Nat.div_mod_eq steps samples) as D. rewrite H3, Nat.add_0_r in D.
    set (d := steps / samples) in *. clearbody d. rewrite D. rewrite Nat.mul_comm.
    replace (d * samples + samples - 1) with (samples - 1 + d * samples) by lia.
    rewrite Nat.div_add by lia. rewrite Nat.div_small by lia. lia. }
  pose proof (Nat.div_mod_eq steps samples) as D. rewrite H3, Nat.add_0_r in D.
  assert (Hd : 0 < steps / samples) by (destruct (steps / samples); lia).
  unfold stats_run. fold sm0. rewrite (@stats_loop_after draws sm0 steps samples ltac:(lia) steps 0 sm0 disk sm); auto.
  f_equal. f_equal. rewrite Esps. set (d := steps / samples) in *. clearbody d.
  set (f := fun j => match after draws sm0 (Datatypes.S j) with Ok s => Some (stats_text s) | Err _ => Some [] end).
  transitivity (fold_left (fun acc j => if j mod d =? 0 then f j else acc) (seq 0 steps) disk).
  { generalize (seq 0 steps) as l. intros l. generalize disk. induction l as [|x l IHl]; intros dk; auto. cbn [fold_left]. rewrite <- IHl. f_equal.
    unfold f. destruct (x mod d =? 0); auto. destruct (@after_ok S ll pr fp draws sm0 (Datatypes.S x) Hp) as [s E].
    fold after in E. rewrite E. reflexivity. }
  replace steps with ((samples - 1) * d + 1 + (d - 1)) by nia.
  destruct (@fold_last f d (d - 1) Hd samples disk H2) as [E|E]; [|rewrite E|lia].
  - intros j. unfold f. destruct (after draws sm0 _); discriminate.
  - unfold f. fold after in Hsm'. rewrite Hsm'. reflexivity.
Qed.
End Run.
