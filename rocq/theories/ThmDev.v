(** Theorems C151-C152: the default loss and the features of the importance-weighted validation score. *)
From Coq Require Import List ZArith QArith Bool Arith Lia Reals Lra Psatz.
From Verif Require Import Np NpFacts Labels Spec SpecFacts UtilsModel UtilsSpec UtilsProofs UtilsProofs2 SelectModel RVec RVecFacts
  MetricsModel MapModel MapSpec MapProofs ThmMap DevModel DevSpec.
Import ListNotations.
Local Open Scope nat_scope.

(** * C151 *)

Lemma eps15_pos : (0 < eps15)%R. Proof. unfold eps15. lra. Qed.
Lemma eps15_eq : eps15 = (/ 10 ^ 15)%R. Proof. unfold eps15. f_equal. lra. Qed.

Lemma clip_bounded p : bounded_away p (np_clip eps15 (1 - eps15) p).
Proof.
  unfold bounded_away, np_clip. rewrite eps15_eq.
  assert (H : (0 < / 10 ^ 15 < 1 / 4)%R) by lra.
  set (e := (/ 10 ^ 15)%R) in *. clearbody e.
  unfold Rmin, Rmax. repeat destruct Rle_dec; repeat split; intros; lra.
Qed.

Lemma bounded_away_fun p q q' : bounded_away p q -> bounded_away p q' -> q = q'.
Proof.
  intros [A [B C]] [A' [B' C']]. set (e := (/ 10 ^ 15)%R) in *. clearbody e.
  destruct (Rlt_dec p e); [rewrite A, A' by lra; reflexivity|].
  destruct (Rlt_dec (1 - e) p); [rewrite B, B' by lra; reflexivity|]. rewrite C, C' by lra. reflexivity.
Qed.

Lemma vsum_onehot n : forall i (l : list R) k, length l = n ->
  vsum (map2 Rmult (map (fun j => if j =? i then 1%R else 0%R) (seq k n)) l) =
  if (k <=? i) && (i <? k + n) then nth (i - k) l 0%R else 0%R.
Proof.
  induction n as [|n IH]; intros i l k H; destruct l as [|x l]; try discriminate; cbn [seq map map2 vsum].
  - destruct ((k <=? i) && (i <? k + 0)) eqn:E; auto. apply andb_prop in E as [A B]. apply Nat.leb_le in A. apply Nat.ltb_lt in B. lia.
  - injection H as H. rewrite (IH i l (S k) H).
    destruct (Nat.eqb_spec k i) as [->|N].
    + rewrite Nat.leb_refl. replace (i <? i + S n) with true by (symmetry; apply Nat.ltb_lt; lia).
      replace (S i <=? i) with false by (symmetry; apply Nat.leb_gt; lia).
      cbn [andb]. rewrite Nat.sub_diag. cbn [nth]. lra.
    + destruct (Nat.leb_spec k i).
      * replace (S k <=? i) with true by (symmetry; apply Nat.leb_le; lia). cbn [andb].
        replace (k + S n) with (S k + n) by lia.
        destruct (i <? S k + n); [|lra]. replace (i - k) with (S (i - S k)) by lia. cbn [nth]. lra.
      * replace (S k <=? i) with false by (symmetry; apply Nat.leb_gt; lia). cbn [andb]. lra.
Qed.

Lemma loss_at z p i : py_index (length p) z = Ok i ->
  exists pi q, nth_error p i = Some pi /\ bounded_away pi q /\ cross_entropy_loss (LInt z) p = Ok (- ln q)%R.
Proof.
  intros H. assert (L : i < length p).
  { unfold py_index in H. destruct ((0 <=? z) && (z <? Z.of_nat (length p)))%Z eqn:E.
    - injection H as <-. apply andb_prop in E as [A B]. apply Z.leb_le in A. apply Z.ltb_lt in B. lia.
    - destruct ((z <? 0) && (- Z.of_nat (length p) <=? z))%Z eqn:E2; [|discriminate]. injection H as <-.
      apply andb_prop in E2 as [A B]. apply Z.ltb_lt in A. apply Z.leb_le in B. lia. }
  destruct (nth_error p i) as [pi|] eqn:N; [|apply nth_error_None in N; lia].
  exists pi, (np_clip eps15 (1 - eps15) pi). split; [reflexivity|]. split; [apply clip_bounded|].
  unfold cross_entropy_loss, eye_row. rewrite H. cbn [bind]. f_equal. f_equal.
  rewrite vsum_onehot by (now rewrite !map_length).
  replace ((0 <=? i) && (i <? 0 + length p)) with true by (symmetry; apply andb_true_intro; split; [apply Nat.leb_le|apply Nat.ltb_lt]; lia).
  rewrite Nat.sub_0_r, map_map.
  apply nth_error_nth. rewrite nth_error_map, N. reflexivity.
Qed.

(** For labels 0, 1, ..., k - 1 the loss of every sample is the log-loss of its label, the probabilities being moved away from
    0 and 1 by 10^-15. *)
Theorem C151_labels_from_zero : forall k p y, length p = k -> (0 <= y < Z.of_nat k)%Z ->
  exists l, cross_entropy_loss (LInt y) p = Ok l /\ log_loss_of (map Z.of_nat (seq 0 k)) p y l.
Proof.
  intros k p y H B. destruct (loss_at y p (Z.to_nat y)) as [pi [q [N [Q E]]]].
  { unfold py_index. replace ((0 <=? y) && (y <? Z.of_nat (length p)))%Z with true; auto. symmetry. rewrite H.
    apply andb_true_intro; split; [apply Z.leb_le|apply Z.ltb_lt]; lia. }
  exists (- ln q)%R. split; auto. exists (Z.to_nat y), pi, q. repeat split; auto; try apply Q.
  rewrite nth_error_map. rewrite (nth_error_nth' _ 0) by (rewrite seq_length; lia).
  rewrite seq_nth by lia. cbn. f_equal. lia.
Qed.

(** One loss per validation sample, in order. *)
Theorem C151_one_per_sample : forall ys P losses, length ys = length P ->
  no_reduc_log_loss ys P = Ok losses ->
  length losses = length ys /\
  forall i y p l, nth_error ys i = Some y -> nth_error P i = Some p -> nth_error losses i = Some l -> cross_entropy_loss y p = Ok l.
Proof.
  intros ys P losses H E. unfold no_reduc_log_loss in E.
  assert (G : forall k ys l, mapM (fun iy : nat * label => p <- match nth_error P (fst iy) with Some p => Ok p | None => Err IndexError end ;; cross_entropy_loss (snd iy) p)
     (combine (seq k (length ys)) ys) = Ok l -> length l = length ys /\
     forall i y p a, nth_error ys i = Some y -> nth_error P (k + i) = Some p -> nth_error l i = Some a -> cross_entropy_loss y p = Ok a).
  { clear. intros k ys. revert k. induction ys as [|y ys IH]; intros k l E; cbn [length seq combine mapM] in E.
    - injection E as <-. split; auto. intros [|i]; discriminate.
    - apply bind_ok in E as [a [Ea E]]. apply bind_ok in E as [l' [El E]]. injection E as <-.
      apply IH in El as [L F]. split; [cbn; lia|]. intros [|i] y0 p0 a0 Hy Hp Ha.
      + injection Hy as <-. injection Ha as <-. cbn [fst snd] in Ea. rewrite Nat.add_0_r in Hp. rewrite Hp in Ea. exact Ea.
      + apply (F i y0 p0 a0); auto. now rewrite <- Nat.add_succ_comm in Hp. }
  exact (G 0 ys losses E).
Qed.

(** Non-negative and at most 15 log 10. *)
Theorem C151_range : forall y p l, cross_entropy_loss (LInt y) p = Ok l -> (0 <= l <= 15 * ln 10)%R.
Proof.
  intros y p l E. destruct (py_index (length p) y) as [i|e] eqn:I.
  2:{ unfold cross_entropy_loss, eye_row in E. rewrite I in E. discriminate. }
  destruct (loss_at y p i I) as [pi [q [_ [Q E2]]]]. rewrite E in E2. injection E2 as ->.
  assert (B : (/ 10 ^ 15 <= q <= 1 - / 10 ^ 15)%R).
  { destruct Q as [A [B C]]. assert (H : (0 < / 10 ^ 15 < 1 / 4)%R) by lra. set (e := (/ 10 ^ 15)%R) in *. clearbody e.
    destruct (Rlt_dec pi e); [rewrite A by lra; lra|]. destruct (Rlt_dec (1 - e) pi); [rewrite B by lra; lra|]. rewrite C by lra. lra. }
  assert (P : (0 < / 10 ^ 15)%R) by lra.
  assert (L15 : ln (/ 10 ^ 15) = (- (15 * ln 10))%R).
  { rewrite ln_Rinv by (apply pow_lt; lra). f_equal.
    assert (X : forall n, ln (10 ^ n) = (INR n * ln 10)%R).
    { induction n as [|n IH]; [cbn; rewrite ln_1; lra|]. rewrite S_INR. cbn [pow]. rewrite ln_mult by (try apply pow_lt; lra). rewrite IH. lra. }
    rewrite X. f_equal. cbn. lra. }
  split.
  - assert (ln q <= ln 1)%R; [|rewrite ln_1 in *; lra]. destruct (Req_dec q 1) as [->|]; [lra|]. left. apply ln_increasing; lra.
  - assert (ln (/ 10 ^ 15) <= ln q)%R; [|lra]. destruct (Req_dec (/ 10 ^ 15) q) as [->|]; [lra|]. left. apply ln_increasing; lra.
Qed.

Definition point_mass (k i : nat) : list R := map (fun j => if j =? i then 1%R else 0%R) (seq 0 k).
Lemma point_mass_nth k i j : j < k -> nth_error (point_mass k i) j = Some (if j =? i then 1%R else 0%R).
Proof.
  intros H. unfold point_mass. rewrite nth_error_map, (nth_error_nth' _ 0) by (rewrite seq_length; lia). now rewrite seq_nth by lia.
Qed.
Lemma point_mass_distribution k i : i < k -> distribution (point_mass k i).
Proof.
  intros H. split.
  - apply Forall_map, Forall_forall. intros j _. destruct (j =? i); lra.
  - unfold point_mass. assert (G : forall n s, fold_right Rplus 0%R (map (fun j => if j =? i then 1%R else 0%R) (seq s n)) = if (s <=? i) && (i <? s + n) then 1%R else 0%R).
    { induction n as [|n IH]; intros s; cbn [seq map fold_right].
      - destruct ((s <=? i) && (i <? s + 0)) eqn:E; auto. apply andb_prop in E as [A B]. apply Nat.leb_le in A. apply Nat.ltb_lt in B. lia.
      - rewrite IH. destruct (Nat.eqb_spec s i) as [->|N].
        + rewrite Nat.leb_refl. replace (i <? i + S n) with true by (symmetry; apply Nat.ltb_lt; lia).
          replace (S i <=? i) with false by (symmetry; apply Nat.leb_gt; lia). cbn [andb]. lra.
        + replace (s + S n) with (S s + n) by lia. destruct (Nat.leb_spec (S s) i), (Nat.leb_spec s i); try lia; lra. }
    rewrite G. replace ((0 <=? i) && (i <? 0 + k)) with true; auto. symmetry. apply andb_true_intro. split; [apply Nat.leb_le|apply Nat.ltb_lt]; lia.
Qed.

(** For any other set of non-negative labels some label has a wrong loss, or none at all: the label is used as a column number. *)
Theorem C151_other_labels_refuted : forall classes,
  classes <> [] -> increasing classes -> Forall (fun c => 0 <= c)%Z classes -> classes <> map Z.of_nat (seq 0 (length classes)) ->
  exists y p, In y classes /\ length p = length classes /\ distribution p /\
    forall l, cross_entropy_loss (LInt y) p = Ok l -> ~ log_loss_of classes p y l.
Proof.
  intros classes NE Inc NN D. set (k := length classes).
  assert (K : 0 < k) by (destruct classes; [congruence|cbn; lia]).
  assert (X : exists i c, nth_error classes i = Some c /\ c <> Z.of_nat i).
  { clear NE Inc NN K. unfold k in *. clear k.
    assert (G : forall cs s, cs <> map Z.of_nat (seq s (length cs)) -> exists i c, nth_error cs i = Some c /\ c <> Z.of_nat (s + i)).
    { induction cs as [|c cs IH]; intros s H; [now cbn in H|].
      destruct (Z.eq_dec c (Z.of_nat s)) as [->|N].
      - destruct (IH (S s)) as [i [c [A B]]].
        + intros E. apply H. cbn [length seq map]. now rewrite <- E.
        + exists (S i), c. split; auto. now rewrite <- Nat.add_succ_comm.
      - exists 0, c. rewrite Nat.add_0_r. auto. }
    destruct (G classes 0 D) as [i [c [A B]]]. exists i, c. auto. }
  destruct X as [i [c [Hc N]]].
  assert (Hi : i < k) by (apply nth_error_Some; congruence).
  assert (C0 : (0 <= c)%Z) by (eapply Forall_forall in NN; [exact NN|eapply nth_error_In; eauto]).
  destruct (Z_lt_dec c (Z.of_nat k)) as [B|B].
  - exists c, (point_mass k (Z.to_nat c)). split; [eapply nth_error_In; eauto|].
    split; [unfold point_mass; now rewrite map_length, seq_length|]. split; [apply point_mass_distribution; lia|].
    intros l E [j [pj [q [J1 [J2 [J3 J4]]]]]].
    assert (j = i).
    { destruct (Nat.lt_trichotomy j i) as [W|[W|W]]; auto.
      - pose proof (Inc j i c c W J1 Hc). lia.
      - pose proof (Inc i j c c W Hc J1). lia. }
    subst j. rewrite point_mass_nth in J2 by auto. replace (i =? Z.to_nat c) with false in J2 by (symmetry; apply Nat.eqb_neq; lia).
    injection J2 as <-. destruct J3 as [J3 _]. rewrite J3 in J4 by lra. clear J3.
    destruct (loss_at c (point_mass k (Z.to_nat c)) (Z.to_nat c)) as [pi [q' [P1 [P2 P3]]]].
    { unfold py_index. unfold point_mass at 1 2. rewrite map_length, seq_length.
      replace ((0 <=? c) && (c <? Z.of_nat k))%Z with true; auto. symmetry. apply andb_true_intro; split; [apply Z.leb_le|apply Z.ltb_lt]; lia. }
    rewrite point_mass_nth, Nat.eqb_refl in P1 by lia. injection P1 as <-. destruct P2 as [_ [P2 _]]. rewrite P2 in P3 by lra.
    rewrite E in P3. injection P3 as P3. rewrite J4 in P3.
    apply Ropp_eq_compat in P3. rewrite !Ropp_involutive in P3. rename P3 into W.
    apply ln_inv in W; lra.
  - exists c, (point_mass k 0). split; [eapply nth_error_In; eauto|].
    split; [unfold point_mass; now rewrite map_length, seq_length|]. split; [apply point_mass_distribution; lia|].
    intros l E. exfalso. unfold cross_entropy_loss, eye_row, py_index in E. unfold point_mass at 1 2 3 in E. rewrite map_length, seq_length in E.
    replace ((0 <=? c) && (c <? Z.of_nat k))%Z with false in E by (symmetry; apply andb_false_intro2, Z.ltb_ge; lia).
    replace ((c <? 0) && (- Z.of_nat k <=? c))%Z with false in E by (symmetry; apply andb_false_intro1, Z.ltb_ge; lia).
    discriminate.
Qed.

(** Class labels stored as floats are refused. *)
Theorem C151_float_labels_refuted : forall q qs P, no_reduc_log_loss (LFloat q :: qs) P = Err IndexError.
Proof. intros q qs P. unfold no_reduc_log_loss. cbn. destruct P; reflexivity. Qed.

(** Labels {0, 1, 2}: -log of the probability of the label's class. *)
Example C151_ex : exists l, cross_entropy_loss (LInt 2) [1/4; 1/4; 1/2]%R = Ok l /\ l = (- ln (1/2))%R.
Proof.
  destruct (C151_labels_from_zero 3 [1/4; 1/4; 1/2]%R 2 eq_refl ltac:(lia)) as [l [E [i [pi [q [H1 [H2 [H3 H4]]]]]]]].
  exists l. split; auto. rewrite H4. destruct i as [|[|[|i]]]; cbn in H1; try discriminate.
  - injection H2 as <-. destruct H3 as [_ [_ H3]]. rewrite H3 by lra. reflexivity.
  - destruct i; discriminate.
Qed.
(** Labels {1, 2}: label 1 is charged with the probability of class 2, label 2 raises. *)
Example C151_refuted_ex :
  (exists l, cross_entropy_loss (LInt 1) [9/10; 1/10]%R = Ok l /\ l = (- ln (1/10))%R) /\
  cross_entropy_loss (LInt 2) [9/10; 1/10]%R = Err IndexError /\ increasing [1; 2]%Z.
Proof.
  split; [|split].
  - destruct (loss_at 1 [9/10; 1/10]%R 1 eq_refl) as [pi [q [N [Q E]]]]. injection N as <-. exists (- ln q)%R. split; auto.
    destruct Q as [_ [_ Q]]. rewrite Q by lra. reflexivity.
  - reflexivity.
  - intros [|[|i]] [|[|j]] a b H Ha Hb; try lia; cbn in Ha, Hb; try (injection Ha as <-); try (injection Hb as <-); try lia;
      try (destruct i; discriminate); try (destruct j; discriminate).
Qed.

(** * C152 *)

Definition pipeline_of (ts : list transform_fn) (last : pstep) : scored := SPipe (map (fun t => mkP (Some t)) ts ++ [last]).

Lemma run_passed ts : forall X sda allow F, run_steps (map (fun t => mkP (Some t)) ts) X sda allow = Ok F <-> passed sda allow ts X F.
Proof.
  induction ts as [|t ts IH]; intros X sda allow F; cbn [map run_steps p_transform].
  - split; intros H; [injection H as ->; constructor|inversion H; reflexivity].
  - split; intros H.
    + apply bind_ok in H as [Y [A B]]. econstructor; eauto. now apply IH.
    + inversion H as [|t1 ts1 X1 Y1 F1 A B]; subst. rewrite A. cbn [bind]. now apply IH.
Qed.

Lemma combine_snoc {A B} (a : list A) (b : list B) x y : length a = length b -> combine (a ++ [x]) (b ++ [y]) = combine a b ++ [(x, y)].
Proof. revert b. induction a as [|h a IH]; intros [|h' b] H; try discriminate; cbn; auto. injection H as H. now rewrite IH. Qed.

Lemma last_is_last steps s : last_transformer (steps ++ [s]) = if has_transform s then Some (length steps) else last_transformer steps.
Proof.
  unfold last_transformer. rewrite app_length. cbn [length]. rewrite Nat.add_1_r, seq_S. cbn [Nat.add].
  rewrite combine_snoc by (now rewrite seq_length). rewrite rev_app_distr. cbn [rev app find fst snd].
  destruct (has_transform s); reflexivity.
Qed.

(** What the features are: the array passed through all the transforms, without its domain labels; through the last step
    too when it can transform. *)
Theorem C152_features : forall ts last, (exists f, dev_transformer (pipeline_of ts last) = Ok f /\
  forall X F, f X = Ok F <-> passed SDNone false (ts ++ match p_transform last with Some t => [t] | None => [] end) X F).
Proof.
  intros ts last. unfold pipeline_of, dev_transformer. rewrite last_is_last.
  destruct last as [[t|]]; cbn [has_transform p_transform].
  - eexists. split; [reflexivity|]. intros X F. rewrite map_length.
    rewrite firstn_all2 by (rewrite app_length, map_length; cbn; lia).
    change [{| p_transform := Some t |}] with (map (fun t => mkP (Some t)) [t]). rewrite <- map_app. apply run_passed.
  - rewrite app_nil_r. destruct ts as [|t0 ts'] using rev_ind.
    + cbn. eexists. split; [reflexivity|]. intros X F. split; intros H; [injection H as ->; constructor|inversion H; reflexivity].
    + clear IHts'. rewrite map_app. cbn [map]. rewrite last_is_last. cbn [has_transform p_transform].
      eexists. split; [reflexivity|]. intros X F. rewrite firstn_app, map_length, !app_length, map_length. cbn [length].
      rewrite firstn_all2 by (rewrite app_length, map_length; cbn; lia).
      replace (length ts' + 1 - (length ts' + 1)) with 0 by lia. cbn [firstn]. rewrite app_nil_r.
      change [{| p_transform := Some t0 |}] with (map (fun t => mkP (Some t)) [t0]). rewrite <- map_app. apply run_passed.
Qed.

(** When no step looks at the domains, the features of every sample are exactly what the final estimator is given when it
    predicts that sample with its domain. *)
Theorem C152_domain_free : forall ts, Forall domain_free ts -> exists f, dev_transformer (pipeline_of ts final_step) = Ok f /\
  forall X sd F, f X = Ok F <-> passed (SDArr sd) true ts X F.
Proof.
  intros ts D. destruct (C152_features ts final_step) as [f [E H]]. exists f. split; auto. intros X sd F. rewrite H.
  cbn [final_step p_transform]. rewrite app_nil_r. clear E H f. revert X. induction D as [|t ts Ht D IH]; intros X.
  - split; intros H; inversion H; constructor.
  - split; intros H; inversion H; subst.
    + econstructor; [rewrite (Ht X _ _ SDNone false); eauto|now apply IH].
    + econstructor; [rewrite (Ht X _ _ (SDArr sd) true); eauto|now apply IH].
Qed.

(** A mapping adapter: the source samples are never mapped, whatever the fitted transport. *)
Theorem C152_sources_unmapped : forall transport X, 0 < a_len X -> table X ->
  exists f m, dev_transformer (SPipe [ot_step transport; final_step]) = Ok f /\ f X = Ok m /\ a_rows m = a_rows X.
Proof.
  intros transport X L T. eexists. 
  destruct (C40_ot_transform false transport X SDNone) as [m [E [_ [_ [_ H]]]]]; auto.
  - split; auto. split; [cbn; now rewrite repeat_length|]. intros _ [d [A B]]. cbn in A. apply repeat_spec in A. subst d. discriminate.
  - intros [d [A B]]. cbn in A. apply repeat_spec in A. subst d. discriminate.
  - exists m. split; [reflexivity|]. split.
    + cbn. rewrite E. reflexivity.
    + apply H. intros [d [A B]]. cbn in A. apply repeat_spec in A. subst d. discriminate.
Qed.

(** The features differ from what the final estimator is given. *)
Theorem C152_same_features_refuted : exists transport X sd f F G,
  usable true (a_len X) (SDArr sd) /\ dev_transformer (SPipe [ot_step transport; final_step]) = Ok f /\ f X = Ok F /\
  run_steps [ot_step transport] X (SDArr sd) true = Ok G /\ a_rows F <> a_rows G.
Proof.
  exists tr_ex, x_ex, [1; 2; 1; 1]%Z. eexists. eexists. eexists.
  split; [repeat split; cbn; try lia; discriminate|]. split; [reflexivity|]. split; [vm_compute; reflexivity|].
  split; [vm_compute; reflexivity|]. vm_compute. discriminate.
Qed.

(** Separate source and target transformers: the source samples go through the target transformer. *)
Theorem C152_source_target_refuted : exists ts tt X sd f F G,
  dev_transformer (SPipe [source_target_step ts tt; final_step]) = Ok f /\
  f X = Ok F /\ tt X = Ok F /\ Forall (fun d => 0 <= d)%Z sd /\ run_steps [source_target_step ts tt] X (SDArr sd) true = Ok G /\ ts X = Ok G /\ a_rows F <> a_rows G.
Proof.
  exists tr_ex, (fun a => Ok a), x_ex, [1; 2; 1; 1]%Z. eexists. eexists. eexists.
  split; [reflexivity|]. split; [vm_compute; reflexivity|]. split; [vm_compute; reflexivity|]. split; [repeat constructor; lia|].
  split; [vm_compute; reflexivity|]. split; [vm_compute; reflexivity|]. vm_compute. discriminate.
Qed.

(** A per-domain transformer: the score cannot be computed. *)
Theorem C152_per_domain_refuted : forall per_domain rest f X, dev_transformer (SPipe (per_domain_step per_domain :: rest)) = Ok f -> f X = Err KeyError.
Proof.
  intros pd rest f X H. unfold dev_transformer in H.
  destruct (last_transformer (per_domain_step pd :: rest)) as [i|] eqn:E.
  - injection H as <-. rewrite Nat.add_1_r. reflexivity.
  - exfalso. unfold last_transformer in E. destruct (find _ _) eqn:F; [discriminate|].
    assert (I : In (0, per_domain_step pd) (rev (combine (seq 0 (length (per_domain_step pd :: rest))) (per_domain_step pd :: rest)))) by (rewrite <- in_rev; now left).
    pose proof (find_none _ _ F _ I) as Z. discriminate Z.
Qed.

(** No step can transform: the features are the samples. A deep model without a named feature layer is refused. *)
Theorem C152_no_transform : forall last, p_transform last = None -> exists f, dev_transformer (SPipe [last]) = Ok f /\ forall X, f X = Ok X.
Proof. intros [[t|]] H; [discriminate|]. eexists. split; [reflexivity|]. reflexivity. Qed.
Theorem C152_unnamed_layer : forall feat, dev_transformer (SDeep false feat) = Err ValueError.
Proof. reflexivity. Qed.

(** A scaler and a classifier. *)
Example C152_ex : domain_free (fun X _ _ => tr_ex X) /\
  exists f F, dev_transformer (pipeline_of [fun X _ _ => tr_ex X] final_step) = Ok f /\ f x_ex = Ok F /\ a_rows F <> a_rows x_ex.
Proof.
  split; [repeat intro; reflexivity|]. eexists. eexists. split; [reflexivity|]. split; [vm_compute; reflexivity|]. vm_compute. discriminate.
Qed.
