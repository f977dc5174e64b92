(** Proofs about the reweighting adapters. *)
From Coq Require Import String List ZArith Bool Arith Lia Reals Lra Permutation Psatz.
From Verif Require Import Np NpFacts Labels Spec SpecFacts UtilsModel UtilsSpec UtilsProofs UtilsProofs2 SelectModel
  RVec RVecFacts FWModel FWSpec FWProofs ReweightModel ReweightSpec.
Import ListNotations.
Local Open Scope nat_scope.
Local Open Scope list_scope.

Lemma place_idx_where {A} m : forall (pre vals out : list A), length m = length out ->
  place_idx (where_from (length pre) m) vals (pre ++ out) = pre ++ place m vals out.
Proof.
  induction m as [|b m IH]; intros pre vals [|o out] H; simpl in H; try discriminate.
  - simpl. destruct vals; reflexivity.
  - assert (E : forall v vs, place_idx (where_from (S (length pre)) m) vs (pre ++ v :: out) = pre ++ v :: place m vs out).
    { intros v vs. specialize (IH (pre ++ [v]) vs out ltac:(lia)). rewrite app_length in IH. simpl in IH.
      rewrite Nat.add_1_r, <- !app_assoc in IH. exact IH. }
    simpl. destruct b.
    + destruct vals as [|v vals]; cbn [place_idx].
      * rewrite place_nil_vals. reflexivity.
      * replace (update (length pre) v (pre ++ o :: out)) with (pre ++ v :: out); [apply E|].
        clear. induction pre; simpl; congruence.
    + apply E.
Qed.

Lemma place_idx_flatnonzero {A} m (vals out : list A) : length m = length out ->
  place_idx (flatnonzero m) vals out = place m vals out.
Proof. intros H. exact (place_idx_where m [] vals out H). Qed.

Lemma np_setidx_flatnonzero {A} m (vals out : list A) : length m = length out -> length vals = count m ->
  np_setidx (flatnonzero m) vals out = Ok (place m vals out).
Proof.
  intros H1 H2. unfold np_setidx.
  replace (forallb (fun i => i <? length out) (flatnonzero m)) with true.
  - rewrite flatnonzero_length, H2, Nat.eqb_refl. f_equal. now apply place_idx_flatnonzero.
  - symmetry. apply forallb_forall. intros i Hi. apply flatnonzero_lt in Hi. apply Nat.ltb_lt. lia.
Qed.

Lemma place_weights_spec sd sw w : length sw = how_many is_source sd ->
  place_weights (length sd) (flatnonzero (map is_source sd)) sw = Ok w -> weights_at sd w sw.
Proof.
  intros Hl H. unfold place_weights in H. rewrite np_setidx_flatnonzero in H.
  2:{ now rewrite map_length, repeat_length. }
  2:{ rewrite Hl. symmetry. apply count_map. }
  injection H as <-. split; [|split].
  - now rewrite place_length, repeat_length.
  - rewrite rows_of_select. apply place_select.
    + now rewrite map_length, repeat_length.
    + rewrite Hl. symmetry. apply count_map.
  - rewrite (rows_of_ext is_target (fun d => negb (is_source d))) by (intros; apply is_target_negb).
    rewrite rows_of_select. rewrite <- (map_map is_source negb). rewrite place_select_neg by now rewrite map_length, repeat_length.
    apply Forall_forall. intros t Ht. apply select_incl in Ht. apply repeat_spec in Ht. auto.
Qed.

Lemma place_weights_total sd sw : length sw = how_many is_source sd ->
  exists w, place_weights (length sd) (flatnonzero (map is_source sd)) sw = Ok w.
Proof.
  intros Hl. unfold place_weights. rewrite np_setidx_flatnonzero; eauto.
  - now rewrite map_length, repeat_length.
  - rewrite Hl. symmetry. apply count_map.
Qed.

Section P.
  Context {Row : Type}.
  Implicit Type X : list Row.

  Lemma rw_check_ok X sda sd : rw_check Row X sda = Ok sd -> sd = eff_domain (length X) sda /\ length sd = length X /\ sd <> [].
  Proof.
    unfold rw_check. intros H. apply check_X_domain_ok in H as (Hn & -> & L & _).
    split; [auto|]. split; [auto|]. intros E. rewrite E in L. simpl in L. lia.
  Qed.

  Lemma rw_check_total X sda : 0 < length X -> length (eff_domain (length X) sda) = length X ->
    rw_check Row X sda = Ok (eff_domain (length X) sda).
  Proof.
    intros Hn L. apply check_X_domain_ok. repeat split; auto; try discriminate.
  Qed.

  Lemma source_positions_ok sd : sd <> [] -> source_positions sd = Ok (flatnonzero (map is_source sd)).
  Proof. intros H. unfold source_positions. now rewrite extract_source_ok. Qed.

  Lemma take_sources sd X : length sd = length X ->
    np_take (flatnonzero (map is_source sd)) X = Ok (rows_of is_source sd X).
  Proof. intros H. rewrite np_take_flatnonzero by now rewrite map_length. now rewrite rows_of_select. Qed.

  Lemma rw_split_ok X sda s t : rw_split Row X sda = Ok (s, t) ->
    let sd := eff_domain (length X) sda in
    length sd = length X /\ sd <> [] /\ s = rows_of is_source sd X /\ t = rows_of is_target sd X.
  Proof.
    unfold rw_split. intros H. apply bind_ok in H as [sd [Hc H]]. apply rw_check_ok in Hc as (-> & L & N).
    set (sd := eff_domain (length X) sda) in *. apply bind_ok in H as [p [Hp H]].
rewrite split_ok in Hp; auto; [|easy|intros xs [[= <-]|[]]; auto].
    injection Hp as <-. simpl in H. injection H as <- <-. auto.
  Qed.
  (** Common skeleton. *)
  Lemma skeleton X sda (f : list Row -> res (list R)) w :
    (sd <- rw_check Row X sda ;; source_idx <- source_positions sd ;; Xs <- np_take source_idx X ;;
     sw <- f Xs ;; place_weights (length X) source_idx sw) = Ok w ->
    let sd := eff_domain (length X) sda in
    length sd = length X /\ sd <> [] /\ exists sw, f (rows_of is_source sd X) = Ok sw /\
      (length sw = length (rows_of is_source sd X) -> weights_at sd w sw).
  Proof.
    intros H. apply bind_ok in H as [sd [Hc H]]. apply rw_check_ok in Hc as (-> & L & N).
    set (sd := eff_domain (length X) sda) in *. rewrite source_positions_ok in H by auto. cbn [bind] in H.
    rewrite take_sources in H by auto. cbn [bind] in H. apply bind_ok in H as [sw [Hs H]].
    split; [auto|]. split; [auto|]. exists sw. split; [auto|]. intros Hl.
    rewrite <- L in H. apply place_weights_spec in H; auto. rewrite Hl. now apply rows_of_length.
  Qed.

  Lemma skeleton_total X sda (f : list Row -> res (list R)) sw :
    let sd := eff_domain (length X) sda in
    0 < length X -> length sd = length X -> f (rows_of is_source sd X) = Ok sw ->
    length sw = length (rows_of is_source sd X) ->
    exists w, (sd <- rw_check Row X sda ;; source_idx <- source_positions sd ;; Xs <- np_take source_idx X ;;
     sw <- f Xs ;; place_weights (length X) source_idx sw) = Ok w.
  Proof.
    intros sd Hn L Hf Hl. rewrite rw_check_total by auto. fold sd. cbn [bind].
    rewrite source_positions_ok by (intros E; rewrite E in L; simpl in L; lia). cbn [bind].
    rewrite take_sources by auto. cbn [bind]. rewrite Hf. cbn [bind]. rewrite <- L.
    apply place_weights_total. rewrite Hl. now apply rows_of_length.
  Qed.
End P.

(** Normalisation *)
Lemma vsum_map_div a w : vsum (map (fun t => t / a)%R w) = (vsum w / a)%R.
Proof. induction w; simpl; [unfold Rdiv; lra|]. rewrite IHw. unfold Rdiv. lra. Qed.

Lemma mean_normalised w : w <> [] -> mean w <> 0%R -> mean (map (fun t => t / mean w)%R w) = 1%R.
Proof.
  intros Hn H. unfold mean at 1. rewrite vsum_map_div, map_length. unfold mean in *.
  assert (Hl : (INR (length w) <> 0)%R) by (apply not_0_INR; destruct w; simpl; congruence).
  field. split; auto. intros E. apply H. rewrite E. unfold Rdiv. lra.
Qed.

Lemma mean_nonneg w : nonneg w -> (0 <= mean w)%R.
Proof.
  intros H. unfold mean. destruct w as [|x w]; [unfold Rdiv; simpl; lra|].
  apply Rmult_le_pos; [now apply vsum_nonneg|]. left. apply Rinv_0_lt_compat. apply lt_0_INR. simpl. lia.
Qed.

Lemma vsum_zero w : nonneg w -> vsum w = 0%R -> Forall (fun t => t = 0%R) w.
Proof.
  induction w as [|x w IH]; intros H E; constructor; apply Forall_cons_iff in H as [H1 H2]; simpl in E;
    pose proof (vsum_nonneg w H2).
  - lra.
  - apply IH; auto. lra.
Qed.

Lemma mean_zero w : nonneg w -> w <> [] -> mean w = 0%R -> Forall (fun t => t = 0%R) w.
Proof.
  intros H Hn E. apply vsum_zero; auto. unfold mean in E.
  assert (Hl : (INR (length w) <> 0)%R) by (apply not_0_INR; destruct w; simpl; congruence).
  apply (Rmult_eq_reg_r (/ INR (length w))); [unfold Rdiv in E; lra|]. now apply Rinv_neq_0_compat.
Qed.

Lemma nonneg_div w a : nonneg w -> (0 <= a)%R -> nonneg (map (fun t => t / a)%R w).
Proof.
  intros H Ha. apply Forall_map. eapply Forall_impl; [|exact H]. simpl. intros t Ht.
  destruct (Req_dec a 0) as [->|Hne]; [unfold Rdiv; rewrite Rinv_0; lra|].
  apply Rmult_le_pos; auto. left. apply Rinv_0_lt_compat. lra.
Qed.

(** KLIEP *)
Lemma col_cons r M j : col (r :: M) j = nth j r 0%R :: col M j.
Proof. reflexivity. Qed.

Lemma col_sums_cons k r M : length r = k -> col_sums k (r :: M) = vadd r (col_sums k M).
Proof.
  intros H. apply vec_ext.
  - unfold col_sums. rewrite vadd_length; rewrite ?map_length, ?seq_length; auto.
  - unfold col_sums. rewrite map_length, seq_length. intros i Hi. rewrite nth_vadd by now rewrite map_length, seq_length.
    assert (G : forall f, nth i (map f (seq 0 k)) 0%R = f i).
    { intros f. rewrite nth_indep with (d' := f 0) by now rewrite map_length, seq_length. rewrite map_nth, seq_nth; auto. }
    rewrite !G. reflexivity.
Qed.

Lemma col_sums_length k M : length (col_sums k M) = k.
Proof. unfold col_sums. now rewrite map_length, seq_length. Qed.

Lemma dot_col_sums k M alpha : Forall (fun r => length r = k) M -> length alpha = k ->
  dot (col_sums k M) alpha = vsum (matvec M alpha).
Proof.
  intros H Ha. induction H as [|r M Hr HM IH].
  - unfold col_sums, col. simpl. subst k. replace (map (fun _ : nat => 0%R) (seq 0 (length alpha))) with (repeat 0%R (length alpha)).
    + rewrite dot_comm. apply dot_zeros_r.
    + assert (G : forall n s, repeat 0%R n = map (fun _ : nat => 0%R) (seq s n)) by (induction n; intros; simpl; congruence).
      apply G.
  - rewrite col_sums_cons by auto. rewrite dot_add_l by now rewrite col_sums_length. rewrite IH. reflexivity.
Qed.

Lemma col_means_sums k M : col_means k M = map (fun t => t / INR (length M))%R (col_sums k M).
Proof. unfold col_means, col_sums, mean. rewrite map_map. apply map_ext. intros j. unfold col. now rewrite map_length. Qed.

Lemma map_div_scale a w : map (fun t => t / a)%R w = vscale (/ a) w.
Proof. unfold vscale. apply map_ext. intros. unfold Rdiv. lra. Qed.

Lemma dot_col_means k M alpha : Forall (fun r => length r = k) M -> length alpha = k ->
  dot (col_means k M) alpha = mean (matvec M alpha).
Proof.
  intros H Ha. rewrite col_means_sums, map_div_scale, dot_scale_l, dot_col_sums by auto. unfold mean.
  rewrite matvec_length. unfold Rdiv. lra.
Qed.

Lemma clip_pos_ge : forall a b, nonneg b -> length a = length b -> 
  (dot b a <= dot b (map (fun t => if Rltb 0 t then t else 0%R) a))%R.
Proof.
  induction a as [|x a IH]; intros [|y b] Hb L; simpl in L; try discriminate; [apply Rle_refl|].
  simpl map. rewrite !dot_cons. apply Forall_cons_iff in Hb as [H1 H2]. specialize (IH b H2 ltac:(lia)).
  destruct (Rltb 0 x) eqn:E; [lra|]. apply Rltb_false in E. assert (y * x <= 0)%R by nra. lra.
Qed.

Lemma kliep_iter_spec A b alpha alpha' : nonneg b -> dot b b <> 0%R ->
  kliep_iter A b alpha = Ok alpha' -> nonneg alpha' /\ dot b alpha' = 1%R /\ length alpha' = length b.
Proof.
  intros Hb Hbb H. unfold kliep_iter in H.
  apply bind_ok in H as [m [_ H]]. apply bind_ok in H as [a1 [H1 H]]. apply bind_ok in H as [ba [Hba H]].
  apply bind_ok in H as [a2 [H2 H]]. injection H as <-.
  apply np_dot_ok in Hba as [L1 ->]. apply np_map2_ok in H2 as [L2 ->]. rewrite map_length in L2.
  change (map2 Rplus a1 (map (fun t => (1 - dot b a1) * t / dot b b)%R b)) with
    (vadd a1 (map (fun t => (1 - dot b a1) * t / dot b b)%R b)).
  set (a2 := vadd a1 (map (fun t => (1 - dot b a1) * t / dot b b)%R b)).
  assert (La2 : length a2 = length b) by (unfold a2; rewrite vadd_length; rewrite ?map_length; auto).
  assert (E2 : dot b a2 = 1%R).
  { unfold a2. rewrite dot_add_r by (rewrite map_length; auto).
    replace (map (fun t => (1 - dot b a1) * t / dot b b)%R b) with (vscale ((1 - dot b a1) / dot b b) b).
    2:{ unfold vscale. apply map_ext. intros. field. auto. }
    rewrite dot_scale_r. field. auto. }
  set (a3 := map (fun t => if Rltb 0 t then t else 0%R) a2).
  assert (G : (1 <= dot b a3)%R).
  { rewrite <- E2. apply clip_pos_ge; auto. }
  assert (N3 : nonneg a3).
  { apply Forall_map, Forall_forall. intros t _. destruct (Rltb 0 t) eqn:E; [apply Rltb_iff in E; lra|lra]. }
  split; [|split].
  - apply nonneg_div; auto. lra.
  - rewrite map_div_scale, dot_scale_r. field. lra.
  - unfold a3. now rewrite !map_length.
Qed.

Lemma kliep_loop_spec A b tol : nonneg b -> dot b b <> 0%R ->
  forall n obj alpha alpha', 1 <= n -> kliep_loop A b tol n obj alpha = Ok alpha' ->
  nonneg alpha' /\ dot b alpha' = 1%R /\ length alpha' = length b.
Proof.
  intros Hb Hbb. induction n as [|n IH]; intros obj alpha alpha' Hn H; [lia|]. simpl in H.
  apply bind_ok in H as [a1 [H1 H]]. apply kliep_iter_spec in H1 as S1; auto.
  destruct (Rltb _ tol); [injection H as <-; auto|].
  destruct n as [|n]; [simpl in H; injection H as <-; auto|]. eapply IH; [|exact H]. lia.
Qed.
