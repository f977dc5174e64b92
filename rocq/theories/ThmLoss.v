(** Theorems on the deep losses: C67, C70, C71, C103, C104, C105. *)
From Coq Require Import String List ZArith Bool Arith Lia Reals Lra Permutation Sorting.Sorted.
From Verif Require Import Np NpFacts RVec RVecFacts PDKernel LossModel LossSpec LossProofs LossProofs2.
Import ListNotations.
Local Open Scope R_scope.

(** ** C67: the minimum class confusion loss *)

Theorem C67_mcc_bounded : forall c y T eps, (1 <= c)%nat -> rect c y -> y <> [] -> T <> 0 -> 0 < eps -> 0 <= mcc_loss y T eps < 1.
Proof. intros. now apply (mcc_bound c). Qed.
(** Its value: the mean over the classes of the share of the weighted confusion that falls outside the class. *)
Theorem C67_mcc_value : forall c y T eps, (2 <= c)%nat -> rect c y -> y <> [] -> T <> 0 -> 0 < eps -> let rows := map (map (fun x => x / T)) y in
  mcc_loss y T eps = mean (map (fun j => 1 - confusion eps rows j j / vsum (map (confusion eps rows j) (seq 0 c))) (seq 0 c)).
Proof. intros. now apply mcc_value. Qed.
Example C67_example : rect 2 [[0; 1]; [2; -1]] /\ 0 <= mcc_loss [[0; 1]; [2; -1]] 2 (1 / 10) < 1.
Proof.
  assert (H : rect 2 [[0; 1]; [2; -1]]) by (intros r [<-|[<-|[]]]; reflexivity). split; [exact H|]. apply (C67_mcc_bounded 2); auto; try lra; discriminate.
Qed.
(** One uninformative sample with two classes: the loss is one half. *)
Example C67_example_value : mcc_loss [[0; 0]] 1 (1 / 10) = 1 / 2.
Proof.
  rewrite (C67_mcc_value 2); try lra; try discriminate; [|auto|intros r [<-|[]]; reflexivity].
  set (rows := map (map (fun x => x / 1)) [[0; 0]]).
  assert (P : forall k, (k < 2)%nat -> prob [0 / 1; 0 / 1] k = 1 / 2).
  { intros k Hk. unfold prob. destruct k as [|[|k]]; [| |lia]; cbn [nth map vsum]; replace (0 / 1) with 0 by field; rewrite exp_0; field. }
  assert (C : forall j k, (j < 2)%nat -> (k < 2)%nat -> confusion (1 / 10) rows j k = 1 / 4).
  { intros j k Hj Hk. unfold confusion, rows. cbn [map vsum]. rewrite !P by auto. unfold mean. cbn [vsum length INR].
    assert (0 < certainty (1 / 10) [0 / 1; 0 / 1]); [|field; lra]. unfold certainty. match goal with |- 0 < 1 + exp ?x => pose proof (exp_pos x) end. lra. }
  cbn [seq map]. rewrite !C by lia. unfold mean. cbn. field.
Qed.

(** ** C70: the DeepJDOT cost *)

Theorem C70_cost : forall Lab crit emd2 (y_s : list Lab) y_pred_t fs ft reg_dist reg_cl sw tw d,
  length y_s = length fs -> length y_pred_t = length ft -> length fs = length ft -> rect d fs -> rect d ft ->
  (forall p y, In p y_pred_t -> In y y_s -> exists l, crit p y = Ok l) ->
  exists M, deepjdot_loss Lab crit emd2 y_s y_pred_t fs ft reg_dist reg_cl sw tw =
      emd2 (match sw with Some w => w | None => repeat (1 / INR (length fs)) (length fs) end)
           (match tw with Some w => w | None => repeat (1 / INR (length ft)) (length ft) end) M
    /\ length M = length fs
    /\ forall i j y p f g, nth_error y_s i = Some y -> nth_error y_pred_t j = Some p -> nth_error fs i = Some f -> nth_error ft j = Some g ->
         exists l row, crit p y = Ok l /\ nth_error M i = Some row /\ length row = length ft /\
                       nth_error row j = Some (reg_dist * (distance f g * distance f g) + reg_cl * l).
Proof. intros. eapply deepjdot_matrix; eauto. Qed.
(** The default criterion is the cross entropy of the logits. *)
Theorem C70_default_criterion : forall logits k, (k < length logits)%nat -> cross_entropy logits k = Ok (- ln (prob logits k)).
Proof.
  intros l k H. unfold cross_entropy. destruct (nth_error l k) as [x|] eqn:E; [|apply nth_error_None in E; lia]. f_equal. unfold prob. rewrite (nth_error_nth _ _ 0 E).
  assert (P : 0 < vsum (map exp l)) by (apply exp_sum_pos; intros ->; cbn in H; lia). unfold Rdiv. rewrite ln_mult, ln_exp, ln_Rinv; auto; [ring|apply exp_pos|now apply Rinv_0_lt_compat].
Qed.
Theorem C70_unequal_sizes : forall Lab crit emd2 (y_s : list Lab) y_pred_t fs ft reg_dist reg_cl sw tw,
  length y_s <> length y_pred_t -> deepjdot_loss Lab crit emd2 y_s y_pred_t fs ft reg_dist reg_cl sw tw = Err RuntimeError.
Proof. intros. unfold deepjdot_loss, label_cost. now rewrite (proj2 (Nat.eqb_neq _ _)) by auto. Qed.
(** Swapped pairs would give a different matrix: the emd2 oracle returns entry (0, 1). *)
Example C70_example :
  deepjdot_loss nat cross_entropy (fun _ _ M => Ok (nth 1 (nth 0 M []) 0)) [0%nat; 1%nat] [[0; 0]; [0; 0]] [[0]; [1]] [[5]; [3]] 2 1 None None = Ok (18 + ln 2).
Proof.
  destruct (C70_cost nat cross_entropy (fun _ _ M => Ok (nth 1 (nth 0 M []) 0)) [0%nat; 1%nat] [[0; 0]; [0; 0]] [[0]; [1]] [[5]; [3]] 2 1 None None 1) as (M & E & L & H); auto.
  - intros r [<-|[<-|[]]]; reflexivity.
  - intros r [<-|[<-|[]]]; reflexivity.
  - intros p y [<-|[<-|[]]] [<-|[<-|[]]]; eexists; reflexivity.
  - rewrite E. destruct (H 0%nat 1%nat 0%nat [0; 0] [0] [3]) as (l & row & El & Er & _ & Ej); auto. rewrite (nth_error_nth _ _ [] Er), (nth_error_nth _ _ 0 Ej).
    cbn in El. injection El as <-. f_equal. replace (distance [0] [3]) with 3.
    + rewrite exp_0. replace (1 + (1 + 0)) with 2 by ring. ring.
    + unfold distance. cbn. replace ((0 - 3) * (0 - 3) + 0) with (3 * 3) by ring. rewrite sqrt_square; lra.
Qed.

(** ** C71: the target loss of MDD *)

(** REFUTED: the loss averages over all pairs of a sample and a pseudo-label. *)
Theorem C71_all_pairs : forall s input target, 0 <= s <= 1 -> (forall row, In row input -> (2 <= length row)%nat) ->
  (forall row t, In row input -> In t target -> (t < length row)%nat) ->
  modified_cross_entropy s input target = Ok (Some (average (fun row t => ln (1 - smoothed s row t)) input target)).
Proof. exact mce_value. Qed.
Definition own_label_loss (s : R) (input : list (list R)) (target : list nat) : R :=
  mean (map2 (fun row t => ln (1 - smoothed s row t)) input target).
Lemma prob_13 : prob [0; ln 3] 0 = 1 / 4 /\ prob [0; ln 3] 1 = 3 / 4 /\ prob [ln 3; 0] 0 = 3 / 4 /\ prob [ln 3; 0] 1 = 1 / 4.
Proof. unfold prob. cbn [nth map vsum]. rewrite !exp_0, !exp_ln by lra. repeat split; field. Qed.
Theorem C71_own_label_refuted : exists input target, (forall row, In row input -> length row = 2%nat) /\ length input = length target /\ (forall t, In t target -> (t < 2)%nat) /\
  exists v, modified_cross_entropy (1 / 10) input target = Ok (Some v) /\ v <> own_label_loss (1 / 10) input target.
Proof.
  exists [[0; ln 3]; [ln 3; 0]], [0%nat; 1%nat].
  assert (L : forall row, In row [[0; ln 3]; [ln 3; 0]] -> length row = 2%nat) by (intros r [<-|[<-|[]]]; reflexivity).
  assert (T : forall t, In t [0%nat; 1%nat] -> (t < 2)%nat) by (intros t [<-|[<-|[]]]; lia).
  repeat split; auto. eexists. split; [apply C71_all_pairs; [lra|intros r H; rewrite L; auto|intros r t Hr Ht; rewrite L; auto]|].
  destruct prob_13 as (A & B & C & D).
  assert (F : ln (1 - smoothed (1 / 10) [0; ln 3] 1) = ln (1 - smoothed (1 / 10) [ln 3; 0] 0)) by (unfold smoothed; now rewrite B, C).
  assert (G : ln (1 - smoothed (1 / 10) [0; ln 3] 0) = ln (1 - smoothed (1 / 10) [ln 3; 0] 1)) by (unfold smoothed; now rewrite A, D).
  assert (N : ln (1 - smoothed (1 / 10) [0; ln 3] 1) < ln (1 - smoothed (1 / 10) [0; ln 3] 0)) by (unfold smoothed; rewrite A, B; cbn [length INR]; apply ln_increasing; lra).
  unfold average, own_label_loss, mean. cbn [map map2 vsum length INR]. rewrite <- F, <- G. lra.
Qed.
(** With one sample, or when all pseudo-labels agree, it is the announced loss. *)
Theorem C71_agreeing_labels : forall s input t n, 0 <= s <= 1 -> (forall row, In row input -> (2 <= length row)%nat /\ (t < length row)%nat) -> length input = S n ->
  modified_cross_entropy s input (repeat t (S n)) = Ok (Some (own_label_loss s input (repeat t (S n)))).
Proof.
  intros s input t n Hs H L. assert (Z : forall m x, In x (repeat t m) -> x = t) by (intros; eapply repeat_spec; eauto). rewrite C71_all_pairs; auto.
  - f_equal. f_equal. unfold average, own_label_loss, mean. rewrite repeat_length, map2_length, L by (now rewrite repeat_length).
    assert (E : vsum (map (fun x => vsum (map (fun t0 => ln (1 - smoothed s x t0)) (repeat t (S n)))) input) = INR (S n) * vsum (map2 (fun row t0 => ln (1 - smoothed s row t0)) input (repeat t (S n)))).
    { rewrite (vsum_ext _ (fun x => INR (S n) * ln (1 - smoothed s x t))).
      - rewrite vsum_mult. f_equal. f_equal. rewrite <- L. clear. induction input; cbn; [auto|]. now rewrite IHinput.
      - intros x _. rewrite <- vsum_repeat. f_equal. generalize (S n). clear. intros m. induction m; cbn; [auto|]. now rewrite IHm. }
    rewrite E. field. apply not_0_INR. lia.
  - intros row Hr. now apply H.
  - intros row x Hr Hx. rewrite (Z _ _ Hx). now apply H.
Qed.
(** The loss of a training step: gamma times the source cross entropy minus the target term. *)
Theorem C71_mdd_loss : forall gamma s c y_pred_s y_pred_t dom_s dom_t, 0 <= s <= 1 -> (2 <= c)%nat -> rect c y_pred_s -> rect c y_pred_t -> rect c dom_s -> rect c dom_t ->
  length dom_s = length y_pred_s ->
  exists ps pt, Forall2 (fun row k => (k < c)%nat /\ forall k', (k' < c)%nat -> nth k' row 0 <= nth k row 0) y_pred_s ps
    /\ Forall2 (fun row k => (k < c)%nat /\ forall k', (k' < c)%nat -> nth k' row 0 <= nth k row 0) y_pred_t pt
    /\ mdd_loss gamma s y_pred_s y_pred_t dom_s dom_t =
       Ok (Some (gamma * mean (map2 (fun row k => - ln (prob row k)) dom_s ps) - average (fun row k => ln (1 - smoothed s row k)) dom_t pt)).
Proof.
  intros gamma s c ys yt ds dt Hs Hc Rs Rt Ds Dt L.
  assert (AM : forall rows, rect c rows -> exists p, mapM np_argmax rows = Ok p /\ Forall2 (fun row k => (k < c)%nat /\ forall k', (k' < c)%nat -> nth k' row 0 <= nth k row 0) rows p).
  { intros rows. induction rows as [|r rows IH]; intros HR; [exists []; split; [reflexivity|constructor]|].
    destruct IH as (p & E & F); [intros q Hq; apply HR; cbn; auto|]. specialize (HR r (or_introl eq_refl)).
    destruct (np_argmax r) as [k|] eqn:K.
    - exists (k :: p). cbn. rewrite K. cbn. rewrite E. split; [reflexivity|]. constructor; auto. destruct (np_argmax_spec r k K) as [A B]. rewrite HR in *. split; [lia|]. intros k' Hk'. apply B. lia.
    - exfalso. unfold np_argmax, np_argmin in K. destruct r; [cbn in HR; lia|]. cbn in K. discriminate. }
  destruct (AM ys Rs) as (ps & Es & Fs). destruct (AM yt Rt) as (pt & Et & Ft). exists ps, pt. split; auto. split; auto. unfold mdd_loss. rewrite Es, Et. cbn [bind].
  assert (Lp : length ps = length ys) by (clear - Fs; induction Fs; cbn; auto).
  assert (Bs : forall k, In k ps -> (k < c)%nat) by (clear - Fs; induction Fs; intros k []; subst; auto; tauto).
  assert (Bt : forall k, In k pt -> (k < c)%nat) by (clear - Ft; induction Ft; intros k []; subst; auto; tauto).
  unfold cross_entropy_mean. rewrite np_map2_eq by lia. cbn [bind]. rewrite (mapM_ok _ (fun rt => - ln (prob (fst rt) (snd rt)))).
  - cbn [bind]. rewrite C71_all_pairs; auto; [|intros row Hr; now rewrite Dt|intros row k Hr Hk; rewrite Dt; auto]. cbn. f_equal. f_equal. f_equal. f_equal. f_equal.
    clear. revert ps. induction ds as [|d ds IH]; intros [|p ps]; try reflexivity. cbn. now rewrite IH.
  - intros [row k] H. cbn. assert (I : In row ds /\ In k ps). { clear - H. revert ps H. induction ds as [|d ds IH]; intros [|p ps] H; try destruct H. - injection H as <- <-. cbn. auto. - destruct (IH ps H). cbn. auto. }
    destruct I. apply C70_default_criterion. rewrite Ds; auto.
Qed.
Example C71_example : modified_cross_entropy (1 / 10) [[0; ln 3]] [0%nat] = Ok (Some (ln (29 / 40))).
Proof.
  change [0%nat] with (repeat 0%nat 1). rewrite (C71_agreeing_labels (1 / 10) [[0; ln 3]] 0 0); [|lra|intros r [<-|[]]; cbn; lia|reflexivity].
  f_equal. f_equal. unfold own_label_loss, mean. cbn [repeat map2 vsum length INR]. unfold smoothed. rewrite (proj1 prob_13). cbn [length INR]. replace (1 - ((1 - 1 / 10) * (1 / 4) + 1 / 10 / (1 + 1))) with (29 / 40) by field. field.
Qed.

(** ** C103: the DeepCORAL loss *)

Definition coral_gap (s t : list (list R)) (j k : nat) : R := covariance (feature s j) (feature s k) - covariance (feature t j) (feature t k).
(** The loss is the squared distance of the two covariance matrices over 4 d^2; [assume_centered] makes no difference. *)
Theorem C103_value : forall d s t b, rect d s -> rect d t -> (2 <= length s)%nat -> (2 <= length t)%nat ->
  deepcoral_loss s t b = 1 / (4 * (INR d * INR d)) * sum_pairs d (fun j k => coral_gap s t j k * coral_gap s t j k).
Proof. intros d s t b Hs Ht Ls Lt. apply deepcoral_value; auto; intros ->; cbn in *; lia. Qed.
Theorem C103_zero_iff : forall d s t b, (1 <= d)%nat -> rect d s -> rect d t -> (2 <= length s)%nat -> (2 <= length t)%nat ->
  0 <= deepcoral_loss s t b /\
  (deepcoral_loss s t b = 0 <-> forall j k, (j < d)%nat -> (k < d)%nat -> covariance (feature s j) (feature s k) = covariance (feature t j) (feature t k)).
Proof.
  intros d s t b Hd Hs Ht Ls Lt. rewrite (C103_value d) by auto. assert (D : 0 < INR d) by (apply lt_0_INR; lia).
  assert (P : 0 < 1 / (4 * (INR d * INR d))) by (apply Rmult_lt_0_compat; [lra|apply Rinv_0_lt_compat; nra]).
  set (f := fun j k => coral_gap s t j k * coral_gap s t j k). assert (N : forall j k, 0 <= f j k) by (intros; unfold f; nra).
  assert (N1 : forall j, 0 <= vsum (map (f j) (seq 0 d))) by (intros; now apply vsum_nonneg_map).
  assert (N2 : 0 <= sum_pairs d f) by (now apply vsum_nonneg_map). split; [apply Rmult_le_pos; lra|]. split.
  - intros E j k Hj Hk. assert (Z : sum_pairs d f = 0) by (apply Rmult_integral in E as [E|E]; lra).
    assert (Z1 := proj1 (vsum_zero_iff _ _ (fun j0 _ => N1 j0)) Z j ltac:(apply in_seq; lia)).
    assert (Z2 := proj1 (vsum_zero_iff (f j) _ (fun k0 _ => N j k0)) Z1 k ltac:(apply in_seq; lia)). unfold f, coral_gap in Z2. nra.
  - intros E. replace (sum_pairs d f) with 0; [ring|]. symmetry. apply (vsum_zero_iff _ _ (fun j0 _ => N1 j0)). intros j Hj. apply (vsum_zero_iff (f j) _ (fun k0 _ => N j k0)). intros k Hk.
    apply in_seq in Hj, Hk. unfold f, coral_gap. rewrite E by lia. ring.
Qed.
Theorem C103_shift : forall d s t a b c c', rect d s -> rect d t -> (2 <= length s)%nat -> (2 <= length t)%nat -> length a = d -> length b = d ->
  deepcoral_loss (map (vadd a) s) (map (vadd b) t) c = deepcoral_loss s t c'.
Proof.
  intros d s t a b c c' Hs Ht Ls Lt La Lb. rewrite !(C103_value d); rewrite ?map_length; auto using shift_rect. f_equal. apply vsum_ext. intros j Hj. apply vsum_ext. intros k Hk.
  apply in_seq in Hj, Hk. unfold coral_gap. rewrite !(feature_shift d) by (auto; lia). rewrite !covariance_shift; auto; intros E; apply map_eq_nil in E; subst; cbn in *; lia.
Qed.
(** REFUTED: "if True, the data are not centered": with assume_centered=True the loss is not the one of the uncentred second moments. *)
Definition second_moment (u v : list R) : R := dot u v / (INR (length u) - 1).
Theorem C103_assume_centered_refuted : exists s t, rect 1 s /\ rect 1 t /\ length s = 2%nat /\ length t = 2%nat /\
  deepcoral_loss s t true <> 1 / 4 * ((second_moment (feature s 0) (feature s 0) - second_moment (feature t 0) (feature t 0)) * (second_moment (feature s 0) (feature s 0) - second_moment (feature t 0) (feature t 0))).
Proof.
  exists [[1]; [-1]], [[3]; [1]]. assert (A : rect 1 [[1]; [-1]]) by (intros r [<-|[<-|[]]]; reflexivity). assert (B : rect 1 [[3]; [1]]) by (intros r [<-|[<-|[]]]; reflexivity).
  repeat split; auto. rewrite (C103_value 1) by (auto; cbn; lia). unfold sum_pairs, coral_gap, covariance, second_moment, feature, mean, dot. cbn. lra.
Qed.
Example C103_example : deepcoral_loss [[1]; [-1]] [[0]; [4]] false = 9.
Proof.
  rewrite (C103_value 1); try (cbn; lia); try (intros r [<-|[<-|[]]]; reflexivity). unfold sum_pairs, coral_gap, covariance, feature, mean. cbn. lra.
Qed.

(** ** C104: the DAN loss *)

Definition good_sigmas (sigmas : option (list R)) (eps : R) : Prop :=
  match sigmas with Some l => forall s, In s l -> 0 < s | None => 0 < eps end.
Lemma the_sigmas_pos sigmas fs eps : good_sigmas sigmas eps -> forall s, In s (the_sigmas sigmas fs eps) -> 0 < s.
Proof. destruct sigmas; cbn; auto. intros H s. now apply default_sigmas_pos. Qed.
Theorem C104_value : forall d xs ys l eps, rect d xs -> rect d ys -> dan_loss xs ys (Some l) eps = discrepancy_of (laplace_kernel l) xs ys.
Proof. intros. now apply (mmd_discrepancy _ d). Qed.
(** The default bandwidths: 2^(i/2 - 8) times the lower median of the distances between source samples (plus eps), i = 0, ..., 32. *)
Definition how_many_r (P : R -> bool) (l : list R) : nat := length (filter P l).
Definition lower_median (m : R) (l : list R) : Prop :=
  In m l /\ (how_many_r (fun x => Rltb x m) l <= (length l - 1) / 2 < how_many_r (fun x => Rleb x m) l)%nat.
Lemma insert_perm x l : Permutation (insert_sorted x l) (x :: l).
Proof. induction l as [|y l IH]; cbn; [reflexivity|]. destruct (Rleb x y); [reflexivity|]. rewrite IH. apply perm_swap. Qed.
Lemma sort_perm l : Permutation (sort l) l.
Proof. induction l as [|x l IH]; cbn; [reflexivity|]. rewrite insert_perm. now constructor. Qed.
Lemma insert_ssorted x l : StronglySorted Rle l -> StronglySorted Rle (insert_sorted x l).
Proof.
  induction 1 as [|y l S IH F]; cbn; [repeat constructor|]. destruct (Rleb x y) eqn:E.
  - apply Rleb_iff in E. constructor; [now constructor|]. constructor; auto. eapply Forall_impl; [|exact F]. intros a Ha. cbn in Ha. lra.
  - assert (~ x <= y) by (intros H; apply Rleb_iff in H; congruence). constructor; auto. rewrite Forall_forall in *. intros a Ha. eapply Permutation_in in Ha; [|apply insert_perm]. destruct Ha as [<-|Ha]; [lra|auto].
Qed.
Lemma sort_ssorted l : StronglySorted Rle (sort l).
Proof. induction l; cbn; [constructor|now apply insert_ssorted]. Qed.
Lemma perm_filter (P : R -> bool) l l' : Permutation l l' -> length (filter P l) = length (filter P l').
Proof. induction 1; cbn; auto; try (destruct (P x); cbn; auto); try (destruct (P y); cbn; auto). congruence. Qed.
Lemma filter_nothing (P : R -> bool) l : (forall x, In x l -> P x = false) -> filter P l = [].
Proof. induction l as [|a l IH]; intros H; cbn; auto. rewrite (H a) by now left. apply IH. intros x Hx. apply H. now right. Qed.
Lemma sorted_counts (l : list R) (k : nat) : StronglySorted Rle l -> (k < length l)%nat ->
  le (length (filter (fun x => Rltb x (nth k l 0)) l)) k /\ lt k (length (filter (fun x => Rleb x (nth k l 0)) l)).
Proof.
  intros S. revert k. induction S as [|y l S IH F]; intros k Hk; [cbn in Hk; lia|]. rewrite Forall_forall in F. destruct k as [|k].
  - cbn [nth]. split.
    + replace (filter _ (y :: l)) with (@nil R); [cbn; lia|]. symmetry. apply filter_nothing. intros x [<-|Hx].
      * destruct (Rltb y y) eqn:E; auto. apply Rltb_iff in E. lra.
      * destruct (Rltb x y) eqn:E; auto. apply Rltb_iff in E. apply F in Hx. lra.
    + cbn. replace (Rleb y y) with true by (symmetry; apply Rleb_iff; lra). cbn. lia.
  - cbn in Hk. destruct (IH k ltac:(lia)) as [A B]. cbn [nth]. cbn [filter]. split.
    + destruct (Rltb y _); cbn; lia.
    + replace (Rleb y (nth k l 0)) with true; [cbn; lia|]. symmetry. apply Rleb_iff, F, nth_In. lia.
Qed.
Lemma median_lower l : l <> [] -> lower_median (median l) l.
Proof.
  intros N. unfold lower_median, median, how_many_r. assert (L : length (sort l) = length l) by (apply Permutation_length, sort_perm).
  assert (P : (0 < length l)%nat) by (destruct l; [easy|cbn; lia]). assert (K : ((length l - 1) / 2 < length (sort l))%nat) by (rewrite L; pose proof (Nat.div_le_upper_bound (length l - 1) 2 (length l - 1)); lia).
  split; [eapply Permutation_in; [apply sort_perm|now apply nth_In]|].
  destruct (sorted_counts (sort l) _ (sort_ssorted l) K) as [A B]. rewrite (perm_filter _ _ _ (sort_perm l)) in A. rewrite (perm_filter _ _ _ (sort_perm l)) in B. lia.
Qed.
Theorem C104_default_bandwidths : forall d xs ys eps, rect d xs -> rect d ys -> xs <> [] ->
  exists m, lower_median m (map (fun p => distance (fst p) (snd p)) (list_prod xs xs)) /\
    dan_loss xs ys None eps = discrepancy_of (laplace_kernel (map (fun i => Rpower 2 (INR i / 2 - 8) * (m + eps)) (seq 0 33))) xs ys.
Proof.
  intros d xs ys eps Hx Hy N. exists (median (concat (cdist xs xs))).
  assert (E : concat (cdist xs xs) = map (fun p => distance (fst p) (snd p)) (list_prod xs xs)).
  { unfold cdist. rewrite <- flat_map_concat_map. assert (forall zs, rect d zs -> flat_map (fun x => map (fun y => euclid x y) xs) zs = map (fun p => distance (fst p) (snd p)) (list_prod zs xs)) as H; [|now apply H].
    induction zs as [|z zs IH]; intros Hz; [reflexivity|]. cbn [flat_map list_prod]. rewrite map_app, IH by (intros r Hr; apply Hz; now right). f_equal. rewrite map_map. apply map_ext_in. intros y Hin. cbn [fst snd].
    apply euclid_distance. rewrite (Hz z), (Hx y); auto. now left. }
  split.
  - rewrite E. apply median_lower. destruct xs; [easy|discriminate].
  - unfold dan_loss. rewrite (mmd_discrepancy _ d) by auto. cbn [the_sigmas]. unfold default_sigmas.
    match goal with |- discrepancy_of (laplace_kernel ?a) _ _ = discrepancy_of (laplace_kernel ?b) _ _ => replace a with b; [reflexivity|] end.
    apply map_ext. intros i. f_equal. unfold Rpower. replace ((INR i / 2 - 8) * ln 2) with (INR i / 2 * ln 2 + - (INR 8 * ln 2)) by (cbn [INR]; ring). rewrite exp_plus, exp_Ropp, Rmult_comm. f_equal.
    f_equal. change (exp (INR 8 * ln 2)) with (Rpower 2 (INR 8)). rewrite Rpower_pow by lra. reflexivity.
Qed.
Theorem C104_nonneg : forall d xs ys sigmas eps, rect d xs -> rect d ys -> xs <> [] -> ys <> [] -> good_sigmas sigmas eps -> 0 <= dan_loss xs ys sigmas eps.
Proof.
  intros d xs ys sigmas eps Hx Hy Nx Ny G. unfold dan_loss. rewrite (mmd_discrepancy _ d) by auto. apply discrepancy_nonneg; auto.
  - apply (pd_sigmas _ d); [|now apply the_sigmas_pos]. intros r H. apply in_app_iff in H as [H|H]; auto.
  - now apply (laplace_sym _ d).
Qed.
Theorem C104_same_batch : forall d xs ys sigmas eps, rect d xs -> rect d ys -> Permutation xs ys -> dan_loss xs ys sigmas eps = 0.
Proof.
  intros d xs ys sigmas eps Hx Hy P. unfold dan_loss. rewrite (mmd_discrepancy _ d) by auto. unfold discrepancy_of.
  rewrite (average_perm _ xs ys xs ys P P), (average_perm _ xs ys ys ys P (Permutation_refl _)). ring.
Qed.
Theorem C104_bounded : forall d xs ys l eps, rect d xs -> rect d ys -> xs <> [] -> ys <> [] -> (forall s, In s l -> 0 < s) -> dan_loss xs ys (Some l) eps <= 2 * INR (length l).
Proof.
  intros d xs ys l eps Hx Hy Nx Ny G. rewrite (C104_value d) by auto. unfold discrepancy_of.
  pose proof (average_bounds (laplace_kernel l) (INR (length l)) xs xs Nx Nx (fun x y => laplace_bounds l x y G)).
  pose proof (average_bounds (laplace_kernel l) (INR (length l)) ys ys Ny Ny (fun x y => laplace_bounds l x y G)).
  pose proof (average_bounds (laplace_kernel l) (INR (length l)) xs ys Nx Ny (fun x y => laplace_bounds l x y G)). lra.
Qed.
Theorem C104_symmetric : forall d xs ys l eps, rect d xs -> rect d ys -> dan_loss xs ys (Some l) eps = dan_loss ys xs (Some l) eps.
Proof.
  intros d xs ys l eps Hx Hy. rewrite !(C104_value d) by auto. unfold discrepancy_of. assert (E : average (laplace_kernel l) xs ys = average (laplace_kernel l) ys xs).
  { unfold average. rewrite (Rmult_comm (INR (length ys))). f_equal. rewrite vsum_swap. apply vsum_ext. intros y Iy. apply vsum_ext. intros x Ix. now apply (laplace_sym l d xs ys). }
  rewrite E. ring.
Qed.
(** REFUTED: "sigmas used for the multi gaussian kernel": no choice of Gaussian widths gives the loss. *)
Theorem C104_gaussian_refuted : ~ exists width : R -> R, forall x y s, 0 < s ->
  dan_loss [[x]] [[y]] (Some [s]) 0 = discrepancy_of (fun u v => exp (- (width s * (distance u v * distance u v)))) [[x]] [[y]].
Proof.
  intros (w & H). assert (V : forall x y, 0 <= y - x -> exp (- ((y - x) / 1)) = exp (- (w 1 * ((y - x) * (y - x))))).
  { intros x y Hd. specialize (H x y 1 ltac:(lra)). rewrite (C104_value 1) in H by (intros r [<-|[]]; reflexivity). unfold discrepancy_of, average in H. cbn [map vsum length INR] in H.
    unfold laplace_kernel in H. cbn [map vsum] in H. rewrite !distance_self in H. replace (distance [x] [y]) with (y - x) in H.
    - replace (- (0 / 1)) with 0 in H by field. replace (- (w 1 * (0 * 0))) with 0 in H by ring. lra.
    - unfold distance. cbn. replace ((x - y) * (x - y) + 0) with ((y - x) * (y - x)) by ring. now rewrite sqrt_square. }
  pose proof (exp_inv _ _ (V 0 1 ltac:(lra))). pose proof (exp_inv _ _ (V 0 2 ltac:(lra))). lra.
Qed.
Example C104_example : dan_loss [[0]] [[3]] (Some [1]) 0 = 2 - 2 * exp (-3) /\ 0 < dan_loss [[0]] [[3]] (Some [1]) 0.
Proof.
  assert (E : dan_loss [[0]] [[3]] (Some [1]) 0 = 2 - 2 * exp (-3)).
  { rewrite (C104_value 1) by (intros r [<-|[]]; reflexivity). unfold discrepancy_of, average, laplace_kernel. cbn [map vsum length INR]. rewrite !distance_self.
    replace (distance [0] [3]) with 3; [|unfold distance; cbn; replace ((0 - 3) * (0 - 3) + 0) with (3 * 3) by ring; rewrite sqrt_square; lra].
    replace (- (0 / 1)) with 0 by field. replace (- (3 / 1)) with (-3) by field. rewrite exp_0. field. }
  split; auto. rewrite E. assert (exp (-3) < 1) by (rewrite <- exp_0; apply exp_increasing; lra). lra.
Qed.

(** ** C105: the contrastive domain discrepancy *)

Theorem C105_needs_kmeans : forall y_s fs ft sigmas dt ct eps, cdd_loss y_s fs ft None sigmas dt ct eps = Err ValueError.
Proof. reflexivity. Qed.
Lemma confident_pos centers x j : (j < length x)%nat -> 0 < nth j (cdd_similarities x centers) 0 -> confident (1 / 2) centers x = true.
Proof.
  intros Hj P. unfold confident. apply Rltb_iff. assert (L : length (cdd_similarities x centers) = length x) by (unfold cdd_similarities; now rewrite map_length, seq_length).
  assert (M : forall l a, a <= list_max a l /\ forall b, In b l -> b <= list_max a l).
  { intros l. induction l as [|b l IH]; intros a; cbn; [split; [lra|contradiction]|]. destruct (IH (Rmax a b)) as [A B]. pose proof (Rmax_l a b). pose proof (Rmax_r a b). split; [lra|].
    intros z [<-|Hz]; [lra|auto]. }
  assert (Q : nth j (cdd_similarities x centers) 0 <= max_of (cdd_similarities x centers)).
  { assert (I : In (nth j (cdd_similarities x centers) 0) (cdd_similarities x centers)) by (apply nth_In; lia). destruct (cdd_similarities x centers) as [|a l]; [destruct I|]. cbn [max_of].
    destruct (M l a) as [A B]. destruct I as [<-|I]; [exact A|auto]. }
  lra.
Qed.
Lemma cosine_pos u v : 0 < dot u v -> 0 < cosine u v.
Proof.
  intros H. unfold cosine. assert (C : 0 < cos_eps) by (unfold cos_eps; lra). pose proof (Rmax_r (norm2 u) cos_eps). pose proof (Rmax_r (norm2 v) cos_eps).
  apply Rmult_lt_0_compat; auto. apply Rinv_0_lt_compat, Rmult_lt_0_compat; lra.
Qed.
Definition e01 : list R := [1; 0].
Definition e10 : list R := [0; 1].
Definition two_clusters (x : list R) : nat := if Rltb (nth 0 x 0) (1 / 2) then 1%nat else 0%nat.
Lemma two_clusters_0 : two_clusters e01 = 0%nat.
Proof. unfold two_clusters, e01. cbn. now rewrite (proj2 (Rltb_false _ _)) by lra. Qed.
Lemma two_clusters_1 : two_clusters e10 = 1%nat.
Proof. unfold two_clusters, e10. cbn. now rewrite (proj2 (Rltb_iff _ _)) by lra. Qed.
Lemma conf_0 : confident (1 / 2) [e01; e10] e01 = true.
Proof. apply (confident_pos _ _ 0); [cbn; lia|]. cbn. apply cosine_pos. unfold dot. cbn. lra. Qed.
Lemma conf_1 : confident (1 / 2) [e01; e10] e10 = true.
Proof. apply (confident_pos _ _ 1); [cbn; lia|]. cbn. apply cosine_pos. unfold dot. cbn. lra. Qed.
Lemma e_dist : euclid e01 e10 = euclid e10 e01.
Proof. unfold euclid, norm2, dot, vsub. cbn. f_equal. ring. Qed.
Lemma e_self x : euclid x x = 0.
Proof. rewrite euclid_distance by auto. apply distance_self. Qed.

(** REFUTED: two classes with one sample each, the same in the source and in the target: the discrepancies within the classes are
    not 0 and the loss is not the contrastive discrepancy. *)
Theorem C105_value_refuted :
  exists y xs l, cdd_loss y xs xs (Some ([e01; e10], two_clusters)) (Some [1]) (1 / 2) 1 0 = Ok l /\ map two_clusters xs = y
    /\ l <> contrastive (laplace_kernel [1]) 2 y xs y xs.
Proof.
  exists [0%nat; 1%nat], [e01; e10]. unfold cdd_loss. cbn [n_unique the_sigmas]. cbn [filter]. rewrite conf_0, conf_1. cbn [map]. rewrite two_clusters_0, two_clusters_1.
  cbn. rewrite !two_clusters_0, !two_clusters_1. cbn. unfold discrepancy, same_term, cross_term, gaussian_kernel, multi_kernel. cbn. rewrite ?two_clusters_0, ?two_clusters_1. cbn.
  rewrite !e_self, <- e_dist. set (k := euclid e01 e10).
  assert (O : Rltb 0 (1 + (0 + 0)) = true) by (apply Rltb_iff; lra). assert (O' : Rltb 0 (0 + (1 + 0)) = true) by (apply Rltb_iff; lra).
  assert (O1 : Rltb 0 ((1 + (0 + 0)) * (1 + (0 + 0))) = true) by (apply Rltb_iff; lra). assert (O2 : Rltb 0 ((0 + (1 + 0)) * (0 + (1 + 0))) = true) by (apply Rltb_iff; lra).
  assert (O3 : Rltb 0 ((1 + (0 + 0)) * (0 + (1 + 0))) = true) by (apply Rltb_iff; lra).
  rewrite ?O, ?O', ?O1, ?O2, ?O3. rewrite ?two_clusters_0, ?two_clusters_1. cbn [Nat.eqb]. rewrite ?O, ?O', ?O1, ?O2, ?O3. eexists. split; [reflexivity|]. split; [reflexivity|].
  unfold contrastive, of_class. cbn [filter combine fst Nat.eqb map snd seq negb vsum]. unfold discrepancy_of, average, laplace_kernel. cbn [map vsum length INR].
  rewrite !distance_self. rewrite (distance_sym e10 e01) by reflexivity. rewrite <- (euclid_distance e01 e10) by reflexivity. fold k.
  replace (1 / 1 * k) with k by field. replace (k / 1) with k by field. replace (1 / 1 * 0) with 0 by field. replace (0 / 1) with 0 by field. rewrite Ropp_0, exp_0.
  intros E. field_simplify in E. lra.
Qed.
(** REFUTED: a target sample farther than the threshold from every centroid (cosine dissimilarity) is used by the loss. *)
Theorem C105_filter_refuted :
  exists y fs centers predict x, (forall c, In c centers -> 1 / 2 <= 1 / 2 * (1 - cosine_angle x c)) /\
    cdd_loss y fs [x] (Some (centers, predict)) (Some [1]) (1 / 2) 1 0 <> cdd_loss y fs [] (Some (centers, predict)) (Some [1]) (1 / 2) 1 0.
Proof.
  exists [0%nat; 1%nat], [[3; 4]; [4; 3]], [[3; 4]; [4; 3]], (fun _ => 1%nat), [3; -4]. split.
  - assert (S : forall a b, a <= 0 -> 0 < b -> a / b <= 0) by (intros a b A B; pose proof (Rinv_0_lt_compat b B); unfold Rdiv; nra).
    assert (Q : forall u, 0 < dot u u -> 0 < sqrt (dot u u)) by (intros; now apply sqrt_lt_R0).
    intros c H. assert (cosine_angle [3; -4] c <= 0); [|lra]. unfold cosine_angle. destruct H as [<-|[<-|[]]]; apply S; try (unfold dot; cbn; lra); apply Rmult_lt_0_compat; apply Q; unfold dot; cbn; lra.
  - assert (C : confident (1 / 2) [[3; 4]; [4; 3]] [3; -4] = true) by (apply (confident_pos _ _ 0); [cbn; lia|]; cbn; apply cosine_pos; unfold dot; cbn; lra).
    unfold cdd_loss. cbn [n_unique the_sigmas filter]. rewrite C. cbn. unfold discrepancy, same_term, cross_term, gaussian_kernel, multi_kernel. cbn.
    assert (O : Rltb 0 (0 + (1 + 0)) = true) by (apply Rltb_iff; lra). assert (O' : Rltb 0 (1 + 0) = true) by (apply Rltb_iff; lra).
    assert (O1 : Rltb 0 ((0 + (1 + 0)) * (1 + 0)) = true) by (apply Rltb_iff; lra).
    rewrite ?O, ?O', ?O1. rewrite !e_self. intros E. injection E as E.
    set (k := exp (- (1 / 1 * euclid [3; 4] [4; 3]))) in *. set (k' := exp (- (1 / 1 * euclid [4; 3] [3; -4]))) in *.
    assert (P : 0 < k) by apply exp_pos. assert (P' : k' <= 1).
    { assert (D : 0 <= euclid [4; 3] [3; -4]) by apply sqrt_pos. apply Rle_trans with (exp 0); [|rewrite exp_0; lra]. destruct D as [D|D]; [left; apply exp_increasing; lra|]. unfold k'. rewrite <- D. right. f_equal. field. }
    replace (- (1 / 1 * 0)) with 0 in E by field. rewrite exp_0 in E.
    field_simplify in E. lra.
Qed.
(** What the loss is: [cdd_value] (LossSpec), for every batch of at least two classes whose target samples are all kept. *)
Theorem C105_value : forall d y xs xt centers predict sg dt ct eps, (2 <= length (nodup Nat.eq_dec y))%nat -> length y = length xs -> rect d xs -> rect d xt ->
  (forall x, In x xt -> (predict x < length (nodup Nat.eq_dec y))%nat) -> 1 < dt ->
  cdd_loss y xs xt (Some (centers, predict)) (Some sg) dt ct eps
  = Ok (cdd_value (laplace_kernel sg) (length (nodup Nat.eq_dec y)) (fun c => ct <=? length (filter (fun x => Nat.eqb (predict x) c) xt))%nat y xs predict xt).
Proof. intros. eapply cdd_formula; eauto. intros. now apply confident_above. Qed.
(** Any threshold: a sample is kept if in one of its features, the cosine between (x, ..., x) and that feature of the centroids is
    above 1 - 2 dt (the cosine between the sample and a centroid was meant). *)
Theorem C105_kept : forall dt centers x j, (j < length x)%nat -> let c := map (fun r => nth j r 0) centers in let u := repeat (nth j x 0) (length centers) in
  1 / 10 ^ 8 <= sqrt (dot u u) -> 1 / 10 ^ 8 <= sqrt (dot c c) -> 1 - 2 * dt < cosine_angle u c -> confident dt centers x = true.
Proof.
  intros dt centers x j Hj c u Hu Hc H. unfold confident. apply Rltb_iff.
  assert (Q : nth j (cdd_similarities x centers) 0 = cosine_angle u c).
  { unfold cdd_similarities. rewrite (nth_indep _ 0 (cosine (repeat (nth 0 x 0) (length centers)) (column centers 0))) by (rewrite map_length, seq_length; lia).
    rewrite (map_nth (fun j => cosine (repeat (nth j x 0) (length centers)) (column centers j))). rewrite seq_nth by lia. cbn [Nat.add]. fold u. unfold cosine, cosine_angle, norm2.
    change (column centers j) with c. rewrite !Rmax_left by (unfold cos_eps; lra). reflexivity. }
  assert (M : forall l a, a <= list_max a l /\ forall b, In b l -> b <= list_max a l).
  { intros l. induction l as [|b l IH]; intros a; cbn; [split; [lra|contradiction]|]. destruct (IH (Rmax a b)) as [A B]. pose proof (Rmax_l a b). pose proof (Rmax_r a b). split; [lra|].
    intros z [<-|Hz]; [lra|auto]. }
  assert (I : In (nth j (cdd_similarities x centers) 0) (cdd_similarities x centers)) by (apply nth_In; unfold cdd_similarities; now rewrite map_length, seq_length).
  rewrite Q in I. clear Q. destruct (cdd_similarities x centers) as [|a l]; [destruct I|]. cbn [max_of]. destruct (M l a) as [A B]. destruct I as [E|I]; [rewrite <- E in H; lra|]. specialize (B _ I). lra.
Qed.
Example C105_value_example : (2 <= length (nodup Nat.eq_dec [0; 1]%nat))%nat /\ rect 2 [e01; e10] /\ (forall x, In x [e01; e10] -> (two_clusters x < 2)%nat)
  /\ exists l, cdd_loss [0; 1]%nat [e01; e10] [e01; e10] (Some ([e01; e10], two_clusters)) (Some [1]) 2 1 0 = Ok l.
Proof.
  assert (A : rect 2 [e01; e10]) by (intros r [<-|[<-|[]]]; reflexivity).
  assert (B : forall x, In x [e01; e10] -> (two_clusters x < 2)%nat) by (intros r [<-|[<-|[]]]; rewrite ?two_clusters_0, ?two_clusters_1; lia).
  split; [cbn; lia|]. split; [exact A|]. split; [exact B|]. eexists. apply (C105_value 2); auto; cbn; try lia; lra.
Qed.
Example C105_kept_example : confident (1 / 2) [[1]; [1]] [2] = true.
Proof.
  assert (Q : forall a, 0 <= a -> 1 <= a -> 1 / 10 ^ 8 <= sqrt a) by (intros a P H; apply Rle_trans with (sqrt 1); [rewrite sqrt_1; lra|now apply sqrt_le_1; lra]).
  apply (C105_kept _ _ _ 0); cbn [length map nth repeat]; [lia| | |]; unfold dot; cbn.
  - apply Q; lra.
  - apply Q; lra.
  - unfold cosine_angle, dot. cbn. apply Rle_lt_trans with 0; [lra|]. apply Rdiv_lt_0_compat; [lra|]. apply Rmult_lt_0_compat; apply sqrt_lt_R0; lra.
Qed.
(** What holds: without any class with enough predicted target samples the loss is 0. *)
Theorem C105_no_valid_class : forall y_s fs ft centers predict sigmas dt ct eps, (2 <= length (nodup Nat.eq_dec y_s))%nat ->
  (forall c, (length (filter (fun x => Nat.eqb c (predict x)) ft) < ct)%nat) ->
  cdd_loss y_s fs ft (Some (centers, predict)) sigmas dt ct eps = Ok 0.
Proof.
  intros y_s fs ft centers predict sigmas dt ct eps H2 HC. unfold cdd_loss. fold (n_unique y_s) in H2. set (n := n_unique y_s) in *.
  set (f := filter (confident dt centers) ft). set (counts := bincount (map predict f) n).
  assert (V : forall c, (ct <=? nth c counts 0)%nat = false).
  { intros c. apply Nat.leb_gt. destruct (nth_in_or_default c counts 0%nat) as [I|E].
    - unfold counts, bincount in I. apply in_map_iff in I as (c' & E' & _). unfold counts, bincount. rewrite <- E'. apply Nat.le_lt_trans with (2 := HC c').
      unfold f. clear. induction ft as [|x ft IH]; [cbn; lia|]. cbn. destruct (confident dt centers x); cbn; destruct (c' =? predict x)%nat; cbn; lia.
    - rewrite E. specialize (HC 0%nat). lia. }
  assert (L : (n <= length counts)%nat) by (unfold counts, bincount; rewrite map_length, seq_length; lia).
  rewrite (proj2 (Nat.eqb_neq (length counts) 0)) by lia. rewrite (proj2 (Nat.eqb_neq (length counts) 1)) by lia. cbn [orb andb]. cbv zeta.
  assert (K : forall l : list (nat * nat), filter (fun p => (ct <=? nth (fst p) counts 0)%nat && (ct <=? nth (snd p) counts 0)%nat) l = []).
  { intros l. induction l as [|p l IH]; [reflexivity|]. cbn [filter]. rewrite V. exact IH. }
  rewrite K. cbn. f_equal. unfold Rdiv. rewrite !Rmult_0_l. ring.
Qed.
(** A single class in the batch and one cluster: a Python division by zero. *)
Theorem C105_single_class_error : forall y_s fs ft centers predict sigmas dt ct eps, length (nodup Nat.eq_dec y_s) = 1%nat -> (forall x, predict x = 0%nat) ->
  cdd_loss y_s fs ft (Some (centers, predict)) sigmas dt ct eps = Err ZeroDivisionError.
Proof.
  intros y_s fs ft centers predict sigmas dt ct eps H1 HP. unfold cdd_loss, n_unique. rewrite H1. set (f := filter (confident dt centers) ft).
  assert (L : length (bincount (map predict f) 1) = 1%nat).
  { unfold bincount. rewrite map_length, seq_length, map_length. assert (M : fold_right Nat.max 0%nat (map predict f) = 0%nat) by (clear - HP; induction f; cbn; [auto|]; now rewrite HP, IHf). rewrite M. destruct (length f =? 0)%nat; reflexivity. }
  cbv zeta. set (cs := bincount (map predict f) 1) in *. clearbody cs. rewrite L. cbn. destruct (ct <=? nth 0 cs 0)%nat; reflexivity.
Qed.
Example C105_example : cdd_loss [0%nat; 1%nat] [e01; e10] [e01; e10] (Some ([e01; e10], two_clusters)) None (1 / 2) 3 (1 / 10) = Ok 0.
Proof. apply C105_no_valid_class; [cbn; lia|]. intros c. cbn. rewrite two_clusters_0, two_clusters_1. destruct c as [|[|c]]; cbn; lia. Qed.
