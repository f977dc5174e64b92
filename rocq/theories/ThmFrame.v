(** C230: the deep discrepancies depend on how the features lie to each other, not on their coordinates. *)
From Coq Require Import String List ZArith Bool Arith Lia Reals Lra Permutation.
From Verif Require Import Np NpFacts RVec RVecFacts MapModel RMat PDKernel LossModel LossSpec LossProofs LossProofs2 ThmLoss ThmCoord.
Import ListNotations.
Local Open Scope R_scope.

(** ** Vocabulary *)
(** The features in another orthonormal frame with another origin: x -> Q x + c, for samples of d features. *)
Definition turned (d : nat) (Q : mat) (c : nat -> R) (x : list R) : list R := map (fun i => msum d (fun j => Q i j * nth j x 0) + c i) (seq 0 d).

(** ** Sums *)
Lemma vsum_seq f n : vsum (map f (seq 0 n)) = msum n f.
Proof. induction n as [|n IH]; [reflexivity|]. rewrite seq_S, map_app. cbn [map]. rewrite RVecFacts.vsum_app, IH. cbn [vsum msum Nat.add]. ring. Qed.
Lemma vsum_map2_msum F : forall n (x y : list R), length x = n -> length y = n -> vsum (map2 F x y) = msum n (fun i => F (nth i x 0) (nth i y 0)).
Proof.
  intros n x y Lx Ly. rewrite <- vsum_seq. revert x y Lx Ly. induction n as [|n IH]; intros [|a x] [|b y] Lx Ly; try discriminate; [reflexivity|].
  cbn [map2 vsum seq map nth]. rewrite <- seq_shift, map_map. f_equal. apply IH; cbn in *; lia.
Qed.
Lemma turned_length d Q c x : length (turned d Q c x) = d.
Proof. unfold turned. now rewrite map_length, seq_length. Qed.
Lemma turned_nth d Q c x i : (i < d)%nat -> nth i (turned d Q c x) 0 = msum d (fun j => Q i j * nth j x 0) + c i.
Proof. intros H. unfold turned. rewrite (nth_indep _ 0 ((fun i => msum d (fun j => Q i j * nth j x 0) + c i) 0%nat)) by now rewrite map_length, seq_length. rewrite (map_nth (fun i => msum d (fun j => Q i j * nth j x 0) + c i)), seq_nth by exact H. reflexivity. Qed.
Lemma turned_rect d Q c M : rect d (map (turned d Q c) M).
Proof. intros r H. apply in_map_iff in H as (x & <- & _). apply turned_length. Qed.
Lemma distance_points d x y : length x = d -> length y = d -> distance x y = sqrt (sqdist d (fun i => nth i x 0) (fun i => nth i y 0)).
Proof. intros Lx Ly. unfold distance. now rewrite (vsum_map2_msum _ d) by assumption. Qed.
Lemma turned_distance d Q c x y : orthogonal d Q -> length x = d -> length y = d -> distance (turned d Q c x) (turned d Q c y) = distance x y.
Proof.
  intros O Lx Ly. rewrite !(distance_points d) by (try apply turned_length; assumption). f_equal.
  rewrite <- (C174_motion d Q c (fun i => nth i x 0) (fun i => nth i y 0) O). apply msum_ext. intros i Hi. rewrite !turned_nth by exact Hi. reflexivity.
Qed.
Lemma turned_euclid d Q c x y : orthogonal d Q -> length x = d -> length y = d -> euclid (turned d Q c x) (turned d Q c y) = euclid x y.
Proof. intros O Lx Ly. rewrite !euclid_distance by (rewrite ?turned_length; congruence). now apply turned_distance. Qed.

(** ** Covariances *)
Section Cov.
  Context {A : Type}.
  Variable s : list A.
  Definition dev (f : A -> R) (x : A) : R := f x - mean (map f s).
  Lemma cov_dev f g : covariance (map f s) (map g s) = vsum (map (fun x => dev f x * dev g x) s) / (INR (length s) - 1).
  Proof.
    unfold covariance. rewrite map_length. f_equal. f_equal. unfold dev. generalize (mean (map f s)) (mean (map g s)). intros a b. induction s as [|x l IH]; [reflexivity|]. cbn. now rewrite IH.
  Qed.
  Lemma mean_lin d (q : nat -> R) (f : nat -> A -> R) k : s <> [] -> mean (map (fun x => msum d (fun a => q a * f a x) + k) s) = msum d (fun a => q a * mean (map (f a) s)) + k.
  Proof.
    intros N. assert (P : INR (length s) <> 0) by (destruct s; [congruence|apply not_0_INR; discriminate]). unfold mean. rewrite map_length.
    assert (E : vsum (map (fun x => msum d (fun a => q a * f a x) + k) s) = msum d (fun a => q a * vsum (map (f a) s)) + INR (length s) * k).
    { clear N P. induction s as [|x l IH]; cbn [map vsum length].
      - cbn [INR]. rewrite msum_zero by (intros; ring). ring.
      - rewrite IH, S_INR. rewrite (msum_ext d (fun a => q a * (f a x + vsum (map (f a) l))) (fun a => q a * f a x + q a * vsum (map (f a) l))) by (intros; ring). rewrite msum_plus. ring. }
    rewrite E. rewrite (msum_ext d (fun a => q a * (vsum (map (f a) s) / INR (length (map (f a) s)))) (fun a => / INR (length s) * (q a * vsum (map (f a) s)))).
    - rewrite msum_scal. field. exact P.
    - intros a _. rewrite map_length. field. exact P.
  Qed.
  Lemma dev_lin d q f k x : s <> [] -> dev (fun x => msum d (fun a => q a * f a x) + k) x = msum d (fun a => q a * dev (f a) x).
  Proof.
    intros N. unfold dev. rewrite mean_lin by exact N. rewrite (msum_ext d (fun a => q a * (f a x - mean (map (f a) s))) (fun a => q a * f a x + (-1) * (q a * mean (map (f a) s)))) by (intros; ring).
    rewrite msum_plus, (msum_scal d (-1) (fun a => q a * mean (map (f a) s))). ring.
  Qed.
  Lemma vsum_msum d (h : nat -> A -> R) : vsum (map (fun x => msum d (fun a => h a x)) s) = msum d (fun a => vsum (map (h a) s)).
  Proof.
    induction s as [|x l IH]; cbn [map vsum]; [now rewrite msum_zero|]. rewrite IH, <- msum_plus. reflexivity.
  Qed.
  Lemma cov_lin d q p f k l : s <> [] ->
    covariance (map (fun x => msum d (fun a => q a * f a x) + k) s) (map (fun x => msum d (fun a => p a * f a x) + l) s) =
    msum d (fun a => q a * msum d (fun b => p b * covariance (map (f a) s) (map (f b) s))).
  Proof.
    intros N. rewrite cov_dev.
    rewrite (map_ext _ (fun x => msum d (fun a => msum d (fun b => q a * p b * (dev (f a) x * dev (f b) x))))).
    - rewrite (vsum_msum d (fun a x => msum d (fun b => q a * p b * (dev (f a) x * dev (f b) x)))). unfold Rdiv. rewrite <- msum_scal_r. apply msum_ext. intros a _.
      rewrite (vsum_msum d (fun b x => q a * p b * (dev (f a) x * dev (f b) x))), <- msum_scal_r, <- msum_scal. apply msum_ext. intros b _. rewrite cov_dev, vsum_mult. unfold Rdiv. ring.
    - intros x. rewrite !dev_lin by exact N. rewrite <- msum_scal_r. apply msum_ext. intros a _. rewrite <- msum_scal. apply msum_ext. intros b _. ring.
  Qed.
End Cov.
Lemma turned_feature d Q c M j : (j < d)%nat -> feature (map (turned d Q c) M) j = map (fun x => msum d (fun a => Q j a * nth a x 0) + c j) M.
Proof. intros H. unfold feature. rewrite map_map. apply map_ext. intros x. now apply turned_nth. Qed.
Lemma turned_cov d Q c M j k : M <> [] -> (j < d)%nat -> (k < d)%nat ->
  covariance (feature (map (turned d Q c) M) j) (feature (map (turned d Q c) M) k) = msum d (fun a => Q j a * msum d (fun b => Q k b * covariance (feature M a) (feature M b))).
Proof. intros N Hj Hk. rewrite !turned_feature by assumption. now apply (cov_lin M d (Q j) (Q k) (fun a x => nth a x 0)). Qed.
Lemma norm_turned d Q u : orthogonal d Q -> msum d (fun k => msum d (fun b => Q k b * u b) * msum d (fun b => Q k b * u b)) = msum d (fun b => u b * u b).
Proof.
  intros O. pose proof (C174_motion d Q (fun _ => 0) u (fun _ => 0) O) as E. unfold sqdist, motion in E. rewrite (msum_ext d (fun b => u b * u b) (fun i => (u i - 0) * (u i - 0))) by (intros; ring). rewrite <- E.
  apply msum_ext. intros k _. rewrite (msum_zero d (fun j => Q k j * 0)) by (intros; ring). ring.
Qed.
Lemma frobenius_turned d Q G : orthogonal d Q ->
  msum d (fun j => msum d (fun k => msum d (fun a => Q j a * msum d (fun b => Q k b * G a b)) * msum d (fun a => Q j a * msum d (fun b => Q k b * G a b)))) = msum d (fun a => msum d (fun b => G a b * G a b)).
Proof.
  intros O. rewrite msum_swap. rewrite (msum_ext d _ (fun k => msum d (fun a => msum d (fun b => Q k b * G a b) * msum d (fun b => Q k b * G a b)))).
  - rewrite msum_swap. apply msum_ext. intros a _. now apply (norm_turned d Q (G a)).
  - intros k _. now apply (norm_turned d Q (fun a => msum d (fun b => Q k b * G a b))).
Qed.

(** ** Theorems *)
(** DeepCORAL: both batches may be turned together and moved on their own. *)
Theorem C230_coral : forall d Q a b s t c c', orthogonal d Q -> rect d s -> rect d t -> (2 <= length s)%nat -> (2 <= length t)%nat ->
  deepcoral_loss (map (turned d Q a) s) (map (turned d Q b) t) c = deepcoral_loss s t c'.
Proof.
  intros d Q a b s t c c' O Rs Rt Ls Lt. rewrite !(C103_value d) by (rewrite ?map_length; auto using turned_rect). f_equal. unfold sum_pairs. rewrite !vsum_seq.
  rewrite (msum_ext d (fun j => vsum (map (fun k => coral_gap s t j k * coral_gap s t j k) (seq 0 d))) (fun j => msum d (fun k => coral_gap s t j k * coral_gap s t j k))) by (intros; apply vsum_seq).
  rewrite <- (frobenius_turned d Q (coral_gap s t) O). apply msum_ext. intros j Hj. rewrite vsum_seq. apply msum_ext. intros k Hk.
  assert (E : coral_gap (map (turned d Q a) s) (map (turned d Q b) t) j k = msum d (fun x => Q j x * msum d (fun y => Q k y * coral_gap s t x y))).
  { unfold coral_gap. rewrite !turned_cov by (auto; intros ->; cbn in *; lia).
    rewrite (msum_ext d (fun x => Q j x * msum d (fun y => Q k y * (covariance (feature s x) (feature s y) - covariance (feature t x) (feature t y))))
      (fun x => Q j x * msum d (fun y => Q k y * covariance (feature s x) (feature s y)) + (-1) * (Q j x * msum d (fun y => Q k y * covariance (feature t x) (feature t y))))).
    - rewrite msum_plus, (msum_scal d (-1) (fun x => Q j x * msum d (fun y => Q k y * covariance (feature t x) (feature t y)))). ring.
    - intros x _. rewrite (msum_ext d (fun y => Q k y * (covariance (feature s x) (feature s y) - covariance (feature t x) (feature t y)))
        (fun y => Q k y * covariance (feature s x) (feature s y) + (-1) * (Q k y * covariance (feature t x) (feature t y)))) by (intros; ring).
      rewrite msum_plus, (msum_scal d (-1) (fun y => Q k y * covariance (feature t x) (feature t y))). ring. }
  now rewrite E.
Qed.

Definition keeps (d : nat) (g : list R -> list R) : Prop := forall x y, length x = d -> length y = d -> euclid (g x) (g y) = euclid x y.
Lemma kernel_keeps d g sg xs ys : keeps d g -> rect d xs -> rect d ys -> gaussian_kernel sg (map g xs) (map g ys) = gaussian_kernel sg xs ys.
Proof. intros K Rx Ry. unfold gaussian_kernel. rewrite map_map. apply map_ext_in. intros x Hx. rewrite map_map. apply map_ext_in. intros y Hy. unfold multi_kernel. now rewrite K by auto. Qed.
Lemma cdist_keeps d g xs ys : keeps d g -> rect d xs -> rect d ys -> cdist (map g xs) (map g ys) = cdist xs ys.
Proof. intros K Rx Ry. unfold cdist. rewrite map_map. apply map_ext_in. intros x Hx. rewrite map_map. apply map_ext_in. intros y Hy. now rewrite K by auto. Qed.
Lemma sigmas_keeps d g sg xs eps : keeps d g -> rect d xs -> the_sigmas sg (map g xs) eps = the_sigmas sg xs eps.
Proof. intros K Rx. unfold the_sigmas, default_sigmas. destruct sg; [reflexivity|]. now rewrite (cdist_keeps d g xs xs K Rx Rx). Qed.
Lemma turned_keeps d Q c : orthogonal d Q -> keeps d (turned d Q c).
Proof. intros O x y Lx Ly. now apply turned_euclid. Qed.

(** DAN, with given or default bandwidths: both batches may be turned and moved together. *)
Theorem C230_dan : forall d Q c xs ys sigmas eps, orthogonal d Q -> rect d xs -> rect d ys ->
  dan_loss (map (turned d Q c) xs) (map (turned d Q c) ys) sigmas eps = dan_loss xs ys sigmas eps.
Proof.
  intros d Q c xs ys sg eps O Rx Ry. pose proof (turned_keeps d Q c O) as K. unfold dan_loss, mmd. now rewrite (sigmas_keeps d _ sg xs eps K Rx), !(kernel_keeps d (turned d Q c)) by assumption.
Qed.

(** DeepJDOT likewise. *)
Theorem C230_jdot : forall Lab crit emd2 (y_s : list Lab) y_pred_t d Q c fs ft reg_dist reg_cl sw tw, orthogonal d Q -> rect d fs -> rect d ft ->
  deepjdot_loss Lab crit emd2 y_s y_pred_t (map (turned d Q c) fs) (map (turned d Q c) ft) reg_dist reg_cl sw tw = deepjdot_loss Lab crit emd2 y_s y_pred_t fs ft reg_dist reg_cl sw tw.
Proof.
  intros Lab crit emd2 ys yp d Q c fs ft rd rc sw tw O Rs Rt. unfold deepjdot_loss. now rewrite (cdist_keeps d _ fs ft (turned_keeps d Q c O) Rs Rt), !map_length.
Qed.

(** CDD: likewise, if the selection of the confident target samples is the same in the new frame. *)
Lemma filter_map_same {A} (g : A -> A) (p p' : A -> bool) l : (forall x, In x l -> p' (g x) = p x) -> filter p' (map g l) = map g (filter p l).
Proof. induction l as [|x l IH]; intros H; [reflexivity|]. cbn. rewrite (H x) by now left. destruct (p x); cbn; now rewrite IH by (intros; apply H; now right). Qed.
Lemma rect_filter d p (M : list (list R)) : rect d M -> rect d (filter p M).
Proof. intros H r Hr. apply filter_In in Hr as [Hr _]. now apply H. Qed.
Theorem C230_cdd : forall y d Q c fs ft centers centers' predict predict' sigmas dt ct eps, orthogonal d Q -> rect d fs -> rect d ft ->
  (forall x, In x ft -> confident dt centers' (turned d Q c x) = confident dt centers x /\ predict' (turned d Q c x) = predict x) ->
  cdd_loss y (map (turned d Q c) fs) (map (turned d Q c) ft) (Some (centers', predict')) sigmas dt ct eps = cdd_loss y fs ft (Some (centers, predict)) sigmas dt ct eps.
Proof.
  intros y d Q c fs ft ce ce' pr pr' sg dt ct eps O Rs Rt H. pose proof (turned_keeps d Q c O) as K. unfold cdd_loss.
  rewrite (filter_map_same (turned d Q c) (confident dt ce) (confident dt ce')) by (intros x Hx; apply (H x Hx)). set (F := filter (confident dt ce) ft).
  assert (HF : forall x, In x F -> pr' (turned d Q c x) = pr x) by (intros x Hx; apply filter_In in Hx as [Hx _]; apply (H x Hx)).
  assert (RF : rect d F) by now apply rect_filter.
  assert (EF : map pr' (map (turned d Q c) F) = map pr F) by (rewrite map_map; now apply map_ext_in). rewrite EF. cbv zeta.
  set (counts := bincount (map pr F) (n_unique y)).
  rewrite (filter_map_same (turned d Q c) (fun x => (ct <=? nth (pr x) counts 0)%nat)) by (intros x Hx; now rewrite HF).
  set (F2 := filter (fun x => (ct <=? nth (pr x) counts 0)%nat) F).
  assert (EF2 : map pr' (map (turned d Q c) F2) = map pr F2) by (rewrite map_map; apply map_ext_in; intros x Hx; apply HF; now apply filter_In in Hx). rewrite EF2.
  assert (RF2 : rect d F2) by now apply rect_filter.
  rewrite (sigmas_keeps d _ sg fs eps K Rs). unfold discrepancy. now rewrite !(kernel_keeps d (turned d Q c)) by assumption.
Qed.

(** REFUTED for CDD itself: centroids, samples and clusters turned together by an angle with cosine 4/5. *)
Definition tilt : mat := fun i j => match i, j with 0%nat, 0%nat => 4/5 | 0%nat, 1%nat => - (3/5) | 1%nat, 0%nat => 3/5 | 1%nat, 1%nat => 4/5 | _, _ => 0 end.
Lemma tilt_orthogonal : orthogonal 2 tilt.
Proof. intros [|[|j]] [|[|k]] Hj Hk; try lia; cbn; lra. Qed.
Lemma tilt_x : map (turned 2 tilt (fun _ => 0)) [[0; -1]] = [[3/5; -(4/5)]].
Proof. cbn. repeat (apply (f_equal2 (@cons _)); try reflexivity); lra. Qed.
Lemma tilt_c : map (turned 2 tilt (fun _ => 0)) [[1; 0]; [4/5; 3/5]] = [[4/5; 3/5]; [7/25; 24/25]].
Proof. cbn. repeat (apply (f_equal2 (@cons _)); try reflexivity); lra. Qed.
Lemma cosine_nonpos u v : dot u v <= 0 -> cosine u v <= 0.
Proof.
  intros H. unfold cosine. assert (C : 0 < cos_eps) by (unfold cos_eps; lra). pose proof (Rmax_r (norm2 u) cos_eps). pose proof (Rmax_r (norm2 v) cos_eps).
  assert (P : 0 < / (Rmax (norm2 u) cos_eps * Rmax (norm2 v) cos_eps)) by (apply Rinv_0_lt_compat, Rmult_lt_0_compat; lra). unfold Rdiv. nra.
Qed.
Lemma not_confident : confident (1/2) [[1; 0]; [4/5; 3/5]] [0; -1] = false.
Proof.
  unfold confident. apply Rltb_false. cbn [cdd_similarities map seq length nth column max_of list_max repeat].
  assert (A : cosine [0; 0] [1; 4/5] <= 0) by (apply cosine_nonpos; unfold dot; cbn; lra). assert (B : cosine [-1; -1] [0; 3/5] <= 0) by (apply cosine_nonpos; unfold dot; cbn; lra).
  assert (C : Rmax (cosine [0; 0] [1; 4/5]) (cosine [-1; -1] [0; 3/5]) <= 0) by now apply Rmax_lub. unfold cdd_similarities. cbn. lra.
Qed.
Lemma yet_confident : confident (1/2) [[4/5; 3/5]; [7/25; 24/25]] [3/5; -(4/5)] = true.
Proof. apply (confident_pos _ _ 0); [cbn; lia|]. cbn. apply cosine_pos. unfold dot. cbn. lra. Qed.
Theorem C230_cdd_refuted : exists Q y fs ft centers predict predict', orthogonal 2 Q /\ rect 2 fs /\ rect 2 ft /\ rect 2 centers /\
  (forall x, predict' (turned 2 Q (fun _ => 0) x) = predict x) /\
  cdd_loss y (map (turned 2 Q (fun _ => 0)) fs) (map (turned 2 Q (fun _ => 0)) ft) (Some (map (turned 2 Q (fun _ => 0)) centers, predict')) (Some [1]) (1/2) 1 0 <>
  cdd_loss y fs ft (Some (centers, predict)) (Some [1]) (1/2) 1 0.
Proof.
  exists tilt, [0%nat; 1%nat], [[1; 0]; [4/5; 3/5]], [[0; -1]], [[1; 0]; [4/5; 3/5]], (fun _ => 0%nat), (fun _ => 0%nat).
  split; [exact tilt_orthogonal|]. split; [intros r [<-|[<-|[]]]; reflexivity|]. split; [intros r [<-|[]]; reflexivity|]. split; [intros r [<-|[<-|[]]]; reflexivity|]. split; [reflexivity|].
  rewrite tilt_x, tilt_c. unfold cdd_loss. cbn [n_unique the_sigmas filter]. rewrite yet_confident, not_confident. cbn. unfold discrepancy, same_term, cross_term, gaussian_kernel, multi_kernel. cbn.
  assert (O : Rltb 0 (1 + (0 + 0)) = true) by (apply Rltb_iff; lra). assert (O' : Rltb 0 (1 + 0) = true) by (apply Rltb_iff; lra).
  assert (O1 : Rltb 0 ((1 + (0 + 0)) * (1 + 0)) = true) by (apply Rltb_iff; lra).
  rewrite ?O, ?O', ?O1, !e_self. intros E. injection E as E.
  set (k := exp (- (1 / 1 * euclid [7/25; 24/25] [4/5; 3/5]))) in *. set (k1 := exp (- (1 / 1 * euclid [4/5; 3/5] [3/5; -(4/5)]))) in *.
  assert (P : 0 < k) by apply exp_pos.
  assert (P1 : k1 <= 1).
  { assert (D : 0 <= euclid [4/5; 3/5] [3/5; -(4/5)]) by apply sqrt_pos. unfold k1. apply Rle_trans with (exp 0); [|rewrite exp_0; lra]. destruct D as [D|D]; [left; apply exp_increasing; lra|]. rewrite <- D. right. f_equal. field. }
  replace (- (1 / 1 * 0)) with 0 in E by field. rewrite exp_0 in E. field_simplify in E. lra.
Qed.

(** Units: multiplying all features by a number multiplies DeepCORAL by its fourth power; DAN is unchanged when the given bandwidths follow. *)
Lemma scaled_rect d k M : rect d M -> rect d (map (vscale k) M).
Proof. intros H r Hr. apply in_map_iff in Hr as (x & <- & Hx). unfold vscale. rewrite map_length. auto. Qed.
Lemma scaled_feature k M j : feature (map (vscale k) M) j = map (fun x => msum 1 (fun _ => k * nth j x 0) + 0) M.
Proof.
  unfold feature. rewrite map_map. apply map_ext. intros x. cbn [msum]. unfold vscale. destruct (Nat.lt_ge_cases j (length x)) as [H|H].
  - rewrite (nth_indep _ 0 (k * 0)) by now rewrite map_length. rewrite (map_nth (Rmult k)). ring.
  - rewrite !nth_overflow by (rewrite ?map_length; lia). ring.
Qed.
Lemma scaled_cov k M i j : M <> [] -> covariance (feature (map (vscale k) M) i) (feature (map (vscale k) M) j) = k * k * covariance (feature M i) (feature M j).
Proof.
  intros N. pose proof (cov_lin M 2 (fun a => if (a =? 0)%nat then k else 0) (fun a => if (a =? 0)%nat then 0 else k) (fun a x => if (a =? 0)%nat then nth i x 0 else nth j x 0) 0 0 N) as E.
  cbn [msum Nat.eqb] in E. rewrite !scaled_feature. cbn [msum].
  rewrite (map_ext (fun x => 0 + k * nth i x 0 + 0) (fun x => 0 + k * nth i x 0 + 0 * nth j x 0 + 0)) by (intros; ring).
  rewrite (map_ext (fun x => 0 + k * nth j x 0 + 0) (fun x => 0 + 0 * nth i x 0 + k * nth j x 0 + 0)) by (intros; ring).
  rewrite E. unfold feature. ring.
Qed.
Theorem C230_coral_units : forall d k s t c, rect d s -> rect d t -> (2 <= length s)%nat -> (2 <= length t)%nat ->
  deepcoral_loss (map (vscale k) s) (map (vscale k) t) c = k ^ 4 * deepcoral_loss s t c.
Proof.
  intros d k s t c Rs Rt Ls Lt. rewrite !(C103_value d) by (rewrite ?map_length; auto using scaled_rect). unfold sum_pairs.
  rewrite (vsum_ext _ (fun j => k ^ 4 * vsum (map (fun k0 => coral_gap s t j k0 * coral_gap s t j k0) (seq 0 d)))); [rewrite vsum_mult; ring|].
  intros j _. rewrite <- vsum_mult. apply vsum_ext. intros i _. unfold coral_gap. rewrite !scaled_cov by (intros ->; cbn in *; lia). ring.
Qed.
Lemma scaled_euclid k x y : 0 < k -> length x = length y -> euclid (vscale k x) (vscale k y) = k * euclid x y.
Proof.
  intros Hk L. rewrite !euclid_distance by (unfold vscale; rewrite ?map_length; exact L). unfold distance, vscale.
  assert (E : vsum (map2 (fun a b => (a - b) * (a - b)) (map (Rmult k) x) (map (Rmult k) y)) = k * k * vsum (map2 (fun a b => (a - b) * (a - b)) x y)).
  { revert y L. induction x as [|a x IH]; intros [|b y] L; try discriminate; cbn [map map2 vsum]; [ring|]. rewrite IH by (cbn in L; lia). ring. }
  rewrite E, sqrt_mult_alt, sqrt_square by nra. reflexivity.
Qed.
Theorem C230_dan_units : forall d k xs ys l eps, 0 < k -> rect d xs -> rect d ys -> (forall s, In s l -> 0 < s) ->
  dan_loss (map (vscale k) xs) (map (vscale k) ys) (Some (map (Rmult k) l)) eps = dan_loss xs ys (Some l) eps.
Proof.
  intros d k xs ys l eps Hk Rx Ry Hl. unfold dan_loss, mmd. cbn [the_sigmas].
  assert (G : forall us vs, rect d us -> rect d vs -> gaussian_kernel (map (Rmult k) l) (map (vscale k) us) (map (vscale k) vs) = gaussian_kernel l us vs).
  { intros us vs Ru Rv. unfold gaussian_kernel. rewrite map_map. apply map_ext_in. intros x Hx. rewrite map_map. apply map_ext_in. intros y Hy. unfold multi_kernel. rewrite map_map. f_equal. apply map_ext_in. intros s Hs.
    rewrite scaled_euclid by (auto; rewrite (Ru x Hx), (Rv y Hy); reflexivity). f_equal. specialize (Hl s Hs). field. split; lra. }
  now rewrite !G by assumption.
Qed.

(** A quarter turn and a shift of two batches with two features; DeepCORAL and DAN see real differences. *)
Definition quarter : mat := fun i j => match i, j with 0%nat, 1%nat => -1 | 1%nat, 0%nat => 1 | _, _ => 0 end.
Example C230_ex : let s := [[0; 0]; [2; 0]] in let t := [[0; 0]; [0; 4]] in
  orthogonal 2 quarter /\ rect 2 s /\ rect 2 t /\ map (turned 2 quarter (fun _ => 1)) s = [[1; 1]; [1; 3]] /\ deepcoral_loss s t false = 17 / 4 /\
  deepcoral_loss (map (turned 2 quarter (fun _ => 1)) s) (map (turned 2 quarter (fun _ => 5)) t) false = 17 / 4 /\
  0 <= dan_loss (map (turned 2 quarter (fun _ => 1)) s) (map (turned 2 quarter (fun _ => 1)) t) None 1.
Proof.
  cbv zeta. assert (O : orthogonal 2 quarter) by (intros [|[|j]] [|[|k]] Hj Hk; try lia; cbn; lra).
  assert (A : rect 2 [[0; 0]; [2; 0]]) by (intros r [<-|[<-|[]]]; reflexivity). assert (B : rect 2 [[0; 0]; [0; 4]]) by (intros r [<-|[<-|[]]]; reflexivity).
  assert (V : deepcoral_loss [[0; 0]; [2; 0]] [[0; 0]; [0; 4]] false = 17 / 4).
  { rewrite (C103_value 2) by (auto; cbn; lia). unfold sum_pairs, coral_gap, covariance, feature, mean. cbn. lra. }
  split; [exact O|]. split; [exact A|]. split; [exact B|]. split.
  - cbn. repeat (apply (f_equal2 (@cons _)); try reflexivity); lra.
  - split; [exact V|]. split; [rewrite <- V; apply C230_coral; auto|]. rewrite C230_dan by auto. apply (C104_nonneg 2); auto; try discriminate. cbn. lra.
Qed.
