(** Lemmas about the deep losses. *)
From Coq Require Import String List ZArith Bool Arith Lia Reals Lra Permutation.
From Verif Require Import Np NpFacts RVec RVecFacts PDKernel LossModel LossSpec.
Import ListNotations.
Local Open Scope R_scope.

(** ** Sums *)
Lemma vsum_concat (M : list (list R)) : vsum (concat M) = vsum (map vsum M).
Proof. induction M as [|r M IH]; [reflexivity|]. cbn [concat map vsum]. now rewrite vsum_app, IH. Qed.
Lemma concat_map_length {A B} (g : A -> list B) m l : (forall x, In x l -> length (g x) = m) -> length (concat (map g l)) = (length l * m)%nat.
Proof. induction l as [|a l IH]; intros H; [reflexivity|]. cbn [map concat length]. rewrite app_length, H, IH; cbn; auto. intros; apply H; cbn; auto. Qed.
Lemma vsum_ext {A} (f g : A -> R) l : (forall x, In x l -> f x = g x) -> vsum (map f l) = vsum (map g l).
Proof. intros H. f_equal. apply map_ext_in, H. Qed.
Lemma vsum_plus {A} (f g : A -> R) l : vsum (map (fun x => f x + g x) l) = vsum (map f l) + vsum (map g l).
Proof. induction l as [|a l IH]; cbn; [ring|]. rewrite IH. ring. Qed.
Lemma vsum_mult {A} c (f : A -> R) l : vsum (map (fun x => c * f x) l) = c * vsum (map f l).
Proof. induction l as [|a l IH]; cbn; [ring|]. rewrite IH. ring. Qed.
Lemma vsum_zero {A} (l : list A) : vsum (map (fun _ => 0) l) = 0.
Proof. induction l as [|a l IH]; cbn; [auto|]. rewrite IH. ring. Qed.
Lemma vsum_swap {A B} (f : A -> B -> R) la lb : vsum (map (fun a => vsum (map (f a) lb)) la) = vsum (map (fun b => vsum (map (fun a => f a b) la)) lb).
Proof.
  induction la as [|a la IH]; cbn [map vsum]; [now rewrite vsum_zero|]. rewrite IH, <- vsum_plus. reflexivity.
Qed.
Lemma vsum_nonneg_map {A} (f : A -> R) l : (forall x, In x l -> 0 <= f x) -> 0 <= vsum (map f l).
Proof. intros H. apply vsum_nonneg, Forall_forall. intros y Hy. apply in_map_iff in Hy as (x & <- & Hx). auto. Qed.
Lemma vsum_le_map {A} (f g : A -> R) l : (forall x, In x l -> f x <= g x) -> vsum (map f l) <= vsum (map g l).
Proof.
  induction l as [|a l IH]; intros H; cbn; [lra|]. assert (f a <= g a) by (apply H; cbn; auto). assert (vsum (map f l) <= vsum (map g l)) by (apply IH; intros; apply H; cbn; auto). lra.
Qed.
Lemma vsum_zero_iff {A} (f : A -> R) l : (forall x, In x l -> 0 <= f x) -> vsum (map f l) = 0 <-> forall x, In x l -> f x = 0.
Proof.
  induction l as [|a l IH]; intros H; [cbn; split; auto; contradiction|]. cbn [map vsum]. assert (P : 0 <= f a) by (apply H; cbn; auto).
  assert (Q : 0 <= vsum (map f l)) by (apply vsum_nonneg_map; intros; apply H; cbn; auto). destruct IH as [I1 I2]; [intros; apply H; cbn; auto|]. split.
  - intros E x [<-|Hx]; [lra|]. apply I1; auto. lra.
  - intros E. rewrite (E a) by (cbn; auto). rewrite I2; [lra|]. intros; apply E; cbn; auto.
Qed.
Lemma vsum_perm l l' : Permutation l l' -> vsum l = vsum l'.
Proof. induction 1; cbn; lra. Qed.
Lemma vsum_const c n : vsum (map (fun _ : nat => c) (seq 0 n)) = INR n * c.
Proof. rewrite <- vsum_repeat. f_equal. generalize 0%nat. induction n as [|n IH]; intros s; cbn; [auto|]. now rewrite IH. Qed.

(** ** Kernels *)
Lemma map2_dist x : forall y, length x = length y -> vsum (map2 (fun a b => (a - b) * (a - b)) x y) = dist2 x y.
Proof. induction x as [|a x IH]; intros [|b y] L; try discriminate; [reflexivity|]. cbn [map2 vsum]. rewrite IH by (cbn in L; lia). unfold dist2. rewrite vsub_cons, dot_cons. reflexivity. Qed.
Lemma distance_dst x y : length x = length y -> distance x y = dst x y.
Proof. intros L. unfold distance, dst. now rewrite map2_dist. Qed.
Lemma euclid_distance x y : length x = length y -> euclid x y = distance x y.
Proof. intros L. rewrite distance_dst by auto. reflexivity. Qed.
Lemma dst_sym x y : length x = length y -> dst x y = dst y x.
Proof. intros L. unfold dst. f_equal. rewrite !dist2_expand by auto. rewrite (dot_comm y x). ring. Qed.
Lemma distance_sym x y : length x = length y -> distance x y = distance y x.
Proof. intros L. rewrite !distance_dst by auto. now apply dst_sym. Qed.
Lemma distance_nonneg x y : 0 <= distance x y.
Proof. apply sqrt_pos. Qed.
Lemma distance_self x : distance x x = 0.
Proof. rewrite distance_dst by auto. unfold dst. rewrite dist2_expand by auto. replace (dot x x + dot x x - 2 * dot x x) with 0 by ring. apply sqrt_0. Qed.

Lemma multi_laplace sigmas x y : length x = length y -> multi_kernel sigmas x y = laplace_kernel sigmas x y.
Proof. intros L. unfold multi_kernel, laplace_kernel. apply vsum_ext. intros s _. rewrite euclid_distance by auto. f_equal. unfold Rdiv. ring. Qed.
Lemma mean_all_average sigmas d xs ys : rect d xs -> rect d ys -> mean_all (gaussian_kernel sigmas xs ys) = average (laplace_kernel sigmas) xs ys.
Proof.
  intros Hx Hy. unfold mean_all, mean, average, gaussian_kernel. rewrite vsum_concat, map_map.
  rewrite (concat_map_length _ (length ys)) by (intros; apply map_length). rewrite mult_INR. f_equal. apply vsum_ext. intros x Ix. apply vsum_ext. intros y Iy.
  apply multi_laplace. rewrite (Hx x Ix), (Hy y Iy). reflexivity.
Qed.
Lemma mmd_discrepancy sigmas d xs ys : rect d xs -> rect d ys -> mmd sigmas xs ys = discrepancy_of (laplace_kernel sigmas) xs ys.
Proof. intros Hx Hy. unfold mmd, discrepancy_of. now rewrite !(mean_all_average sigmas d). Qed.

Lemma pd_sigmas pts d sigmas : rect d pts -> (forall s, In s sigmas -> 0 < s) -> pd pts (laplace_kernel sigmas).
Proof.
  intros HR. induction sigmas as [|s l IH]; intros HS.
  - apply (pd_ext pts (fun _ _ => 0)); [reflexivity|]. apply pd_const. lra.
  - apply (pd_ext pts (fun x y => exp (- (/ s * dst x y)) + laplace_kernel l x y)).
    + intros x y Hx Hy. unfold laplace_kernel. cbn [map vsum]. rewrite distance_dst by (rewrite (HR x Hx), (HR y Hy); auto). f_equal. f_equal. unfold Rdiv. ring.
    + apply (pd_add pts (fun x y => exp (- (/ s * dst x y))) (laplace_kernel l)); [|apply IH; intros; apply HS; cbn; auto].
      apply (pd_laplace pts d HR). left. apply Rinv_0_lt_compat, HS. cbn. auto.
Qed.

Lemma quad_map {A} (K : A -> A -> R) a b xs ys : quad K (map (fun x => (a, x)) xs) (map (fun y => (b, y)) ys) = a * b * vsum (map (fun x => vsum (map (K x) ys)) xs).
Proof.
  unfold quad. rewrite map_map, <- vsum_mult. apply vsum_ext. intros x _. rewrite map_map. cbn [fst snd]. rewrite <- vsum_mult. apply vsum_ext. intros. ring.
Qed.
Lemma quad_app {A} (K : A -> A -> R) l1 l2 : quad K (l1 ++ l2) (l1 ++ l2) = quad K l1 l1 + quad K l1 l2 + quad K l2 l1 + quad K l2 l2.
Proof.
  unfold quad. rewrite map_app, vsum_app.
  assert (E : forall l, vsum (map (fun cx : R * A => vsum (map (fun dy => fst cx * fst dy * K (snd cx) (snd dy)) (l1 ++ l2))) l) =
    vsum (map (fun cx : R * A => vsum (map (fun dy => fst cx * fst dy * K (snd cx) (snd dy)) l1)) l) + vsum (map (fun cx : R * A => vsum (map (fun dy => fst cx * fst dy * K (snd cx) (snd dy)) l2)) l)).
  { intros l. rewrite <- vsum_plus. apply vsum_ext. intros. rewrite map_app, vsum_app. reflexivity. }
  rewrite !E. ring.
Qed.
Lemma discrepancy_nonneg {A} (K : A -> A -> R) xs ys : pd (xs ++ ys) K -> (forall x y, In x xs -> In y ys -> K x y = K y x) -> xs <> [] -> ys <> [] -> 0 <= discrepancy_of K xs ys.
Proof.
  intros P S NX NY. set (n := INR (length xs)). set (m := INR (length ys)).
  assert (Hn : 0 < n) by (apply lt_0_INR; destruct xs; [congruence|cbn; lia]). assert (Hm : 0 < m) by (apply lt_0_INR; destruct ys; [congruence|cbn; lia]).
  set (l1 := map (fun x => (/ n, x)) xs). set (l2 := map (fun y => (- / m, y)) ys).
  assert (Q : 0 <= quad K (l1 ++ l2) (l1 ++ l2)).
  { apply (pd_quad_nonneg (xs ++ ys)); auto. intros cx H. apply in_app_iff in H as [H|H]; apply in_map_iff in H as (x & <- & H); cbn; apply in_app_iff; auto. }
  rewrite quad_app in Q. unfold l1, l2 in Q. rewrite !quad_map in Q. unfold discrepancy_of, average. fold n m.
  rewrite (vsum_swap K ys xs) in Q.
  assert (E : vsum (map (fun b => vsum (map (fun a => K a b) ys)) xs) = vsum (map (fun x => vsum (map (K x) ys)) xs)).
  { apply vsum_ext. intros x Hx. apply vsum_ext. intros y Hy. symmetry. auto. }
  rewrite E in Q. unfold Rdiv. rewrite !Rinv_mult. match goal with |- 0 <= ?g => match type of Q with 0 <= ?q => replace g with q by ring end end. exact Q.
Qed.
Lemma laplace_sym sigmas d xs ys : rect d xs -> rect d ys -> forall x y, In x xs -> In y ys -> laplace_kernel sigmas x y = laplace_kernel sigmas y x.
Proof. intros Hx Hy x y Ix Iy. unfold laplace_kernel. apply vsum_ext. intros s _. rewrite distance_sym by (rewrite (Hx x Ix), (Hy y Iy); auto). reflexivity. Qed.

Lemma average_perm {A} (K : A -> A -> R) xs xs' ys ys' : Permutation xs xs' -> Permutation ys ys' -> average K xs ys = average K xs' ys'.
Proof.
  intros P Q. unfold average. rewrite (Permutation_length P), (Permutation_length Q). f_equal.
  rewrite (vsum_perm _ _ (Permutation_map (fun x => vsum (map (K x) ys)) P)). apply vsum_ext. intros x _. apply vsum_perm, Permutation_map, Q.
Qed.
Lemma laplace_bounds sigmas x y : (forall s, In s sigmas -> 0 < s) -> 0 <= laplace_kernel sigmas x y <= INR (length sigmas).
Proof.
  intros HS. unfold laplace_kernel. induction sigmas as [|s l IH]; [cbn; lra|]. cbn [map vsum]. change (length (s :: l)) with (S (length l)). rewrite S_INR.
  assert (I : 0 <= vsum (map (fun s0 => exp (- (distance x y / s0))) l) <= INR (length l)) by (apply IH; intros; apply HS; cbn; auto).
  assert (P : 0 < s) by (apply HS; cbn; auto). assert (D : 0 <= distance x y / s) by (apply Rmult_le_pos; [apply distance_nonneg|left; now apply Rinv_0_lt_compat]).
  pose proof (exp_pos (- (distance x y / s))). assert (exp (- (distance x y / s)) <= 1).
  { rewrite <- exp_0. destruct (Req_dec (distance x y / s) 0) as [-> |N]; [rewrite Ropp_0; lra|]. left. apply exp_increasing. lra. }
  lra.
Qed.
Lemma average_bounds {A} (K : A -> A -> R) B xs ys : xs <> [] -> ys <> [] -> (forall x y, 0 <= K x y <= B) -> 0 <= average K xs ys <= B.
Proof.
  intros NX NY H. unfold average. set (n := INR (length xs)). set (m := INR (length ys)).
  assert (Hn : 0 < n) by (apply lt_0_INR; destruct xs; [congruence|cbn; lia]). assert (Hm : 0 < m) by (apply lt_0_INR; destruct ys; [congruence|cbn; lia]).
  assert (NM : 0 < n * m) by nra.
  assert (L : 0 <= vsum (map (fun x => vsum (map (K x) ys)) xs)) by (apply vsum_nonneg_map; intros; apply vsum_nonneg_map; intros; apply H).
  assert (C : forall (C : Type) c (l : list C), vsum (map (fun _ => c) l) = INR (length l) * c).
  { intros C c l. induction l as [|a l IH]; [cbn; ring|]. cbn [map vsum]. rewrite IH. change (length (a :: l)) with (S (length l)). rewrite S_INR. ring. }
  assert (U : vsum (map (fun x => vsum (map (K x) ys)) xs) <= n * m * B).
  { apply Rle_trans with (vsum (map (fun _ => m * B) xs)); [|rewrite C; unfold n; right; ring]. apply vsum_le_map. intros x _.
    apply Rle_trans with (vsum (map (fun _ => B) ys)); [apply vsum_le_map; intros; apply H|rewrite C; unfold m; right; ring]. }
  split; [apply Rmult_le_pos; auto; left; now apply Rinv_0_lt_compat|]. apply Rmult_le_reg_r with (n * m); auto. unfold Rdiv. rewrite Rmult_assoc, Rinv_l by lra. lra.
Qed.

(** The default bandwidths are positive. *)
Lemma insert_In x y l : In y (insert_sorted x l) -> y = x \/ In y l.
Proof. induction l as [|a l IH]; cbn; [intros [E|[]]; auto|]. destruct (Rleb x a); cbn; intros [E|E]; auto. destruct (IH E); auto. Qed.
Lemma sort_In y l : In y (sort l) -> In y l.
Proof. induction l as [|a l IH]; cbn; [auto|]. intros H. apply insert_In in H as [->|H]; auto. Qed.
Lemma median_nonneg l : (forall x, In x l -> 0 <= x) -> 0 <= median l.
Proof. intros H. unfold median. destruct (nth_in_or_default ((length l - 1) / 2) (sort l) 0) as [I|E]; [apply H, sort_In, I|rewrite E; lra]. Qed.
Lemma default_sigmas_pos fs eps : 0 < eps -> forall s, In s (default_sigmas fs eps) -> 0 < s.
Proof.
  intros He s H. apply in_map_iff in H as (i & <- & _). assert (M : 0 <= median (concat (cdist fs fs))).
  { apply median_nonneg. intros x H. apply in_concat in H as (r & Hr & Hx). apply in_map_iff in Hr as (a & <- & _). apply in_map_iff in Hx as (b & <- & _). apply sqrt_pos. }
  apply Rmult_lt_0_compat; [|lra]. apply Rmult_lt_0_compat; [|apply exp_pos]. apply Rinv_0_lt_compat. lra.
Qed.

(** ** Covariances *)
Lemma dot_map2 u : forall v, dot u v = vsum (map2 Rmult u v).
Proof. reflexivity. Qed.
Lemma centred_covariance u v : (dot (centred u) (centred v) / (INR (length u) - 1)) = covariance u v.
Proof.
  unfold covariance, centred. f_equal. unfold dot. f_equal. generalize (mean u) (mean v). intros a b. revert v. induction u as [|x u IH]; intros [|y v]; try reflexivity.
  cbn. now rewrite IH.
Qed.
Lemma column_length M j : length (column M j) = length M.
Proof. apply map_length. Qed.
Lemma cov_entry_covariance M j k : cov_entry M j k = covariance (feature M j) (feature M k).
Proof. unfold cov_entry. rewrite <- (column_length M j). apply centred_covariance. Qed.
Lemma mean_centred u : u <> [] -> mean (centred u) = 0.
Proof.
  intros N. unfold centred. set (m := mean u). unfold mean. rewrite map_length. assert (Hn : 0 < INR (length u)) by (apply lt_0_INR; destruct u; [congruence|cbn; lia]).
  assert (E : vsum (map (fun x => x - m) u) = vsum u - INR (length u) * m).
  { generalize m; clear. intros m. induction u as [|a u IH]; [cbn; ring|]. cbn [map vsum]. rewrite IH. change (length (a :: u)) with (S (length u)). rewrite S_INR. ring. }
  rewrite E. unfold m, mean. field. lra.
Qed.
Lemma centred_idem u : u <> [] -> centred (centred u) = centred u.
Proof.
  intros N. unfold centred at 1. rewrite mean_centred by auto. rewrite <- (map_id (centred u)) at 2. apply map_ext. intros. ring.
Qed.
Lemma column_sub_mean d M j : rect d M -> (j < d)%nat -> M <> [] -> column (sub_mean M) j = centred (column M j).
Proof.
  intros HR Hj NE. assert (W : width M = d) by (destruct M as [|r M']; [congruence|]; apply HR; cbn; auto).
  unfold sub_mean, centred, column. rewrite !map_map. fold (column M j). rewrite W. apply map_ext_in. intros r Hr.
  rewrite nth_vsub by (rewrite map_length, seq_length; auto). f_equal.
  rewrite (nth_indep _ 0 (mean (column M 0))) by (rewrite map_length, seq_length; auto). rewrite (map_nth (fun j0 => mean (column M j0))), seq_nth by auto. reflexivity.
Qed.
Lemma cov_sub_mean d M j k : rect d M -> (j < d)%nat -> (k < d)%nat -> M <> [] -> cov_entry (sub_mean M) j k = cov_entry M j k.
Proof.
  intros HR Hj Hk NE. unfold cov_entry. rewrite !(column_sub_mean d) by auto.
  assert (N : forall i, column M i <> []) by (intros i; unfold column; destruct M; [congruence|discriminate]).
  rewrite !centred_idem by auto. f_equal. unfold sub_mean. now rewrite map_length.
Qed.
Lemma width_rect d M : rect d M -> M <> [] -> width M = d.
Proof. intros HR NE. destruct M as [|r M]; [congruence|]. apply HR. cbn. auto. Qed.
Lemma sub_mean_rect d M : rect d M -> M <> [] -> rect d (sub_mean M) /\ sub_mean M <> [].
Proof.
  intros HR NE. split; [|destruct M; [congruence|discriminate]]. intros r H. apply in_map_iff in H as (r0 & <- & H).
  rewrite vsub_length; rewrite ?(width_rect d), ?map_length, ?seq_length; auto.
Qed.
Lemma map2_map_same {A} (f : R -> R -> R) (g h : A -> R) l : map2 f (map g l) (map h l) = map (fun x => f (g x) (h x)) l.
Proof. induction l as [|a l IH]; cbn; [auto|]. now rewrite IH. Qed.
Lemma map2_map_same_l {A B B' C} (f : B -> B' -> C) (g : A -> B) (h : A -> B') l : map2 f (map g l) (map h l) = map (fun x => f (g x) (h x)) l.
Proof. induction l as [|a l IH]; cbn; [auto|]. now rewrite IH. Qed.
Lemma sq_sum_cov d A B : rect d A -> rect d B -> A <> [] -> B <> [] ->
  sq_sum (torch_cov A) (torch_cov B) = sum_pairs d (fun j k => (cov_entry A j k - cov_entry B j k) * (cov_entry A j k - cov_entry B j k)).
Proof.
  intros HA HB NA NB. unfold sq_sum, torch_cov, sum_pairs. rewrite (width_rect d A), (width_rect d B) by auto. rewrite map2_map_same_l.
  apply vsum_ext. intros j _. now rewrite map2_map_same.
Qed.
Lemma deepcoral_value d s t b : rect d s -> rect d t -> s <> [] -> t <> [] ->
  deepcoral_loss s t b = 1 / (4 * (INR d * INR d)) * sum_pairs d (fun j k =>
    (covariance (feature s j) (feature s k) - covariance (feature t j) (feature t k)) * (covariance (feature s j) (feature s k) - covariance (feature t j) (feature t k))).
Proof.
  intros Hs Ht Ns Nt. unfold deepcoral_loss. rewrite (width_rect d s) by auto. f_equal.
  assert (G : forall A B, rect d A -> rect d B -> A <> [] -> B <> [] ->
     (forall j k, (j < d)%nat -> (k < d)%nat -> cov_entry A j k = cov_entry s j k) -> (forall j k, (j < d)%nat -> (k < d)%nat -> cov_entry B j k = cov_entry t j k) ->
     sq_sum (torch_cov A) (torch_cov B) = sum_pairs d (fun j k =>
    (covariance (feature s j) (feature s k) - covariance (feature t j) (feature t k)) * (covariance (feature s j) (feature s k) - covariance (feature t j) (feature t k)))).
  { intros A B HA HB NA NB EA EB. rewrite (sq_sum_cov d) by auto. apply vsum_ext. intros j Hj. apply vsum_ext. intros k Hk. apply in_seq in Hj, Hk.
    rewrite EA, EB by lia. now rewrite !cov_entry_covariance. }
  destruct b; apply G; auto.
  - apply (sub_mean_rect d); auto.
  - apply (sub_mean_rect d); auto.
  - apply (sub_mean_rect d); auto.
  - apply (sub_mean_rect d); auto.
  - intros. now apply (cov_sub_mean d).
  - intros. now apply (cov_sub_mean d).
Qed.

(** Shifting the samples does not change covariances. *)
Lemma mean_shift c u : u <> [] -> mean (map (Rplus c) u) = c + mean u.
Proof.
  intros N. unfold mean. rewrite map_length. assert (Hn : 0 < INR (length u)) by (apply lt_0_INR; destruct u; [congruence|cbn; lia]).
  assert (E : vsum (map (Rplus c) u) = vsum u + INR (length u) * c).
  { clear. induction u as [|a u IH]; [cbn; ring|]. cbn [map vsum]. rewrite IH. change (length (a :: u)) with (S (length u)). rewrite S_INR. ring. }
  rewrite E. field. lra.
Qed.
Lemma covariance_shift a b u v : u <> [] -> v <> [] -> covariance (map (Rplus a) u) (map (Rplus b) v) = covariance u v.
Proof.
  intros Nu Nv. unfold covariance. rewrite !mean_shift, map_length by auto. f_equal. f_equal. generalize (mean u) (mean v). intros m n. clear Nu Nv. revert v.
  induction u as [|x u IH]; intros [|y v]; try reflexivity. cbn. rewrite IH. f_equal. ring.
Qed.
Lemma feature_shift d c M j : rect d M -> length c = d -> (j < d)%nat -> feature (map (vadd c) M) j = map (Rplus (nth j c 0)) (feature M j).
Proof.
  intros HR HC Hj. unfold feature. rewrite !map_map. apply map_ext_in. intros r Hr. apply nth_vadd. now rewrite HC, HR.
Qed.
Lemma shift_rect d c M : rect d M -> length c = d -> rect d (map (vadd c) M).
Proof. intros HR HC r H. apply in_map_iff in H as (r0 & <- & H). rewrite vadd_length; auto. now rewrite HC, HR. Qed.

(** ** Minimum class confusion *)
Lemma vsum_pos l : l <> [] -> (forall x, In x l -> 0 < x) -> 0 < vsum l.
Proof.
  destruct l as [|a l]; [congruence|]. intros _ H. cbn. assert (0 < a) by (apply H; cbn; auto). assert (0 <= vsum l); [|lra].
  apply vsum_nonneg, Forall_forall. intros x Hx. left. apply H. cbn. auto.
Qed.
Lemma dot_pos u : forall v, u <> [] -> length u = length v -> (forall x, In x u -> 0 < x) -> (forall x, In x v -> 0 < x) -> 0 < dot u v.
Proof.
  intros v N L Hu Hv. unfold dot. apply vsum_pos.
  - destruct u, v; try discriminate; congruence.
  - clear N. revert v L Hv. induction u as [|a u IH]; intros [|b v] L Hv x Hx; try discriminate; [destruct Hx|]. cbn in Hx. destruct Hx as [<-|Hx].
    + apply Rmult_lt_0_compat; [apply Hu|apply Hv]; cbn; auto.
    + apply (IH (fun x Hx => Hu x (or_intror Hx)) v); auto. intros; apply Hv; cbn; auto.
Qed.
Lemma exp_sum_pos l : l <> [] -> 0 < vsum (map exp l).
Proof. intros N. apply vsum_pos; [destruct l; [congruence|discriminate]|]. intros x H. apply in_map_iff in H as (y & <- & _). apply exp_pos. Qed.
Lemma softmax_pos l x : In x (softmax l) -> 0 < x.
Proof.
  intros H. apply in_map_iff in H as (y & <- & H). apply Rmult_lt_0_compat; [apply exp_pos|]. apply Rinv_0_lt_compat, exp_sum_pos. intros ->. destruct H.
Qed.
Lemma softmax_length l : length (softmax l) = length l.
Proof. apply map_length. Qed.
Lemma off_diagonal j r : forall s, (forall x, In x r -> 0 <= x) ->
  vsum (map Rabs (map2 (fun k x => if Nat.eqb j k then x - x else x) (seq s (length r)) r)) = vsum r - (if (s <=? j)%nat then nth (j - s) r 0 else 0).
Proof.
  induction r as [|a r IH]; intros s H.
  - cbn. destruct (s <=? j)%nat; [destruct (j - s)%nat|]; ring.
  - cbn [length seq map2 map vsum]. rewrite IH by (intros; apply H; cbn; auto). assert (A : Rabs a = a) by (apply Rabs_pos_eq, H; cbn; auto).
    destruct (Nat.eqb_spec j s) as [->|N].
    + rewrite Nat.leb_refl, (proj2 (Nat.leb_gt (S s) s)) by lia. rewrite Nat.sub_diag. cbn [nth]. unfold Rminus at 1. rewrite Rplus_opp_r, Rabs_R0. ring.
    + rewrite A. destruct (Nat.leb_spec (S s) j).
      * rewrite (proj2 (Nat.leb_le s j)) by lia. replace (j - s)%nat with (S (j - S s)) by lia. cbn [nth]. ring.
      * rewrite (proj2 (Nat.leb_gt s j)) by lia. ring.
Qed.
Lemma mean_unit l : l <> [] -> (forall x, In x l -> 0 <= x < 1) -> 0 <= mean l < 1.
Proof.
  intros N H. unfold mean. assert (Hn : 0 < INR (length l)) by (apply lt_0_INR; destruct l; [congruence|cbn; lia]).
  assert (A : 0 <= vsum l) by (apply vsum_nonneg, Forall_forall; intros; apply H; auto).
  assert (B : vsum l < INR (length l)).
  { destruct l as [|a l]; [congruence|]. change (length (a :: l)) with (S (length l)). rewrite S_INR. cbn [vsum].
    assert (a < 1) by (apply H; cbn; auto). assert (vsum l <= INR (length l)); [|lra]. clear - H. induction l as [|b l IH]; [cbn; lra|].
    change (length (b :: l)) with (S (length l)). rewrite S_INR. cbn [vsum]. assert (b < 1) by (apply H; cbn; auto). assert (vsum l <= INR (length l)); [|lra].
    apply IH. intros x [<-|Hx]; apply H; cbn; auto. }
  split; [apply Rmult_le_pos; auto; left; now apply Rinv_0_lt_compat|]. apply Rmult_lt_reg_r with (INR (length l)); auto. unfold Rdiv. rewrite Rmult_assoc, Rinv_l by lra. lra.
Qed.
Lemma map2_seq_in {A} (f : nat -> list R -> A) C : forall s x, In x (map2 f (seq s (length C)) C) -> exists j r, (s <= j < s + length C)%nat /\ nth_error C (j - s) = Some r /\ x = f j r.
Proof.
  induction C as [|r C IH]; intros s x H; [destruct H|]. cbn [length seq map2] in H. destruct H as [<-|H].
  - exists s, r. rewrite Nat.sub_diag. cbn. repeat split; auto; lia.
  - destruct (IH (S s) x H) as (j & r' & B & E & ->). exists j, r'. cbn [length]. replace (j - s)%nat with (S (j - S s)) by lia. cbn. repeat split; auto; lia.
Qed.
(** The loss of a square matrix with positive entries. *)
Lemma confusion_bound c C : (1 <= c)%nat -> length C = c -> (forall r, In r C -> length r = c /\ forall x, In x r -> 0 < x) ->
  0 <= mean (map (fun r => vsum (map Rabs r)) (without_diag (row_normalise C))) < 1.
Proof.
  intros Hc L H. apply mean_unit.
  - unfold without_diag, row_normalise. destruct C; [cbn in L; lia|discriminate].
  - intros x Hx. apply in_map_iff in Hx as (r & <- & Hr). unfold without_diag in Hr. apply map2_seq_in in Hr as (j & r0 & B & E & ->).
    rewrite Nat.sub_0_r in E. assert (Ln : length (row_normalise C) = c) by (unfold row_normalise; now rewrite map_length). rewrite Ln in B.
    unfold row_normalise in E. rewrite nth_error_map in E. destruct (nth_error C j) as [q|] eqn:Q; [|discriminate]. injection E as E.
    destruct (H q (nth_error_In _ _ Q)) as [Lq Pq]. assert (Sq : 0 < vsum q) by (apply vsum_pos; auto; destruct q; [cbn in Lq; lia|discriminate]).
    assert (P0 : forall y, In y r0 -> 0 < y).
    { intros y Hy. rewrite <- E in Hy. apply in_map_iff in Hy as (z & <- & Hz). apply Rmult_lt_0_compat; auto. now apply Rinv_0_lt_compat. }
    assert (S1 : vsum r0 = 1).
    { rewrite <- E. unfold Rdiv. transitivity (vsum q * / vsum q); [|apply Rinv_r; lra]. generalize (/ vsum q). clear. intros k. induction q; cbn; [ring|]. rewrite IHq. ring. }
    rewrite off_diagonal by (intros; left; auto). cbn [Nat.leb]. rewrite Nat.sub_0_r, S1.
    assert (I : In (nth j r0 0) r0) by (apply nth_In; rewrite <- E, map_length, Lq; lia). assert (U : nth j r0 0 <= 1).
    { rewrite <- S1. clear - I P0. induction r0 as [|a r0 IH]; [destruct I|]. cbn [vsum]. set (z := nth j (a :: r0) 0) in *. clearbody z.
      assert (0 < a) by (apply P0; cbn; auto). assert (0 <= vsum r0) by (apply vsum_nonneg, Forall_forall; intros; left; apply P0; cbn; auto).
      destruct I as [<-|I]; [lra|]. assert (z <= vsum r0); [|lra]. revert I. clear - P0. induction r0 as [|b r0 IH]; intros I; [destruct I|]. cbn [vsum].
      assert (0 <= vsum r0) by (apply vsum_nonneg, Forall_forall; intros; left; apply P0; cbn; auto). assert (0 < b) by (apply P0; cbn; auto).
      destruct I as [<-|I]; [lra|]. assert (z <= vsum r0); [|lra]. apply IH; auto. intros y [<-|Hy]; apply P0; cbn; auto. }
    specialize (P0 _ I). lra.
Qed.
Lemma scaled_rows c W : forall Y, rect c Y -> (forall r, In r Y -> forall x, In x r -> 0 < x) -> length W = length Y -> (forall w, In w W -> 0 < w) ->
  forall r, In r (map2 vscale W Y) -> length r = c /\ forall x, In x r -> 0 < x.
Proof.
  induction W as [|w W IH]; intros [|p Y] RY PY LW PW r H; cbn in H; try contradiction. destruct H as [<-|H].
  - split; [rewrite vscale_length; apply RY; cbn; auto|]. intros x Hx. apply in_map_iff in Hx as (z & <- & Hz). apply Rmult_lt_0_compat; [apply PW; cbn; auto|apply (PY p); cbn; auto].
  - apply (IH Y); auto.
    + intros q Hq; apply RY; cbn; auto.
    + intros q Hq; apply PY; cbn; auto.
    + intros q Hq; apply PW; cbn; auto.
Qed.
Lemma mcc_bound c y T eps : (1 <= c)%nat -> rect c y -> y <> [] -> 0 <= mcc_loss y T eps < 1.
Proof.
  intros Hc HR NE. set (Y := probability_scaling T y).
  assert (RY : rect c Y). { intros r H. apply in_map_iff in H as (q & <- & H). rewrite softmax_length, map_length. auto. }
  assert (PY : forall r, In r Y -> forall x, In x r -> 0 < x). { intros r H. apply in_map_iff in H as (q & <- & H). apply softmax_pos. }
  assert (NY : Y <> []) by (unfold Y, probability_scaling; destruct y; [congruence|discriminate]).
  set (W := mcc_weights eps Y). assert (LW : length W = length Y) by (unfold W, mcc_weights; now rewrite !map_length).
  assert (PW : forall w, In w W -> 0 < w).
  { intros w H. unfold W, mcc_weights in H. set (e := map (fun p => 1 + exp (- entropy eps p)) Y) in *. apply in_map_iff in H as (v & <- & H).
    assert (PE : forall v, In v e -> 0 < v) by (intros v0 H0; apply in_map_iff in H0 as (p & <- & _); pose proof (exp_pos (- entropy eps p)); lra).
    apply Rmult_lt_0_compat; auto. apply Rinv_0_lt_compat. unfold mean. apply Rmult_lt_0_compat; [apply vsum_pos; auto; intros Z; rewrite Z in H; destruct H|].
    apply Rinv_0_lt_compat, lt_0_INR. destruct e; [destruct H|cbn; lia]. }
  set (Z := map2 vscale W Y).
  assert (LZ : length Z = length Y) by (unfold Z; rewrite map2_length; auto).
  assert (RZ : forall r, In r Z -> length r = c /\ forall x, In x r -> 0 < x).
  { unfold Z. now apply scaled_rows. }
  unfold mcc_loss. fold Y. apply (confusion_bound c); auto.
  - unfold class_correlation. rewrite map_length, seq_length. now apply width_rect.
  - intros r H. unfold class_correlation in H. fold W Z in H. rewrite (width_rect c) in H by auto. apply in_map_iff in H as (j & <- & Hj). rewrite map_length, seq_length. split; auto.
    intros x Hx. apply in_map_iff in Hx as (k & <- & Hk). apply in_seq in Hj, Hk. apply dot_pos.
    + unfold column. destruct Y; [congruence|discriminate].
    + now rewrite !column_length.
    + intros x Hx. apply in_map_iff in Hx as (q & <- & Hq). apply (PY q); auto. apply nth_In. rewrite (RY q Hq). lia.
    + intros x Hx. apply in_map_iff in Hx as (q & <- & Hq). destruct (RZ q Hq) as [Lq Pq]. apply Pq, nth_In. lia.
Qed.

(** ** DeepJDOT *)
Lemma mapM_ok_all {A B} (f : A -> res B) l : (forall x, In x l -> exists y, f x = Ok y) -> exists r, mapM f l = Ok r.
Proof.
  induction l as [|a l IH]; intros H; [eexists; reflexivity|]. destruct (H a) as (y & E); [cbn; auto|]. destruct IH as (r & R); [intros; apply H; cbn; auto|].
  exists (y :: r). cbn. rewrite E. cbn. now rewrite R.
Qed.
Lemma mapM_nth {A B} (f : A -> res B) l : forall r, mapM f l = Ok r -> length r = length l /\ forall i x, nth_error l i = Some x -> exists y, f x = Ok y /\ nth_error r i = Some y.
Proof.
  induction l as [|a l IH]; intros r H.
  - injection H as <-. split; auto. intros [|i] x E; discriminate.
  - cbn in H. destruct (f a) as [y|] eqn:E; [|discriminate]. cbn in H. destruct (mapM f l) as [r'|] eqn:R; [|discriminate]. injection H as <-. destruct (IH r' eq_refl) as [L N].
    split; [cbn; auto|]. intros [|i] x Hx; [injection Hx as <-; eauto|]. cbn. auto.
Qed.
Lemma nth_error_map2 {A B C} (f : A -> B -> C) u : forall v i a b, nth_error u i = Some a -> nth_error v i = Some b -> nth_error (map2 f u v) i = Some (f a b).
Proof. induction u as [|x u IH]; intros [|y v] [|i] a b Ha Hb; try discriminate; cbn in *; [congruence|]. auto. Qed.
Lemma deepjdot_matrix Lab crit emd2 (y_s : list Lab) y_pred_t fs ft rd rc sw tw d :
  length y_s = length fs -> length y_pred_t = length ft -> length fs = length ft -> rect d fs -> rect d ft ->
  (forall p y, In p y_pred_t -> In y y_s -> exists l, crit p y = Ok l) ->
  exists M, deepjdot_loss Lab crit emd2 y_s y_pred_t fs ft rd rc sw tw =
      emd2 (match sw with Some w => w | None => repeat (1 / INR (length fs)) (length fs) end) (match tw with Some w => w | None => repeat (1 / INR (length ft)) (length ft) end) M
    /\ length M = length fs
    /\ forall i j y p f g, nth_error y_s i = Some y -> nth_error y_pred_t j = Some p -> nth_error fs i = Some f -> nth_error ft j = Some g ->
         exists l row, crit p y = Ok l /\ nth_error M i = Some row /\ length row = length ft /\ nth_error row j = Some (rd * (distance f g * distance f g) + rc * l).
Proof.
  intros L1 L2 L3 Rs Rt HC. unfold deepjdot_loss, label_cost. replace (length y_s) with (length y_pred_t) by lia. rewrite Nat.eqb_refl.
  destruct (mapM_ok_all (fun y => mapM (fun p => crit p y) y_pred_t) y_s) as (l & El).
  { intros y Hy. apply mapM_ok_all. intros p Hp. auto. }
  rewrite El. cbn [bind]. destruct (mapM_nth _ _ _ El) as [Ll Nl]. set (dist := map (map (fun d0 => d0 * d0)) (cdist fs ft)).
  assert (Ld : length dist = length fs) by (unfold dist, cdist; now rewrite !map_length).
  assert (Rl : forall r, In r l -> length r = length ft).
  { intros r Hr. apply In_nth_error in Hr as (i & Hi). destruct (nth_error y_s i) as [y|] eqn:Ey; [|exfalso; apply nth_error_None in Ey; assert (i < length l)%nat by (apply nth_error_Some; congruence); lia].
    destruct (Nl _ _ Ey) as (r' & Er & E'). replace r with r' by congruence. destruct (mapM_nth _ _ _ Er) as [Q _]. lia. }
  assert (Rd : forall r, In r dist -> length r = length ft).
  { intros r Hr. apply in_map_iff in Hr as (q & <- & Hq). rewrite map_length. apply in_map_iff in Hq as (x & <- & _). apply map_length. }
  rewrite Ld, Ll, L1, Nat.eqb_refl. cbn [andb].
  assert (FB : forallb (fun p => (length (fst p) =? length (snd p))%nat) (combine dist l) = true).
  { apply forallb_forall. intros [a b] H. cbn. apply Nat.eqb_eq. rewrite (Rd a (in_combine_l _ _ _ _ H)), (Rl b (in_combine_r _ _ _ _ H)). reflexivity. }
  rewrite FB. cbn [bind]. eexists. split; [reflexivity|]. split; [rewrite map2_length; lia|].
  intros i j y p f g Hy Hp Hf Hg. destruct (Nl _ _ Hy) as (row & Er & Ei). destruct (mapM_nth _ _ _ Er) as [Lr Nr]. destruct (Nr _ _ Hp) as (lo & Elo & Ej).
  assert (Edi : nth_error dist i = Some (map (fun d0 => d0 * d0) (map (euclid f) ft))) by (unfold dist, cdist; rewrite !nth_error_map, Hf; reflexivity).
  exists lo. eexists. split; [exact Elo|]. split; [apply nth_error_map2; eauto|]. split; [rewrite map2_length; rewrite !map_length; lia|].
  rewrite (nth_error_map2 _ _ _ _ (euclid f g * euclid f g) lo); auto.
  - rewrite euclid_distance; auto. rewrite (Rs f (nth_error_In _ _ Hf)), (Rt g (nth_error_In _ _ Hg)). reflexivity.
  - rewrite !nth_error_map, Hg. reflexivity.
Qed.

(** ** Margin disparity discrepancy *)
Lemma softmax_nth row k : (k < length row)%nat -> nth_error (softmax row) k = Some (prob row k).
Proof.
  intros H. unfold softmax, prob. rewrite nth_error_map. destruct (nth_error row k) as [x|] eqn:E; [|apply nth_error_None in E; lia]. cbn. rewrite (nth_error_nth _ _ 0 E). reflexivity.
Qed.
Lemma prob_bounds row k : (k < length row)%nat -> (2 <= length row)%nat -> 0 < prob row k < 1.
Proof.
  intros H L. unfold prob. assert (N : row <> []) by (intros ->; cbn in H; lia). pose proof (exp_sum_pos row N) as S. pose proof (exp_pos (nth k row 0)) as E. split.
  - apply Rmult_lt_0_compat; auto. now apply Rinv_0_lt_compat.
  - apply Rmult_lt_reg_r with (vsum (map exp row)); auto. unfold Rdiv. rewrite Rmult_assoc, Rinv_l, Rmult_1_r, Rmult_1_l by lra.
    clear S E N. revert k H L. induction row as [|a row IH]; intros k H L; [cbn in H; lia|]. cbn [map vsum]. destruct k.
    + cbn. assert (0 < vsum (map exp row)); [|lra]. apply exp_sum_pos. intros ->. cbn in L. lia.
    + cbn [nth]. pose proof (exp_pos a). assert (exp (nth k row 0) <= vsum (map exp row)); [|lra]. cbn in H. assert (K : (k < length row)%nat) by lia. clear - K.
      revert k K. induction row as [|b row IH]; intros k K; [cbn in K; lia|]. cbn [map vsum]. pose proof (exp_pos b). destruct k; cbn [nth].
      * assert (0 <= vsum (map exp row)); [|lra]. apply vsum_nonneg_map. intros. left. apply exp_pos.
      * cbn in K. assert (exp (nth k row 0) <= vsum (map exp row)) by (apply IH; lia). lra.
Qed.
Lemma smoothed_lt s row k : (k < length row)%nat -> (2 <= length row)%nat -> 0 <= s <= 1 -> 0 < smoothed s row k < 1.
Proof.
  intros H L Hs. destruct (prob_bounds row k H L) as [P Q]. unfold smoothed. assert (N : 2 <= INR (length row)) by (change 2 with (INR 2); now apply le_INR).
  assert (I : 0 < / INR (length row) <= / 2) by (split; [apply Rinv_0_lt_compat; lra|apply Rinv_le_contravar; lra]). unfold Rdiv. nra.
Qed.
Lemma smooth_nth s row k : (k < length row)%nat -> nth_error (smooth s row) k = Some (smoothed s row k).
Proof. intros H. unfold smooth. rewrite nth_error_map, softmax_nth by auto. reflexivity. Qed.
Lemma all_some_map {A B} (f : A -> B) l : all_some (map (fun x => Some (f x)) l) = Some (map f l).
Proof. induction l as [|a l IH]; cbn; [auto|]. now rewrite IH. Qed.
Lemma mapM_ok {A B} (f : A -> res B) (g : A -> B) l : (forall x, In x l -> f x = Ok (g x)) -> mapM f l = Ok (map g l).
Proof. induction l as [|a l IH]; intros H; [reflexivity|]. cbn. rewrite H by (cbn; auto). cbn. rewrite IH; [reflexivity|]. intros; apply H; cbn; auto. Qed.
Lemma mce_value s input target : 0 <= s <= 1 -> (forall row, In row input -> (2 <= length row)%nat) -> (forall row t, In row input -> In t target -> (t < length row)%nat) ->
  modified_cross_entropy s input target = Ok (Some (average (fun row t => ln (1 - smoothed s row t)) input target)).
Proof.
  intros Hs HL HT. unfold modified_cross_entropy.
  rewrite (mapM_ok _ (fun row => map (smoothed s row) target)).
  2:{ intros row Hr. apply mapM_ok. intros t Ht. now rewrite smooth_nth by auto. }
  cbn [bind]. f_equal. rewrite concat_map, map_map.
  rewrite (map_ext_in _ (fun row => map (fun x => Some x) (map (fun t => ln (1 - smoothed s row t)) target))).
  2:{ intros row Hr. rewrite !map_map. apply map_ext_in. intros t Ht. unfold log1m. destruct (smoothed_lt s row t) as [_ U]; auto. unfold Rltb. destruct (Rlt_dec _ _); [reflexivity|contradiction]. }
  rewrite <- (map_map (fun row => map (fun t => ln (1 - smoothed s row t)) target) (map (fun x => Some x))).
  rewrite <- concat_map, (all_some_map (fun x => x)), map_id. cbn. f_equal. unfold mean, average. rewrite vsum_concat, map_map, (concat_map_length _ (length target)) by (intros; apply map_length).
  now rewrite mult_INR.
Qed.

(** ** The value of the minimum class confusion loss *)
Lemma softmax_seq row : softmax row = map (prob row) (seq 0 (length row)).
Proof.
  unfold softmax, prob. generalize (vsum (map exp row)). intros S.
  assert (G : forall l, map (fun x => exp x / S) l = map (fun k => exp (nth k l 0) / S) (seq 0 (length l))).
  { intros l. induction l as [|a l IH]; [reflexivity|]. cbn [map length seq]. f_equal. rewrite <- seq_shift, map_map. exact IH. }
  apply G.
Qed.
Lemma softmax_nth0 row k : (k < length row)%nat -> nth k (softmax row) 0 = prob row k.
Proof. intros H. apply nth_error_nth. now apply softmax_nth. Qed.
Lemma entropy_certainty eps row : 1 + exp (- entropy eps (softmax row)) = certainty eps row.
Proof. unfold entropy, certainty. rewrite Ropp_involutive, softmax_seq, map_map. reflexivity. Qed.
Lemma correlation_confusion eps rows c j k : rect c rows -> (j < c)%nat -> (k < c)%nat -> let Y := map softmax rows in
  dot (column Y j) (column (map2 vscale (mcc_weights eps Y) Y) k) = confusion eps rows j k.
Proof.
  intros HR Hj Hk Y. unfold confusion. assert (EW : mcc_weights eps Y = map (fun r => certainty eps r / mean (map (certainty eps) rows)) rows).
  { unfold mcc_weights, Y. rewrite !map_map. rewrite (map_ext _ _ (entropy_certainty eps)). apply map_ext. intros r. now rewrite entropy_certainty. }
  rewrite EW. unfold Y. generalize (mean (map (certainty eps) rows)). intros m. clear EW Y. unfold dot, column. f_equal. rewrite map_map.
  rewrite (map2_map_same_l vscale), map_map, map2_map_same. apply map_ext_in. intros r Hr. specialize (HR r Hr).
  rewrite softmax_nth0 by lia. unfold vscale. rewrite (nth_indep _ 0 (certainty eps r / m * 0)) by (rewrite map_length, softmax_length; lia).
  rewrite (map_nth (Rmult (certainty eps r / m))), softmax_nth0 by lia. ring.
Qed.
Lemma vsum_div S l : vsum (map (fun x => x / S) l) = vsum l / S.
Proof. induction l as [|a l IH]; cbn; [unfold Rdiv; ring|]. rewrite IH. unfold Rdiv. ring. Qed.
Lemma without_diag_seq (g : nat -> list R) c : without_diag (map g (seq 0 c)) = map (fun j => map2 (fun k x => if Nat.eqb j k then x - x else x) (seq 0 (length (g j))) (g j)) (seq 0 c).
Proof.
  unfold without_diag. rewrite map_length, seq_length. rewrite <- (map_id (seq 0 c)) at 1. now rewrite map2_map_same_l.
Qed.
Lemma confusion_pos eps rows c j k : rect c rows -> (j < c)%nat -> (k < c)%nat -> (2 <= c)%nat -> rows <> [] -> 0 < confusion eps rows j k.
Proof.
  intros HR Hj Hk Hc NE. unfold confusion. apply vsum_pos; [destruct rows; [congruence|discriminate]|]. intros x Hx. apply in_map_iff in Hx as (r & <- & Hr).
  assert (PC : forall r, 0 < certainty eps r) by (intros r0; unfold certainty; pose proof (exp_pos (vsum (map (fun k0 => prob r0 k0 * ln (prob r0 k0 + eps)) (seq 0 (length r0))))); lra).
  assert (PM : 0 < mean (map (certainty eps) rows)).
  { unfold mean. apply Rmult_lt_0_compat; [apply vsum_pos; [destruct rows; [congruence|discriminate]|intros y Hy; apply in_map_iff in Hy as (q & <- & _); auto]|].
    apply Rinv_0_lt_compat, lt_0_INR. rewrite map_length. destruct rows; [congruence|cbn; lia]. }
  specialize (HR r Hr). destruct (prob_bounds r j); try lia. destruct (prob_bounds r k); try lia. apply Rmult_lt_0_compat; [apply Rmult_lt_0_compat; auto; now apply Rinv_0_lt_compat|]. now apply Rmult_lt_0_compat.
Qed.
Lemma mcc_value c y T eps : (2 <= c)%nat -> rect c y -> y <> [] -> let rows := map (map (fun x => x / T)) y in
  mcc_loss y T eps = mean (map (fun j => 1 - confusion eps rows j j / vsum (map (confusion eps rows j) (seq 0 c))) (seq 0 c)).
Proof.
  intros Hc HR NE rows. unfold mcc_loss. assert (EY : probability_scaling T y = map softmax rows) by (unfold rows, probability_scaling; now rewrite map_map). rewrite EY.
  assert (RR : rect c rows) by (intros r H; apply in_map_iff in H as (q & <- & H); rewrite map_length; auto).
  assert (NR : rows <> []) by (unfold rows; destruct y; [congruence|discriminate]).
  assert (WY : width (map softmax rows) = c). { apply width_rect; [intros r H; apply in_map_iff in H as (q & <- & H); rewrite softmax_length; auto|destruct rows; [congruence|discriminate]]. }
  assert (EC : class_correlation eps (map softmax rows) = map (fun j => map (confusion eps rows j) (seq 0 c)) (seq 0 c)).
  { unfold class_correlation. rewrite WY. apply map_ext_in. intros j Hj. apply map_ext_in. intros k Hk. apply in_seq in Hj, Hk. apply (correlation_confusion eps rows c); auto; lia. }
  rewrite EC. unfold row_normalise. rewrite map_map, without_diag_seq, map_map. f_equal. apply map_ext_in. intros j Hj. apply in_seq in Hj.
  assert (PS : 0 < vsum (map (confusion eps rows j) (seq 0 c))).
  { apply vsum_pos; [destruct c; [lia|discriminate]|]. intros x Hx. apply in_map_iff in Hx as (k & <- & Hk). apply in_seq in Hk. apply (confusion_pos eps rows c); auto; lia. }
  set (S := vsum (map (confusion eps rows j) (seq 0 c))) in *. rewrite off_diagonal.
  - rewrite vsum_div. fold S. cbn [Nat.leb]. rewrite Nat.sub_0_r. f_equal; [unfold Rdiv; rewrite Rinv_r; lra|]. f_equal.
    rewrite map_map. rewrite (nth_indep _ 0 (confusion eps rows 0 0 / S)) by (rewrite map_length, seq_length; lia).
    rewrite (nth_indep _ _ ((fun k => confusion eps rows j k / S) 0%nat)) by (rewrite map_length, seq_length; lia).
    rewrite (map_nth (fun k => confusion eps rows j k / S)), seq_nth by lia. reflexivity.
  - intros x Hx. rewrite map_map in Hx. apply in_map_iff in Hx as (k & <- & Hk). apply in_seq in Hk. left. apply Rmult_lt_0_compat; [apply (confusion_pos eps rows c); auto; lia|now apply Rinv_0_lt_compat].
Qed.
