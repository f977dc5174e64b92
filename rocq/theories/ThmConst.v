(** C220: a constant feature changes nothing. *)
From Coq Require Import String List ZArith Bool Arith Lia Reals Lra Psatz.
From Verif Require Import Np NpFacts Labels Spec SpecFacts UtilsModel UtilsSpec SelectModel RVec RVecFacts FWModel FWSpec ThmFW ReweightModel ReweightSpec ThmReweight Rew2Model MapModel OTModel RMat ThmCoord.
Import ListNotations.
Local Open Scope nat_scope.
Local Open Scope list_scope.

(** ** Specification *)
(** One more feature, with the value [c]. *)
Definition with_feature (d : nat) (c : R) (x : nat -> R) : nat -> R := fun j => if j =? d then c else x j.
(** sklearn's default bandwidth, gamma=None: one over the number of features. *)
Definition default_rbf (d : nat) : (nat -> R) -> (nat -> R) -> R := rbf d (/ INR d).

(** ** Distances, and with them kernels of a given bandwidth, do not see the feature. *)
Lemma distance_same d c x y : sqdist (S d) (with_feature d c x) (with_feature d c y) = sqdist d x y.
Proof.
  unfold sqdist. cbn [msum].
  assert (L : with_feature d c x d = c /\ with_feature d c y d = c) by (unfold with_feature; now rewrite Nat.eqb_refl). destruct L as (-> & ->). rewrite Rminus_diag_eq, Rmult_0_l, Rplus_0_r by reflexivity.
  apply msum_ext. intros i Hi. unfold with_feature. assert (i =? d = false) as -> by (apply Nat.eqb_neq; lia). reflexivity.
Qed.
Lemma const_agree d c : (forall gamma, agree (with_feature d c) (rbf d gamma) (rbf (S d) gamma)) /\ agree (with_feature d c) (sqdist d) (sqdist (S d)) /\
  (forall U V, same_points (S d) (map (with_feature d c) U) (map (with_feature d c) V) = same_points d U V).
Proof.
  split; [|split].
  - intros gamma x y. unfold rbf. now rewrite distance_same.
  - intros x y. apply distance_same.
  - induction U as [|u U IH]; intros [|v V]; cbn [map same_points]; auto. now rewrite distance_same, IH.
Qed.

(** Weights: KLIEP with a bandwidth or a list of bandwidths, kernel densities, KMM, nearest neighbours and MMDTarS. *)
Theorem C220_weights : forall d c,
  (forall gamma choice n tol it X sda Xn sdn,
    (f <- kliep_fit point (rbf (S d) gamma) choice n tol it (map (with_feature d c) X) sda ;; kliep_weights point (rbf (S d) gamma) f (map (with_feature d c) Xn) sdn)
    = (f <- kliep_fit point (rbf d gamma) choice n tol it X sda ;; kliep_weights point (rbf d gamma) f Xn sdn)) /\
  (forall choose n it tol final cv gammas X sda Xn sdn,
    (f <- kliep_cv_fit (rbf (S d)) choose n it tol final cv gammas (map (with_feature d c) X) sda ;; kliep_weights point (rbf (S d) (fst f)) (snd f) (map (with_feature d c) Xn) sdn)
    = (f <- kliep_cv_fit (rbf d) choose n it tol final cv gammas X sda ;; kliep_weights point (rbf d (fst f)) (snd f) Xn sdn)) /\
  (forall gamma F fexp X sda Xn sdn,
    (f <- density_fit point (kernel_density F (rbf (S d) gamma)) (map (with_feature d c) X) sda ;; density_weights point fexp f (map (with_feature d c) Xn) sdn)
    = (f <- density_fit point (kernel_density F (rbf d gamma)) X sda ;; density_weights point fexp f Xn sdn)) /\
  (forall gamma slsqp B eps it solver smooth X sda Xn sdn,
    (f <- kmm_fit point slsqp (rbf (S d) gamma) B eps it solver (map (with_feature d c) X) sda ;; kmm_weights point (same_points (S d)) (rbf (S d) gamma) smooth f (map (with_feature d c) Xn) sdn)
    = (f <- kmm_fit point slsqp (rbf d gamma) B eps it solver X sda ;; kmm_weights point (same_points d) (rbf d gamma) smooth f Xn sdn)) /\
  (forall laplace X sda, nn_weights point (nearest_of (sqdist (S d))) laplace (map (with_feature d c) X) sda = nn_weights point (nearest_of (sqdist d)) laplace X sda) /\
  (forall gamma q X y sda Xn yn sdn,
    (f <- tars_fit point (of_kernels (rbf (S d) gamma) q) (map (with_feature d c) X) y sda ;; tars_weights point (same_points (S d)) f (map (with_feature d c) Xn) yn sdn)
    = (f <- tars_fit point (of_kernels (rbf d gamma) q) X y sda ;; tars_weights point (same_points d) f Xn yn sdn)).
Proof.
  intros d c. destruct (const_agree d c) as (A1 & A2 & A3). repeat split; intros.
  - now apply C174_kliep.
  - now apply C174_kliep_cv.
  - now apply C174_density.
  - now apply C174_kmm.
  - now apply C174_nearest.
  - now apply C174_mmdtars.
Qed.

(** New features by TCA and TJM with a kernel of a given bandwidth, and labels propagated by optimal transport. *)
Theorem C220_features : forall d c gamma,
  (forall eig X sda, kernel_fit_transform point (rbf (S d) gamma) (same_points (S d)) eig (map (with_feature d c) X) sda = kernel_fit_transform point (rbf d gamma) (same_points d) eig X sda) /\
  (forall allow s t V X sda, kernel_transform point (rbf (S d) gamma) (same_points (S d)) allow (map (with_feature d c) s) (map (with_feature d c) t) V (map (with_feature d c) X) sda
     = kernel_transform point (rbf d gamma) (same_points d) allow s t V X sda).
Proof. intros d c gamma. destruct (const_agree d c) as (A1 & A2 & A3). apply C174_kernel_maps; auto. Qed.
Theorem C220_labels : forall d c (psolve : list (list R) -> list R -> list R -> res (list (list R))) X sw sd,
  (forall y, otlp_discrete (fun A B => psolve (kernel_matrix point (sqdist (S d)) A B)) (map (with_feature d c) X) y sw sd
             = otlp_discrete (fun A B => psolve (kernel_matrix point (sqdist d) A B)) X y sw sd) /\
  (forall y, otlp_regression (fun A B => psolve (kernel_matrix point (sqdist (S d)) A B)) (map (with_feature d c) X) y sw sd
             = otlp_regression (fun A B => psolve (kernel_matrix point (sqdist d) A B)) X y sw sd).
Proof. intros d c psolve X sw sd. destruct (const_agree d c) as (A1 & A2 & A3). now apply C174_labels. Qed.

(** ** The default bandwidth of KMM, gamma=None, counts the features. One source is fitted; the weight of another source row is its
    kernel value with the fitted one, whatever the solver does. *)
Lemma kmm_single Row slsqp kern B it (s t : Row) : 1 <= it -> kmm_fit Row slsqp kern B None it "frank-wolfe" [s; t] (SDArr [1; -2]%Z) = Ok ([1%R], [s]).
Proof.
  intros Hit. assert (E : exists w, kmm_fit Row slsqp kern B None it "frank-wolfe" [s; t] (SDArr [1; -2]%Z) = Ok (w, [s])).
  { unfold kmm_fit. cbn -[kmm_optim]. unfold kmm_optim, kmm_eps. cbn -[qp_solve sqrt mean]. rewrite sqrt_1. unfold qp_solve.
    change (String.eqb "frank-wolfe" "scipy") with false. change (String.eqb "frank-wolfe" "frank-wolfe") with true. cbv iota.
    unfold qp_solve_fw, fw_validate. cbn -[frank_wolfe allclose Rltb mean qp_jac qp_func].
    replace (allclose [1]%R [(- - (1))]%R) with (Ok true).
    2:{ unfold allclose, np_map2. cbn -[Rleb]. rewrite (proj2 (Rleb_iff _ _)); auto. replace (1 - - - (1))%R with 0%R by ring. rewrite Rabs_R0. pose proof (Rabs_pos (- - (1))). lra. }
    cbn -[frank_wolfe Rltb mean qp_jac qp_func]. rewrite (proj2 (Rltb_false _ _)) by lra. cbn -[frank_wolfe mean qp_jac qp_func].
    match goal with |- context [frank_wolfe ?j ?c ?l ?u ?x ?i] => destruct (C08_frank_wolfe_returns j c l u x i) as (w & Ew) end.
    - discriminate.
    - discriminate.
    - intros [|a [|b x]] Hx; try discriminate. cbn -[mean]. eexists. split; reflexivity.
    - rewrite Ew. cbn [bind]. apply C08_frank_wolfe_feasible in Ew; [|repeat constructor; lra|lra|auto]. destruct Ew as (Lw & _). destruct w as [|a [|b w]]; try discriminate.
      cbn -[mean]. eexists. reflexivity. }
  destruct E as (w & E). rewrite E. destruct (C39_kmm_mean_bounds Row slsqp kern B None it [s; t] (SDArr [1; -2]%Z) w [s]) as (_ & L & _ & S); auto; [discriminate|].
  cbn -[sqrt vsum] in L, S. rewrite sqrt_1 in S. destruct w as [|a [|b w]]; try discriminate. cbn in S. do 3 f_equal. lra.
Qed.
Lemma kmm_other Row eqb kern smooth (s x : Row) : eqb [s] [x] = false -> kmm_weights Row eqb kern smooth ([1%R], [s]) [x] (SDArr [1]%Z) = Ok [kern x s].
Proof. intros E. unfold kmm_weights. cbn. rewrite E. cbn. do 2 f_equal. ring. Qed.

(** Fitted on the source 0, the source row 1 gets the weight exp(-1); with a constant feature it gets exp(-1/2). *)
Theorem C220_default_bandwidth_refuted : forall slsqp c it, 1 <= it -> exists (s t x : point) w w',
  let run d (g : point -> point) := (f <- kmm_fit point slsqp (default_rbf d) 1000 None it "frank-wolfe" (map g [s; t]) (SDArr [1; -2]%Z) ;;
    kmm_weights point (same_points d) (default_rbf d) false f (map g [x]) (SDArr [1]%Z)) in
  run 1 (fun p => p) = Ok [w] /\ run 2 (with_feature 1 c) = Ok [w'] /\ w <> w'.
Proof.
  intros slsqp c it Hit. exists (on_axis 0), (on_axis 5), (on_axis 1), (exp (-1)), (exp (- (1 / 2))). cbv zeta. cbn [map].
  rewrite !kmm_single by auto. cbn [bind].
  assert (D : sqdist 1 (on_axis 1) (on_axis 0) = 1%R) by (unfold sqdist, on_axis; cbn; ring).
  assert (D' : sqdist 1 (on_axis 0) (on_axis 1) = 1%R) by (unfold sqdist, on_axis; cbn; ring).
  assert (N : forall d a b, sqdist d a b = 1%R -> same_points d [a] [b] = false).
  { intros d a b E. cbn. rewrite E. destruct (Req_EM_T 1 0); [lra|reflexivity]. }
  rewrite !kmm_other by (apply N; rewrite ?(distance_same 1); auto).
  unfold default_rbf, rbf. rewrite (distance_same 1), D. split; [|split].
  - do 2 f_equal. f_equal. cbn. field.
  - do 2 f_equal. f_equal. cbn. field.
  - intros E. apply exp_inv in E. lra.
Qed.

(** ** Example: nearest-neighbour weights of two sources for the targets 1 and 2, with and without a third feature. *)
Example C220_ex : exists w, nn_weights point (nearest_of (sqdist 2)) false [on_axis 1; on_axis 0; on_axis 9; on_axis 2] (SDArr [-2; 1; 1; -2]%Z) = Ok w /\
  nn_weights point (nearest_of (sqdist 3)) false (map (with_feature 2 7) [on_axis 1; on_axis 0; on_axis 9; on_axis 2]) (SDArr [-2; 1; 1; -2]%Z) = Ok w /\
  with_feature 2 7 (on_axis 9) 0 = 9%R /\ with_feature 2 7 (on_axis 9) 2 = 7%R.
Proof.
  destruct (C220_weights 2 7) as (_ & _ & _ & _ & H & _).
  assert (E : exists w, nn_weights point (nearest_of (sqdist 2)) false [on_axis 1; on_axis 0; on_axis 9; on_axis 2] (SDArr [-2; 1; 1; -2]%Z) = Ok w).
  { unfold nn_weights, nn_get_weights, nearest_of, np_argmin. cbn -[Rltb sqdist]. unfold Rltb.
    change (Pos.to_nat 2) with 2. change (Pos.to_nat 1) with 1. cbn. repeat destruct (Rlt_dec _ _); cbn; eexists; reflexivity. }
  destruct E as (w & E). exists w. rewrite H. repeat split; auto.
Qed.
