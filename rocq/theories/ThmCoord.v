(** Theorems C174: adapters that compare samples through distances or kernels do not depend on the coordinates. *)
From Coq Require Import String List ZArith Bool Arith Lia Reals Lra.
From Verif Require Import Np NpFacts Labels Spec UtilsModel SelectModel RVec RVecFacts FWModel ReweightModel Rew2Model MapModel OTModel RMat.
Import ListNotations.
Local Open Scope nat_scope.
Local Open Scope list_scope.

(** ** Vocabulary: points of the space with d coordinates, its motions, the usual kernel. *)
Definition point := nat -> R.
Definition sqdist (d : nat) (x y : point) : R := msum d (fun i => (x i - y i) * (x i - y i))%R.
(** x -> Q x + c with Q orthogonal (a rotation, possibly with a reflection), c any vector. *)
Definition orthogonal (d : nat) (Q : mat) : Prop := forall j k, j < d -> k < d -> msum d (fun i => Q i j * Q i k)%R = (if j =? k then 1 else 0)%R.
Definition motion (d : nat) (Q : mat) (c : point) (x : point) : point := fun i => (msum d (fun j => Q i j * x j) + c i)%R.
Definition rbf (d : nat) (gamma : R) (x y : point) : R := exp (- gamma * sqdist d x y).
(** Two arrays of points are equal. *)
Fixpoint same_points (d : nat) (A B : list point) : bool :=
  match A, B with
  | [], [] => true
  | a :: A', b :: B' => (if Req_EM_T (sqdist d a b) 0 then true else false) && same_points d A' B'
  | _, _ => false
  end.

(** The nearest sample of [A], for each sample of [B] (the first one if there are several). *)
Definition nearest_of {Row} (dist : Row -> Row -> R) (A B : list Row) : res (list nat) := mapM (fun x => np_argmin (map (dist x) A)) B.
Definition delta_mat : mat := fun i j => if i =? j then 1%R else 0%R.

Lemma msum_zero k f : (forall i, i < k -> f i = 0%R) -> msum k f = 0%R.
Proof. induction k as [|k IH]; intros H; cbn [msum]; [auto|]. rewrite IH, H by auto with arith. lra. Qed.
Lemma msum_one k f j : j < k -> (forall i, i < k -> i <> j -> f i = 0%R) -> msum k f = f j.
Proof.
  induction k as [|k IH]; intros Hj H; [lia|]. cbn [msum]. destruct (Nat.eq_dec j k) as [->|N].
  - rewrite msum_zero; [lra|]. intros i Hi. apply H; lia.
  - rewrite (IH ltac:(lia)) by (intros; apply H; lia). rewrite (H k) by lia. lra.
Qed.

(** A motion changes no distance. *)
Theorem C174_motion : forall d Q c x y, orthogonal d Q -> sqdist d (motion d Q c x) (motion d Q c y) = sqdist d x y.
Proof.
  intros d Q c x y HQ. unfold sqdist, motion. set (z := fun j => (x j - y j)%R).
  transitivity (msum d (fun i => msum d (fun j => msum d (fun k => (z j * z k) * (Q i j * Q i k)))))%R.
  - apply msum_ext. intros i _.
    assert (E : (msum d (fun j => Q i j * x j) + c i - (msum d (fun j => Q i j * y j) + c i))%R = msum d (fun j => (Q i j * z j)%R)).
    { unfold z. rewrite (msum_ext d (fun j => (Q i j * (x j - y j))%R) (fun j => (Q i j * x j + (-1) * (Q i j * y j))%R)) by (intros; ring).
      rewrite msum_plus, (msum_scal d (-1)%R (fun j => (Q i j * y j)%R)). ring. }
    rewrite E. rewrite <- (msum_scal_r d (msum d (fun j => (Q i j * z j)%R)) (fun j => (Q i j * z j)%R)). apply msum_ext. intros j _.
    rewrite <- (msum_scal d (Q i j * z j)%R). apply msum_ext. intros k _. ring.
  - rewrite msum_swap. apply msum_ext. intros j Hj. rewrite msum_swap.
    rewrite (msum_one d _ j Hj).
    + rewrite (msum_scal d (z j * z j)%R (fun i => (Q i j * Q i j)%R)), (HQ j j Hj Hj), Nat.eqb_refl. unfold z. ring.
    + intros k Hk N. rewrite (msum_scal d (z j * z k)%R (fun i => (Q i j * Q i k)%R)), (HQ j k Hj Hk).
      rewrite (proj2 (Nat.eqb_neq j k)) by congruence. ring.
Qed.

(** ** Any change of coordinates [g] under which the kernels agree *)
Section Coordinates.
  Context {Row Row' : Type}.
  Variable g : Row -> Row'.
  Definition emap {A B} (f : A -> B) (r : res A) : res B := x <- r ;; Ok (f x).

  Lemma take_g idx : forall X, np_take idx (map g X) = emap (map g) (np_take idx X).
  Proof.
    intros X. unfold np_take, emap. induction idx as [|i idx IH]; cbn [mapM]; [reflexivity|]. rewrite nth_error_map.
    destruct (nth_error X i); cbn [option_map bind]; auto. rewrite IH. clear IH. destruct (mapM _ idx); reflexivity.
  Qed.
  Lemma take_z_g idx X : np_take_z idx (map g X) = emap (map g) (np_take_z idx X).
  Proof. unfold np_take_z. rewrite map_length. destruct (mapM _ idx); cbn [bind]; auto. apply take_g. Qed.
  Lemma select_g m X : np_select m (map g X) = emap (map g) (np_select m X).
  Proof.
    unfold np_select, emap. rewrite map_length. destruct (length m =? length X); cbn [bind]; auto. f_equal.
    revert X. induction m as [|b m IH]; intros [|x X]; cbn; auto; destruct b; cbn; rewrite ?IH; auto.
  Qed.
  Lemma split_g X sd : source_target_split [Some (map g X)] sd = emap (map (option_map (map g))) (source_target_split [Some X] sd).
  Proof.
    unfold source_target_split, split_gen, raise_if, emap. cbn [length Nat.eqb]. destruct (extract_source_indices sd) as [m|]; cbn [bind]; auto.
    cbn [mapM split_one]. rewrite !select_g. unfold emap. destruct (np_select m X); cbn [bind]; auto. destruct (np_select (map negb m) X); cbn [bind]; auto.
  Qed.
  Lemma split_shape X sd p : source_target_split [Some X] sd = Ok p -> exists s t : list Row, p = [Some s; Some t].
  Proof.
    unfold source_target_split, split_gen, raise_if. cbn [length Nat.eqb]. destruct (extract_source_indices sd) as [m|]; cbn [bind]; [|discriminate].
    cbn [mapM split_one]. destruct (np_select m X); cbn [bind]; [|discriminate]. destruct (np_select (map negb m) X); cbn [bind concat app]; [|discriminate].
    intros [= <-]. eauto.
  Qed.
  Lemma rw_split_g X sda : rw_split Row' (map g X) sda = emap (fun p => (map g (fst p), map g (snd p))) (rw_split Row X sda).
  Proof.
    unfold rw_split, rw_check. rewrite map_length. destruct (check_X_domain (length X) sda all_flags) as [sd|]; cbn [bind emap]; auto.
    rewrite split_g. unfold emap. destruct (source_target_split [Some X] sd) as [p|] eqn:E; cbn [bind]; auto.
    apply split_shape in E as (s & t & ->). reflexivity.
  Qed.

  Section OneKernel.
    Variable kern : Row -> Row -> R.
    Variable kern' : Row' -> Row' -> R.
    Hypothesis same_kernel : forall x y, kern' (g x) (g y) = kern x y.

    Lemma kernel_g X Y : kernel_matrix Row' kern' (map g X) (map g Y) = kernel_matrix Row kern X Y.
    Proof. unfold kernel_matrix. rewrite map_map. apply map_ext. intros x. rewrite map_map. apply map_ext. intros y. apply same_kernel. Qed.

    (** KLIEP with a given bandwidth: the fit has the same coefficients and the centres in the new coordinates; the weights are the same. *)
    Lemma optim_g choice n tol it Xs Xt : kliep_optim Row' kern' choice n tol it (map g Xs) (map g Xt)
      = emap (fun p => (fst p, map g (snd p))) (kliep_optim Row kern choice n tol it Xs Xt).
    Proof.
      unfold kliep_optim, emap. rewrite take_g, map_length. unfold emap. destruct (np_take choice Xt) as [c|]; cbn [bind]; auto.
      rewrite !kernel_g, map_length. destruct (np_matvec _ _); cbn [bind]; auto. destruct (kliep_loop _ _ _ _ _ _); cbn [bind]; auto.
    Qed.
    Lemma kliep_weights_g a c X sda : kliep_weights Row' kern' (a, map g c) (map g X) sda = kliep_weights Row kern (a, c) X sda.
    Proof.
      unfold kliep_weights, rw_check. rewrite map_length. destruct (check_X_domain _ _ _) as [sd|]; cbn [bind]; auto.
      destruct (source_positions sd) as [si|]; cbn [bind]; auto. rewrite take_g. unfold emap. destruct (np_take si X); cbn [bind fst snd]; auto.
      now rewrite kernel_g.
    Qed.
    Lemma kliep_g choice n tol it X sda Xn sdn :
      (f <- kliep_fit Row' kern' choice n tol it (map g X) sda ;; kliep_weights Row' kern' f (map g Xn) sdn)
      = (f <- kliep_fit Row kern choice n tol it X sda ;; kliep_weights Row kern f Xn sdn).
    Proof.
      unfold kliep_fit. rewrite rw_split_g. unfold emap. destruct (rw_split Row X sda) as [[s t]|]; cbn [bind fst snd]; auto.
      rewrite optim_g. unfold emap. destruct (kliep_optim _ _ _ _ _ _ _ _) as [[a c]|]; cbn [bind fst snd]; auto. apply kliep_weights_g.
    Qed.

    (** Kernel densities: the value at a sample is a function [F] of the kernel values with the training samples. *)
    Lemma density_g (F : list R -> R) fexp X sda Xn sdn :
      let kde (A : list Row) : res (list Row -> res (list R)) := Ok (fun B => Ok (map F (kernel_matrix Row kern B A))) in
      let kde' (A : list Row') : res (list Row' -> res (list R)) := Ok (fun B => Ok (map F (kernel_matrix Row' kern' B A))) in
      (f <- density_fit Row' kde' (map g X) sda ;; density_weights Row' fexp f (map g Xn) sdn)
      = (f <- density_fit Row kde X sda ;; density_weights Row fexp f Xn sdn).
    Proof.
      cbv zeta. unfold density_fit. rewrite rw_split_g. unfold emap. destruct (rw_split Row X sda) as [[s t]|]; cbn [bind fst snd]; auto.
      unfold density_weights, rw_check. rewrite map_length. destruct (check_X_domain _ _ _) as [sd|]; cbn [bind]; auto.
      destruct (source_positions sd) as [si|]; cbn [bind]; auto. rewrite take_g. unfold emap. destruct (np_take si Xn) as [Xs|]; cbn [bind fst snd]; auto.
      now rewrite !kernel_g.
    Qed.

    Variable eqb : list Row -> list Row -> bool.
    Variable eqb' : list Row' -> list Row' -> bool.
    Hypothesis same_eq : forall A B, eqb' (map g A) (map g B) = eqb A B.

    Lemma kmm_g slsqp B eps it solver smooth X sda Xn sdn :
      (f <- kmm_fit Row' slsqp kern' B eps it solver (map g X) sda ;; kmm_weights Row' eqb' kern' smooth f (map g Xn) sdn)
      = (f <- kmm_fit Row slsqp kern B eps it solver X sda ;; kmm_weights Row eqb kern smooth f Xn sdn).
    Proof.
      unfold kmm_fit. rewrite rw_split_g. unfold emap. destruct (rw_split Row X sda) as [[s t]|]; cbn [bind fst snd]; auto.
      unfold kmm_optim. rewrite !kernel_g. destruct (qp_solve _ _ _ _ _ _ _ _ _ _ _ _) as [r|]; cbn [bind]; auto.
      unfold kmm_weights, rw_check. rewrite map_length. destruct (check_X_domain _ _ _) as [sd|]; cbn [bind]; auto.
      destruct (extract_source_indices sd) as [m|]; cbn [bind]; auto. rewrite select_g. unfold emap. destruct (np_select m Xn) as [Xs|]; cbn [bind fst snd]; auto.
      now rewrite same_eq, kernel_g.
    Qed.

    (** MMDTarS: the quadratic cost is made of the kernel matrices. *)
    Lemma tars_g (qsolve : list (list R) -> list (list R) -> list Z -> scipy_problem -> res (list R)) X y sda Xn yn sdn :
      let solve Xs Xt := qsolve (kernel_matrix Row kern Xs Xs) (kernel_matrix Row kern Xs Xt) in
      let solve' Xs Xt := qsolve (kernel_matrix Row' kern' Xs Xs) (kernel_matrix Row' kern' Xs Xt) in
      (f <- tars_fit Row' solve' (map g X) y sda ;; tars_weights Row' eqb' f (map g Xn) yn sdn)
      = (f <- tars_fit Row solve X y sda ;; tars_weights Row eqb f Xn yn sdn).
    Proof.
      cbv zeta. unfold tars_fit, rw_check. rewrite map_length. destruct (check_X_domain _ sda _) as [sd|]; cbn [bind]; auto.
      rewrite split_g. unfold emap. destruct (source_target_split [Some X] sd) as [p|] eqn:E; cbn [bind]; auto.
      apply split_shape in E as (s & t & ->). cbn [map option_map]. destruct (source_target_split [Some y] sd) as [py|]; cbn [bind]; auto.
      destruct py as [|[ys|] [|[yt|] [|? ?]]]; cbn [bind]; auto. rewrite !kernel_g.
      destruct (qsolve _ _ _ _) as [al|]; cbn [bind]; auto. destruct (np_matvec _ al) as [w|]; cbn [bind]; auto.
      unfold tars_weights. rewrite map_length. destruct (check_X_y_domain _ _ _ _ _) as [sd'|]; cbn [bind]; auto.
      destruct (extract_source_indices sd') as [m|]; cbn [bind]; auto. rewrite select_g. unfold emap.
      destruct (np_select m Xn) as [Xs|]; cbn [bind ts_X ts_weights ts_classes ts_alpha]; auto. now rewrite same_eq.
    Qed.

    (** TCA and TJM: the projection is computed from the kernel matrix. *)
    Lemma kmat_g A B : kmat Row' kern' (map g A) (map g B) = kmat Row kern A B.
    Proof. exact (kernel_g A B). Qed.
    Lemma block_g A B : block_kernel Row' kern' (map g A) (map g B) = block_kernel Row kern A B.
    Proof. unfold block_kernel. now rewrite !kmat_g, map_length. Qed.
    Lemma transform_g allow s t V X sda : kernel_transform Row' kern' eqb' allow (map g s) (map g t) V (map g X) sda = kernel_transform Row kern eqb allow s t V X sda.
    Proof.
      unfold kernel_transform. rewrite map_length. destruct (check_X_domain _ _ _) as [sd|]; cbn [bind]; auto. rewrite split_g. unfold emap.
      destruct (source_target_split [Some X] sd) as [p|] eqn:E; cbn [bind]; auto. apply split_shape in E as (s' & t' & ->). cbn [map option_map].
      now rewrite !same_eq, block_g, !kmat_g.
    Qed.
    Lemma kernel_maps_g eig X sda : kernel_fit_transform Row' kern' eqb' eig (map g X) sda = kernel_fit_transform Row kern eqb eig X sda.
    Proof.
      unfold kernel_fit_transform. rewrite map_length. destruct (check_X_domain _ _ _) as [sd|]; cbn [bind]; auto. rewrite split_g. unfold emap.
      destruct (source_target_split [Some X] sd) as [p|] eqn:E; cbn [bind]; auto. apply split_shape in E as (s & t & ->). cbn [map option_map].
      rewrite block_g. destruct (eig _); cbn [bind]; auto. apply transform_g.
    Qed.
  End OneKernel.

  (** KLIEP with a list of bandwidths. *)
  Section Cv.
    Variable kern : R -> Row -> Row -> R.
    Variable kern' : R -> Row' -> Row' -> R.
    Hypothesis same_kernel : forall r x y, kern' r (g x) (g y) = kern r x y.
    Lemma fold_g choose n it tol r Xs Xt j fold : fold_lik kern' choose n it tol r (map g Xs) (map g Xt) j fold = fold_lik kern choose n it tol r Xs Xt j fold.
    Proof.
      unfold fold_lik. rewrite take_g. unfold emap. destruct (np_take (fst fold) Xt) as [Xtr|]; cbn [bind]; auto.
      rewrite (optim_g (kern r) (kern' r) (same_kernel r)). unfold emap. destruct (kliep_optim _ _ _ _ _ _ _ _) as [[a c]|]; cbn [bind fst snd]; auto.
      rewrite take_g. unfold emap. destruct (np_take (snd fold) Xt) as [Xte|]; cbn [bind]; auto. now rewrite (kernel_g (kern r) (kern' r) (same_kernel r)).
    Qed.
    Lemma cv_g choose n it tol cv gammas Xs Xt :
      cross_validation kern' choose n it tol cv gammas (map g Xs) (map g Xt) = cross_validation kern choose n it tol cv gammas Xs Xt.
    Proof.
      unfold cross_validation. rewrite map_length. erewrite mapM_ext; [reflexivity|]. intros r _.
      destruct (kfold (length Xt) cv) as [folds|]; cbn [bind]; auto. erewrite mapM_ext; [reflexivity|]. intros p _. apply fold_g.
    Qed.
    Lemma kliep_cv_g choose n it tol final cv gammas X sda Xn sdn :
      (f <- kliep_cv_fit kern' choose n it tol final cv gammas (map g X) sda ;; kliep_weights Row' (kern' (fst f)) (snd f) (map g Xn) sdn)
      = (f <- kliep_cv_fit kern choose n it tol final cv gammas X sda ;; kliep_weights Row (kern (fst f)) (snd f) Xn sdn).
    Proof.
      unfold kliep_cv_fit. rewrite rw_split_g. unfold emap. destruct (rw_split Row X sda) as [[s t]|]; cbn [bind fst snd]; auto.
      rewrite cv_g. destruct (cross_validation _ _ _ _ _ _ _ _ _) as [r|]; cbn [bind]; auto.
      rewrite (optim_g (kern r) (kern' r) (same_kernel r)). unfold emap. destruct (kliep_optim _ _ _ _ _ _ _ _) as [[a c]|]; cbn [bind fst snd]; auto.
      apply kliep_weights_g, same_kernel.
    Qed.
  End Cv.

  (** Methods that look at distances. *)
  Section Distances.
    Variable dist : Row -> Row -> R.
    Variable dist' : Row' -> Row' -> R.
    Hypothesis same_dist : forall x y, dist' (g x) (g y) = dist x y.
    Variable eqb : list Row -> list Row -> bool.
    Variable eqb' : list Row' -> list Row' -> bool.
    Hypothesis same_eq : forall A B, eqb' (map g A) (map g B) = eqb A B.

    Lemma nearest_g A B : nearest_of dist' (map g A) (map g B) = nearest_of dist A B.
    Proof.
      unfold nearest_of. induction B as [|x B IH]; cbn [map mapM]; auto. rewrite map_map.
      rewrite (map_ext (fun a => dist' (g x) (g a)) (dist x)) by auto. now rewrite IH.
    Qed.
    Lemma nn_g laplace X sda : nn_weights Row' (nearest_of dist') laplace (map g X) sda = nn_weights Row (nearest_of dist) laplace X sda.
    Proof.
      unfold nn_weights, rw_check. rewrite map_length. destruct (check_X_domain _ _ _) as [sd|]; cbn [bind]; auto.
      destruct (source_positions sd) as [si|]; cbn [bind]; auto. rewrite take_g, take_z_g. unfold emap. destruct (np_take si X) as [Xs|]; cbn [bind]; auto.
      destruct (np_take_z _ X) as [Xn|]; cbn [bind]; auto. unfold nn_get_weights. now rewrite nearest_g, map_length.
    Qed.

    Lemma tarsc_g label_kernel reg_inv (qsolve : list (list R) -> list (list R) -> list R -> scipy_problem -> res (list R)) kern kern' X y sda Xn yn sdn :
      (forall x y, kern' (g x) (g y) = kern x y) ->
      let solve Xs Xt := qsolve (kernel_matrix Row kern Xs Xs) (kernel_matrix Row kern Xs Xt) in
      let solve' Xs Xt := qsolve (kernel_matrix Row' kern' Xs Xs) (kernel_matrix Row' kern' Xs Xt) in
      (f <- tarsc_fit label_kernel reg_inv solve' (map g X) y sda ;; tarsc_weights dist' eqb' f (map g Xn) yn sdn)
      = (f <- tarsc_fit label_kernel reg_inv solve X y sda ;; tarsc_weights dist eqb f Xn yn sdn).
    Proof.
      intros Hk. cbv zeta. unfold tarsc_fit, rw_check. rewrite map_length. destruct (check_X_domain _ sda _) as [sd|]; cbn [bind]; auto.
      rewrite split_g. unfold emap. destruct (source_target_split [Some X] sd) as [p|] eqn:E; cbn [bind]; auto.
      apply split_shape in E as (s & t & ->). cbn [map option_map]. destruct (source_target_split [Some y] sd) as [py|]; cbn [bind]; auto.
      destruct py as [|[ys|] [|[yt|] [|? ?]]]; cbn [bind]; auto. rewrite !(kernel_g kern kern' Hk).
      destruct (qsolve _ _ _ _) as [al|]; cbn [bind]; auto. destruct (np_matvec _ al) as [w|]; cbn [bind]; auto.
      unfold tarsc_weights. rewrite map_length. destruct (length yn =? length Xn); cbn [bind]; auto.
      destruct (extract_source_indices sdn) as [m|]; cbn [bind]; auto. rewrite select_g. unfold emap.
      destruct (np_select m Xn) as [Xs|]; cbn [bind tc_X tc_weights]; auto. rewrite same_eq.
      change (mapM (fun x => np_argmin (map (dist' x) (map g s))) (map g Xs)) with (nearest_of dist' (map g s) (map g Xs)). now rewrite nearest_g.
    Qed.

    (** Optimal transport between two samples: the plan is computed from the distances and the marginals. *)
    Lemma otlp_g (psolve : list (list R) -> list R -> list R -> res (list (list R))) X y sw sd :
      otlp_discrete (fun A B => psolve (kernel_matrix Row' dist' A B)) (map g X) y sw sd
      = otlp_discrete (fun A B => psolve (kernel_matrix Row dist A B)) X y sw sd.
    Proof.
      unfold otlp_discrete, otlp_parts. rewrite split_g. unfold emap. destruct (source_target_split [Some X] sd) as [p|] eqn:E; cbn [bind]; auto.
      apply split_shape in E as (s & t & ->). cbn [map option_map]. destruct (source_target_split [Some y] sd) as [py|]; cbn [bind]; auto.
      destruct (source_target_split [sw] sd) as [pw|]; cbn [bind]; auto. destruct py as [|[ys|] [|? [|? ?]]]; cbn [bind]; auto.
      destruct pw as [|ws [|wt [|? ?]]]; cbn [bind]; auto. now rewrite !(kernel_g dist dist' same_dist), !map_length.
    Qed.
    Lemma otlp_reg_g (psolve : list (list R) -> list R -> list R -> res (list (list R))) X y sw sd :
      otlp_regression (fun A B => psolve (kernel_matrix Row' dist' A B)) (map g X) y sw sd
      = otlp_regression (fun A B => psolve (kernel_matrix Row dist A B)) X y sw sd.
    Proof.
      unfold otlp_regression, otlp_parts. rewrite split_g. unfold emap. destruct (source_target_split [Some X] sd) as [p|] eqn:E; cbn [bind]; auto.
      apply split_shape in E as (s & t & ->). cbn [map option_map]. destruct (source_target_split [Some y] sd) as [py|]; cbn [bind]; auto.
      destruct (source_target_split [sw] sd) as [pw|]; cbn [bind]; auto. destruct py as [|[ys|] [|? [|? ?]]]; cbn [bind]; auto.
      destruct pw as [|ws [|wt [|? ?]]]; cbn [bind]; auto. now rewrite !(kernel_g dist dist' same_dist), !map_length.
    Qed.
  End Distances.
End Coordinates.

(** ** The theorems: [g] is any change of the representation of the samples under which the kernel (the distance) between two samples keeps its
    value; a motion of the space and a kernel of distances are an instance by C174_motion. Fitting on some samples and asking for the weights of
    others, all in the new coordinates, gives the weights obtained in the old ones, and fails when that fails. *)
Definition agree {Row Row'} (g : Row -> Row') (k : Row -> Row -> R) (k' : Row' -> Row' -> R) : Prop := forall x y, k' (g x) (g y) = k x y.

Theorem C174_kliep : forall Row Row' (g : Row -> Row') kern kern' choice n tol it X sda Xn sdn, agree g kern kern' ->
  (f <- kliep_fit Row' kern' choice n tol it (map g X) sda ;; kliep_weights Row' kern' f (map g Xn) sdn)
  = (f <- kliep_fit Row kern choice n tol it X sda ;; kliep_weights Row kern f Xn sdn).
Proof. intros. now apply kliep_g. Qed.

Theorem C174_kliep_cv : forall Row Row' (g : Row -> Row') kern kern' choose n it tol final cv gammas X sda Xn sdn, (forall r, agree g (kern r) (kern' r)) ->
  (f <- kliep_cv_fit kern' choose n it tol final cv gammas (map g X) sda ;; kliep_weights Row' (kern' (fst f)) (snd f) (map g Xn) sdn)
  = (f <- kliep_cv_fit kern choose n it tol final cv gammas X sda ;; kliep_weights Row (kern (fst f)) (snd f) Xn sdn).
Proof. intros. now apply kliep_cv_g. Qed.

(** A density estimator whose value at a sample is a function of the kernel values between it and the training samples (KernelDensity). *)
Definition kernel_density {Row} (F : list R -> R) (kern : Row -> Row -> R) (A : list Row) : res (list Row -> res (list R)) :=
  Ok (fun B => Ok (map F (kernel_matrix Row kern B A))).
Theorem C174_density : forall Row Row' (g : Row -> Row') kern kern' F fexp X sda Xn sdn, agree g kern kern' ->
  (f <- density_fit Row' (kernel_density F kern') (map g X) sda ;; density_weights Row' fexp f (map g Xn) sdn)
  = (f <- density_fit Row (kernel_density F kern) X sda ;; density_weights Row fexp f Xn sdn).
Proof. intros. now apply (density_g g kern kern'). Qed.

Theorem C174_kmm : forall Row Row' (g : Row -> Row') kern kern' eqb eqb' slsqp B eps it solver smooth X sda Xn sdn,
  agree g kern kern' -> (forall U V, eqb' (map g U) (map g V) = eqb U V) ->
  (f <- kmm_fit Row' slsqp kern' B eps it solver (map g X) sda ;; kmm_weights Row' eqb' kern' smooth f (map g Xn) sdn)
  = (f <- kmm_fit Row slsqp kern B eps it solver X sda ;; kmm_weights Row eqb kern smooth f Xn sdn).
Proof. intros. now apply kmm_g. Qed.

Theorem C174_nearest : forall Row Row' (g : Row -> Row') dist dist' laplace X sda, agree g dist dist' ->
  nn_weights Row' (nearest_of dist') laplace (map g X) sda = nn_weights Row (nearest_of dist) laplace X sda.
Proof. intros. now apply nn_g. Qed.

(** MMDTarS, for classes and for continuous labels: a solver of the quadratic problem given by the kernel matrices. *)
Definition of_kernels {Row L} (kern : Row -> Row -> R) (q : list (list R) -> list (list R) -> L -> scipy_problem -> res (list R))
           (Xs Xt : list Row) : L -> scipy_problem -> res (list R) := q (kernel_matrix Row kern Xs Xs) (kernel_matrix Row kern Xs Xt).
Theorem C174_mmdtars : forall Row Row' (g : Row -> Row') kern kern' eqb eqb' q X y sda Xn yn sdn,
  agree g kern kern' -> (forall U V, eqb' (map g U) (map g V) = eqb U V) ->
  (f <- tars_fit Row' (of_kernels kern' q) (map g X) y sda ;; tars_weights Row' eqb' f (map g Xn) yn sdn)
  = (f <- tars_fit Row (of_kernels kern q) X y sda ;; tars_weights Row eqb f Xn yn sdn).
Proof. intros. now apply (tars_g g kern kern'). Qed.
Theorem C174_mmdtars_continuous : forall Row Row' (g : Row -> Row') kern kern' dist dist' eqb eqb' label_kernel reg_inv q X y sda Xn yn sdn,
  agree g kern kern' -> agree g dist dist' -> (forall U V, eqb' (map g U) (map g V) = eqb U V) ->
  (f <- tarsc_fit label_kernel reg_inv (of_kernels kern' q) (map g X) y sda ;; tarsc_weights dist' eqb' f (map g Xn) yn sdn)
  = (f <- tarsc_fit label_kernel reg_inv (of_kernels kern q) X y sda ;; tarsc_weights dist eqb f Xn yn sdn).
Proof. intros. now apply (tarsc_g g dist dist'). Qed.

(** TCA and TJM return the same new features. *)
Theorem C174_kernel_maps : forall Row Row' (g : Row -> Row') kern kern' eqb eqb',
  agree g kern kern' -> (forall U V, eqb' (map g U) (map g V) = eqb U V) ->
  (forall eig X sda, kernel_fit_transform Row' kern' eqb' eig (map g X) sda = kernel_fit_transform Row kern eqb eig X sda) /\
  (forall allow s t V X sda, kernel_transform Row' kern' eqb' allow (map g s) (map g t) V (map g X) sda = kernel_transform Row kern eqb allow s t V X sda).
Proof. intros. split; intros; [now apply kernel_maps_g|now apply transform_g]. Qed.

(** Label propagation by optimal transport gives the same labels. *)
Theorem C174_labels : forall Row Row' (g : Row -> Row') dist dist' (psolve : list (list R) -> list R -> list R -> res (list (list R))) X sw sd,
  agree g dist dist' ->
  (forall y, otlp_discrete (fun A B => psolve (kernel_matrix Row' dist' A B)) (map g X) y sw sd
             = otlp_discrete (fun A B => psolve (kernel_matrix Row dist A B)) X y sw sd) /\
  (forall y, otlp_regression (fun A B => psolve (kernel_matrix Row' dist' A B)) (map g X) y sw sd
             = otlp_regression (fun A B => psolve (kernel_matrix Row dist A B)) X y sw sd).
Proof. intros. split; intros; [now apply otlp_g|now apply otlp_reg_g]. Qed.

(** The hypotheses above hold for the rbf kernel, the distance and the equality of arrays, and every motion. *)
Theorem C174_instances : forall d Q c, orthogonal d Q ->
  (forall gamma, agree (motion d Q c) (rbf d gamma) (rbf d gamma)) /\ agree (motion d Q c) (sqdist d) (sqdist d) /\
  agree (motion d Q c) (fun x y => sqrt (sqdist d x y)) (fun x y => sqrt (sqdist d x y)) /\
  (forall U V, same_points d (map (motion d Q c) U) (map (motion d Q c) V) = same_points d U V).
Proof.
  intros d Q c HQ. split; [|split; [|split]].
  - intros gamma x y. unfold rbf. now rewrite C174_motion.
  - intros x y. now apply C174_motion.
  - intros x y. now rewrite C174_motion.
  - induction U as [|u U IH]; intros [|v V]; cbn [map same_points]; auto. now rewrite C174_motion, IH.
Qed.

(** ** Units. With gamma = "scale" the rbf kernel does not depend on the unit of the features: [var] is the variance of all the entries. *)
Definition all_mean (n d : nat) (X : nat -> point) : R := (msum n (fun i => msum d (X i)) / (INR n * INR d))%R.
Definition all_var (n d : nat) (X : nat -> point) : R :=
  (msum n (fun i => msum d (fun j => (X i j - all_mean n d X) * (X i j - all_mean n d X))) / (INR n * INR d))%R.
Definition in_unit (s : R) (x : point) : point := fun j => (s * x j)%R.

Lemma all_var_unit n d X s : all_var n d (fun i => in_unit s (X i)) = (s * s * all_var n d X)%R.
Proof.
  unfold all_var. assert (M : all_mean n d (fun i => in_unit s (X i)) = (s * all_mean n d X)%R).
  { unfold all_mean, in_unit. rewrite (msum_ext n _ (fun i => (s * msum d (X i))%R)) by (intros; apply (msum_scal d s)). rewrite msum_scal. unfold Rdiv. ring. }
  rewrite M. set (m := all_mean n d X). unfold in_unit.
  rewrite (msum_ext n _ (fun i => (s * s * msum d (fun j => (X i j - m) * (X i j - m)))%R)).
  - rewrite msum_scal. unfold Rdiv. ring.
  - intros i _. rewrite <- msum_scal. apply msum_ext. intros j _. ring.
Qed.

Theorem C174_units : forall n d X s x y, (s <> 0)%R -> all_var n d X <> 0%R -> 0 < d ->
  rbf d (auto_scale d (all_var n d (fun i => in_unit s (X i))) GScale) (in_unit s x) (in_unit s y) = rbf d (auto_scale d (all_var n d X) GScale) x y.
Proof.
  intros n d X s x y Hs Hv Hd. rewrite all_var_unit. set (v := all_var n d X) in *. unfold auto_scale, rbf.
  assert (H : Reqb v 0 = false) by (unfold Reqb; destruct (Req_EM_T v 0); easy).
  assert (H0 : (s * s * v <> 0)%R) by (apply Rmult_integral_contrapositive_currified; [apply Rmult_integral_contrapositive_currified; exact Hs|exact Hv]).
  assert (H1 : Reqb (s * s * v) 0 = false) by (unfold Reqb; destruct (Req_EM_T (s * s * v) 0); easy).
  rewrite H, H1. cbn [negb]. f_equal.
  assert (E : sqdist d (in_unit s x) (in_unit s y) = (s * s * sqdist d x y)%R).
  { unfold sqdist, in_unit. rewrite <- msum_scal. apply msum_ext. intros j _. ring. }
  rewrite E. assert (INR d <> 0)%R by (apply not_0_INR; lia). field. auto.
Qed.

(** The origin does matter for that bandwidth: two points, moved by (0, 3). *)
Definition two_points : nat -> point := fun i j => INR (i * j).
Theorem C174_scale_sees_origin :
  auto_scale 2 (all_var 2 2 two_points) GScale <> auto_scale 2 (all_var 2 2 (fun i => motion 2 delta_mat (fun j => INR (3 * j)) (two_points i))) GScale.
Proof.
  unfold auto_scale. assert (A : all_var 2 2 two_points = (3 / 16)%R) by (unfold all_var, all_mean, two_points; cbn; field).
  assert (B : all_var 2 2 (fun i => motion 2 delta_mat (fun j => INR (3 * j)) (two_points i)) = (51 / 16)%R)
    by (unfold all_var, all_mean, motion, two_points, delta_mat; cbn; field).
  rewrite A, B. unfold Reqb. destruct (Req_EM_T (3 / 16) 0); [lra|]. destruct (Req_EM_T (51 / 16) 0); [lra|]. cbn. lra.
Qed.

(** ** Example: a quarter turn, then a shift. *)
Definition quarter : mat := fun i j => match i, j with 0, 1 => (-1)%R | 1, 0 => 1%R | _, _ => 0%R end.
Example C174_ex_quarter : orthogonal 2 quarter /\ motion 2 quarter (fun _ => 5%R) (fun j => INR j) 0 = 4%R.
Proof.
  split.
  - intros [|[|j]] [|[|k]] Hj Hk; try lia; cbn; lra.
  - unfold motion, quarter. cbn. lra.
Qed.

(** Samples (0, 0) and (9, 0) of the source, (1, 0) and (2, 0) of the target, turned and shifted: the weights of the source samples are computed. *)
Definition on_axis (a : R) : point := fun j => match j with 0 => a | _ => 0%R end.
Example C174_ex_nearest :
  nn_weights point (nearest_of (sqdist 2)) true (map (motion 2 quarter (fun _ => 5%R)) [on_axis 1; on_axis 0; on_axis 9; on_axis 2]) (SDArr [-2; 1; 1; -2]%Z)
  = nn_weights point (nearest_of (sqdist 2)) true [on_axis 1; on_axis 0; on_axis 9; on_axis 2] (SDArr [-2; 1; 1; -2]%Z) /\
  exists w, nn_weights point (nearest_of (sqdist 2)) true [on_axis 1; on_axis 0; on_axis 9; on_axis 2] (SDArr [-2; 1; 1; -2]%Z) = Ok w /\ length w = 4.
Proof.
  split.
  - apply C174_nearest. apply (C174_instances 2 quarter (fun _ => 5%R)). apply C174_ex_quarter.
  - unfold nn_weights, nn_get_weights, nearest_of, np_argmin. cbn -[Rltb sqdist]. unfold Rltb.
    change (Pos.to_nat 2) with 2. change (Pos.to_nat 1) with 1. cbn. repeat destruct (Rlt_dec _ _); cbn; eexists; split; reflexivity.
Qed.
