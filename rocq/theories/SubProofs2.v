(** Proofs about transfer subspace learning. *)
From Coq Require Import List ZArith Bool Arith Lia Reals Lra Psatz Permutation.
From Verif Require Import Np NpFacts RVec RVecFacts MapModel MapSpec RMat SubModel SubSpec SubProofs.
Import ListNotations.
Local Open Scope R_scope.

(** ** Quadratic forms of covariances *)
Lemma tr_form_eq d k W S : tr_form d k W S = msum k (fun c => msum d (fun j => msum d (fun i => W i c * S i j * W j c))).
Proof.
  unfold tr_form, mtrace, mmul, mT. apply msum_ext. intros c _. apply msum_ext. intros j _. now rewrite <- msum_scal_r.
Qed.
Lemma proj_mean n d X W c : mean_of n (projected d X W) c = msum d (fun j => mean_of n X j * W j c).
Proof.
  unfold mean_of, projected. repeat change sigma with msum. unfold Rdiv. rewrite msum_swap, <- msum_scal_r.
  apply msum_ext. intros j _. rewrite msum_scal_r. ring.
Qed.
Lemma proj_cov n d X W c : cov_of n (projected d X W) c c = msum d (fun j => msum d (fun i => W i c * cov_of n X i j * W j c)).
Proof.
  unfold cov_of. rewrite proj_mean. unfold projected. repeat change sigma with msum. unfold Rdiv.
  set (m := mean_of n X).
  rewrite (msum_ext n _ (fun s => msum d (fun j => msum d (fun i => W i c * ((X s i - m i) * (X s j - m j)) * W j c)))).
  - rewrite msum_swap, <- msum_scal_r. apply msum_ext. intros j _. rewrite msum_swap, <- msum_scal_r.
    apply msum_ext. intros i _. rewrite (msum_scal_r n (W j c)), (msum_scal n (W i c)). ring.
  - intros s _. rewrite <- msum_minus, msum_mul, msum_swap. apply msum_ext. intros j _. apply msum_ext. intros; ring.
Qed.
Lemma torch_cov_eq reg n d X a b : torch_cov reg n d X a b =
  (1 - reg) * cov_of n X a b + reg * msum d (fun j => cov_of n X j j) * delta a b.
Proof. reflexivity. Qed.
Lemma tr_form_cov reg n d k X W : tr_form d k W (torch_cov reg n d X) =
  (1 - reg) * total_var n k (projected d X W) + reg * msum d (fun j => cov_of n X j j) * msum k (fun c => msum d (fun j => W j c * W j c)).
Proof.
  rewrite tr_form_eq. unfold total_var. change sigma with msum.
  set (t := msum d (fun j => cov_of n X j j)).
  rewrite <- (msum_scal k (1 - reg)), <- (msum_scal k (reg * t)), <- msum_plus. apply msum_ext. intros c _.
  rewrite proj_cov. rewrite <- (msum_scal d (1 - reg)), <- (msum_scal d (reg * t)), <- msum_plus. apply msum_ext. intros j Hj.
  rewrite (msum_ext d _ (fun i => (1 - reg) * (W i c * cov_of n X i j * W j c) + (reg * t * W i c * W j c) * delta i j)).
  - rewrite msum_plus, msum_scal. rewrite (msum_delta_r d (fun i => reg * t * W i c * W j c)) by exact Hj. ring.
  - intros i _. rewrite torch_cov_eq. fold t. ring.
Qed.
Lemma orth_norms d k W : orthonormal_columns d k W -> msum k (fun c => msum d (fun j => W j c * W j c)) = INR k.
Proof.
  intros O. rewrite (msum_ext k _ (fun _ => 1)); [rewrite msum_const; ring|]. intros c Hc.
  specialize (O c c Hc Hc). rewrite Nat.eqb_refl in O. exact O.
Qed.

(** ** Locality preserving projections *)
Lemma cdist_sym d A B i j : cdist d A B i j = cdist d B A j i.
Proof. unfold cdist. f_equal. apply msum_ext. intros; ring. Qed.
Lemma lpp_loss reg sc n d k W X y : tsl_F reg sc Lpp n d k W X y = - locality n d k sc X y (projected d X W).
Proof.
  unfold tsl_F, locality. repeat change sigma with msum. set (Z := projected d X W). set (E := lpp_E sc d X y).
  assert (Es : forall i j, E i j = E j i).
  { intros i j. unfold E, lpp_E. rewrite (cdist_sym d X X i j), Z.eqb_sym. reflexivity. }
  assert (T : mtrace k (mmul d (mmul n (mmul n (mmul d (mT W) (mT X)) (lpp_DE sc n d X y)) X) W) =
    msum k (fun c => msum n (fun i => msum n (fun l => Z l c * lpp_DE sc n d X y l i * Z i c)))).
  { unfold mtrace. apply msum_ext. intros c _. rewrite mmul_assoc. unfold mmul at 1. apply msum_ext. intros i _.
    change (mmul d X W i c) with (Z i c). unfold mmul at 1. rewrite <- msum_scal_r. apply msum_ext. intros l _.
    replace (mmul d (mT W) (mT X) c l) with (Z l c); [reflexivity|]. unfold Z, projected, mmul, mT. change sigma with msum.
    apply msum_ext. intros; ring. }
  rewrite T. clear T.
  rewrite (msum_ext n (fun i => msum n (fun j => if (y i =? y j)%Z then _ else 0))
    (fun i => msum n (fun j => msum k (fun c => E i j * ((Z i c - Z j c) * (Z i c - Z j c)))))).
  2:{ intros i _. apply msum_ext. intros j _. rewrite msum_scal. unfold E, lpp_E, sq_dist. change sigma with msum.
      destruct (y i =? y j)%Z; [|ring]. unfold cdist. ring. }
  rewrite (msum_ext n _ (fun i => msum k (fun c => msum n (fun j => E i j * ((Z i c - Z j c) * (Z i c - Z j c))))))
    by (intros; apply msum_swap).
  rewrite (msum_swap n k). rewrite <- msum_scal, <- msum_opp. apply msum_ext. intros c _.
  rewrite (msum_ext n (fun i => msum n (fun l => Z l c * lpp_DE sc n d X y l i * Z i c))
    (fun i => Z i c * Z i c * msum n (fun l => E i l) - msum n (fun l => E i l * (Z i c * Z l c)))).
  2:{ intros i Hi. unfold lpp_DE. fold E.
      rewrite (msum_ext n _ (fun l => (Z l c * msum n (E l) * Z i c) * delta l i - E i l * (Z i c * Z l c))).
      - rewrite msum_minus. rewrite (msum_delta_r n (fun l => Z l c * msum n (E l) * Z i c)) by exact Hi.
        change (msum n (fun l => E i l)) with (msum n (E i)). ring.
      - intros l _. rewrite (Es l i). unfold delta. destruct (l =? i)%nat; ring. }
  rewrite msum_minus.
  rewrite (msum_ext n (fun i => msum n (fun j => E i j * ((Z i c - Z j c) * (Z i c - Z j c))))
    (fun i => Z i c * Z i c * msum n (fun l => E i l) + msum n (fun j => E i j * (Z j c * Z j c)) - 2 * msum n (fun l => E i l * (Z i c * Z l c)))).
  2:{ intros i _. rewrite <- !msum_scal, <- msum_plus, <- msum_minus. apply msum_ext. intros; ring. }
  rewrite msum_minus, msum_plus, msum_scal.
  replace (msum n (fun i => msum n (fun j => E i j * (Z j c * Z j c)))) with (msum n (fun i => Z i c * Z i c * msum n (fun l => E i l))).
  2:{ rewrite (msum_swap n n). apply msum_ext. intros i _. rewrite <- msum_scal. apply msum_ext. intros j _. rewrite (Es i j). ring. }
  ring.
Qed.

(** ** The discrepancy *)
Lemma mean2_swap n m A B : (forall i j, (i < n)%nat -> (j < m)%nat -> A i j = B j i) -> mean2 n m A = mean2 m n B.
Proof.
  intros H. unfold mean2. rewrite (Rmult_comm (INR n)). f_equal. rewrite msum_swap. apply msum_ext. intros j Hj. apply msum_ext. intros; auto.
Qed.
Lemma mean2_ext n m A B : (forall i j, (i < n)%nat -> (j < m)%nat -> A i j = B i j) -> mean2 n m A = mean2 n m B.
Proof. intros H. unfold mean2. f_equal. apply msum_ext. intros. apply msum_ext. intros; auto. Qed.
Lemma cdist_ext d A A' B B' i j : (forall a, (a < d)%nat -> A i a = A' i a) -> (forall a, (a < d)%nat -> B j a = B' j a) ->
  cdist d A B i j = cdist d A' B' i j.
Proof. intros H1 H2. unfold cdist. f_equal. apply msum_ext. intros a Ha. now rewrite H1, H2. Qed.

Lemma tsl_D_sym reg inv chol ns nt d k W Xs Xt : entrywise inv -> entrywise chol ->
  tsl_D reg inv chol ns nt d k W Xs Xt = tsl_D reg inv chol nt ns d k W Xt Xs.
Proof.
  intros HI HC. unfold tsl_D.
  set (Zs := mmul d Xs W). set (Zt := mmul d Xt W). set (s1 := torch_cov reg ns k Zs). set (s2 := torch_cov reg nt k Zt).
  set (L := chol k (inv k (fun a b => s1 a b + s2 a b))). set (L' := chol k (inv k (fun a b => s2 a b + s1 a b))).
  assert (EL : forall i j, (i < k)%nat -> (j < k)%nat -> L i j = L' i j).
  { apply HC. apply HI. intros; ring. }
  rewrite (mean2_swap ns nt _ (fun i j => exp (- (1 / 2) * cdist k (mmul k Zt L') (mmul k Zs L') i j))).
  - ring.
  - intros i j _ _. do 2 f_equal. rewrite cdist_sym. apply cdist_ext; intros a Ha; apply msum_ext; intros l Hl; now rewrite EL.
Qed.
Lemma tsl_D_same reg inv chol n d k W X : entrywise inv -> entrywise chol -> tsl_D reg inv chol n n d k W X X = 0.
Proof.
  intros HI HC. unfold tsl_D. set (Z := mmul d X W). set (s := torch_cov reg n k Z).
  set (L := chol k (inv k (fun a b => 2 * s a b))). set (L' := chol k (inv k (fun a b => s a b + s a b))).
  assert (EL : forall i j, (i < k)%nat -> (j < k)%nat -> L i j = L' i j).
  { apply HC. apply HI. intros; ring. }
  rewrite (mean2_ext n n (fun i j => exp (- (1 / 2) * cdist k (mmul k Z L') (mmul k Z L') i j))
    (fun i j => exp (- (1 / 2) * cdist k (mmul k Z L) (mmul k Z L) i j))); [ring|].
  intros i j _ _. do 2 f_equal. apply cdist_ext; intros a Ha; apply msum_ext; intros l Hl; now rewrite EL.
Qed.
