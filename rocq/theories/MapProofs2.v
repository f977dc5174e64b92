From Coq Require Import List ZArith QArith Bool Arith Lia Reals Lra.
From Verif Require Import Np NpFacts Labels Spec SpecFacts UtilsModel UtilsSpec UtilsProofs UtilsProofs2 SelectModel RVec RVecFacts
  MapModel MapSpec MapProofs RMat.
Import ListNotations.

(** * CORAL *)
Section CoralFacts.
Local Open Scope R_scope.

Lemma sigma_msum k f : sigma k f = msum k f.
Proof. induction k; simpl; congruence. Qed.

(** V diag(g) V^T *)
Definition spectral (n : nat) (V : mat) (g : nat -> R) : mat := fun i j => msum n (fun k => V i k * g k * V j k).

Lemma spectral_mul n V g h : (forall i j, (i < n)%nat -> (j < n)%nat -> msum n (fun k => V k i * V k j) = if (i =? j)%nat then 1 else 0) ->
  forall i j, mmul n (spectral n V g) (spectral n V h) i j = spectral n V (fun k => g k * h k) i j.
Proof.
  intros O i j. unfold mmul, spectral.
  rewrite (msum_ext n _ (fun l => msum n (fun a => msum n (fun b => (V i a * g a * (h b * V j b)) * (V l a * V l b))))).
  2:{ intros l _. rewrite <- msum_scal_r. apply msum_ext. intros a _. rewrite <- msum_scal. apply msum_ext. intros b _. ring. }
  rewrite msum_swap. apply msum_ext. intros a Ha. rewrite msum_swap.
  rewrite (msum_ext n _ (fun b => (V i a * g a * (h b * V j b)) * (if (b =? a)%nat then 1 else 0))).
  2:{ intros b Hb. rewrite msum_scal. rewrite O by auto. now rewrite Nat.eqb_sym. }
  rewrite (msum_delta n (fun b => V i a * g a * (h b * V j b)) a Ha). ring.
Qed.

Lemma spectral_sym n V g i j : spectral n V g i j = spectral n V g j i.
Proof. apply msum_ext. intros. ring. Qed.

Lemma spectral_ext n V g h : (forall k, (k < n)%nat -> g k = h k) -> forall i j, spectral n V g i j = spectral n V h i j.
Proof. intros H i j. apply msum_ext. intros k Hk. now rewrite H. Qed.

(** value of the quadratic form at the k-th column *)
Lemma eigen_quadratic n C w V k : diagonalises n C (w, V) -> (k < n)%nat ->
  sigma n (fun i => sigma n (fun j => V i k * C i j * V j k)) = w k.
Proof.
  intros D Hk. rewrite sigma_msum.
  rewrite (msum_ext n _ (fun i => V i k * w k * V i k)).
  - rewrite (msum_ext n _ (fun i => w k * (V i k * V i k))) by (intros; ring). rewrite msum_scal.
    destruct (D k k Hk Hk) as [_ [O _]]. rewrite sigma_msum, Nat.eqb_refl in O. rewrite O. ring.
  - intros i Hi. rewrite sigma_msum.
    rewrite (msum_ext n _ (fun j => msum n (fun a => (V i k * V i a * w a) * (V j a * V j k)))).
    2:{ intros j Hj. destruct (D i j Hi Hj) as [E _]. rewrite E, sigma_msum.
        rewrite <- msum_scal. rewrite <- msum_scal_r. apply msum_ext. intros; ring. }
    rewrite msum_swap.
    rewrite (msum_ext n _ (fun a => (V i k * V i a * w a) * (if (a =? k)%nat then 1 else 0))).
    2:{ intros a Ha. rewrite msum_scal. destruct (D a k Ha Hk) as [_ [O _]]. rewrite sigma_msum in O. now rewrite O. }
    rewrite (msum_delta n (fun a => V i k * V i a * w a) k Hk). ring.
Qed.

Lemma column_nonzero n C w V k : diagonalises n C (w, V) -> (k < n)%nat -> exists i, (i < n)%nat /\ V i k <> 0.
Proof.
  intros D Hk. destruct (D k k Hk Hk) as [_ [O _]]. rewrite Nat.eqb_refl, sigma_msum in O.
  assert (G : forall m, msum m (fun i => V i k * V i k) <> 0 -> exists i, (i < m)%nat /\ V i k <> 0).
  { induction m as [|m IH]; simpl; [lra|]. intros H. destruct (Req_EM_T (V m k) 0) as [E|E].
    - rewrite E in H. destruct IH as [i [Hi Hv]]; [intros Z; apply H; rewrite Z; ring|]. exists i. split; auto.
    - exists m. split; auto. }
  apply G. rewrite O. lra.
Qed.

Lemma eigen_pos n C w V : diagonalises n C (w, V) -> pos_def n C -> forall k, (k < n)%nat -> 0 < w k.
Proof.
  intros D P k Hk. rewrite <- (eigen_quadratic n C w V k D Hk). apply (P (fun i => V i k)).
  eapply column_nonzero; eauto.
Qed.

(** a Gram matrix has non-negative eigenvalues *)
Lemma gram_nonneg n m (Y : mat) v : (0 < m)%nat ->
  0 <= sigma n (fun i => sigma n (fun j => v i * (msum m (fun a => Y a i * Y a j) / INR m) * v j)).
Proof.
  intros Hm. rewrite sigma_msum.
  rewrite (msum_ext n _ (fun i => msum n (fun j => msum m (fun a => (v i * Y a i / INR m) * (Y a j * v j))))).
  2:{ intros i _. rewrite sigma_msum. apply msum_ext. intros j _. transitivity ((v i / INR m * v j) * msum m (fun a => Y a i * Y a j)); [unfold Rdiv; ring|].
      rewrite <- msum_scal. apply msum_ext. intros; unfold Rdiv; ring. }
  rewrite (msum_ext n _ (fun i => msum m (fun a => msum n (fun j => (v i * Y a i / INR m) * (Y a j * v j))))).
  2:{ intros i _. apply msum_swap. }
  rewrite msum_swap. apply msum_nonneg. intros a _.
  rewrite (msum_ext n _ (fun i => (v i * Y a i / INR m) * msum n (fun j => Y a j * v j))).
  2:{ intros i _. apply msum_scal. }
  rewrite msum_scal_r.
  rewrite (msum_ext n _ (fun i => (/ INR m) * (Y a i * v i))) by (intros; unfold Rdiv; ring).
  rewrite msum_scal. assert (0 < INR m) by (apply lt_0_INR; lia). assert (0 < / INR m) by now apply Rinv_0_lt_compat.
  set (s := msum n (fun i => Y a i * v i)). replace (/ INR m * s * s) with (/ INR m * (s * s)) by ring.
  apply Rmult_le_pos; [lra|]. apply Rle_0_sqr.
Qed.

Lemma sqrtm_spec eigh n C : eigensolver n eigh -> (forall i j, C i j = C j i) ->
  (forall v, 0 <= sigma n (fun i => sigma n (fun j => v i * C i j * v j))) ->
  forall i j, (i < n)%nat -> (j < n)%nat -> mmul n (mT (sqrtm eigh n C)) (sqrtm eigh n C) i j = C i j.
Proof.
  intros E S P i j Hi Hj. unfold sqrtm. destruct (eigh C) as [w V] eqn:EE.
  assert (D : diagonalises n C (w, V)) by (rewrite <- EE; auto).
  set (Q := mmul n (fun i k => V i k * sqrt (w k)) (mT V)).
  assert (QS : forall a b, Q a b = spectral n V (fun k => sqrt (w k)) a b) by (intros; apply msum_ext; intros; unfold mT; ring).
  transitivity (mmul n (spectral n V (fun k => sqrt (w k))) (spectral n V (fun k => sqrt (w k))) i j).
  { apply msum_ext. intros l _. unfold mT. now rewrite !QS, (spectral_sym n V _ l i). }
  rewrite spectral_mul.
  2:{ intros a b Ha Hb. destruct (D a b Ha Hb) as [_ [O _]]. now rewrite sigma_msum in O. }
  destruct (D i j Hi Hj) as [-> _]. rewrite sigma_msum. apply spectral_ext. intros k Hk. apply sqrt_sqrt.
  rewrite <- (eigen_quadratic n C w V k D Hk). apply (P (fun i => V i k)).
Qed.

Lemma invsqrtm_spec eigh n C : eigensolver n eigh -> (forall i j, C i j = C j i) -> pos_def n C ->
  forall i j, (i < n)%nat -> (j < n)%nat ->
  mmul n (mmul n (mT (invsqrtm eigh n C)) C) (invsqrtm eigh n C) i j = if (i =? j)%nat then 1 else 0.
Proof.
  intros E S P i j Hi Hj. unfold invsqrtm. destruct (eigh C) as [w V] eqn:EE.
  assert (D : diagonalises n C (w, V)) by (rewrite <- EE; auto).
  assert (W := eigen_pos n C w V D P).
  set (Q := mmul n (fun i k => V i k * 1 / sqrt (w k)) (mT V)).
  assert (O : forall a b, (a < n)%nat -> (b < n)%nat -> msum n (fun k => V k a * V k b) = if (a =? b)%nat then 1 else 0).
  { intros a b Ha Hb. destruct (D a b Ha Hb) as [_ [O _]]. now rewrite sigma_msum in O. }
  set (h := fun k => / sqrt (w k)).
  assert (QS : forall a b, Q a b = spectral n V h a b) by (intros; apply msum_ext; intros; unfold mT, h, Rdiv; ring).
  transitivity (mmul n (mmul n (spectral n V h) (spectral n V w)) (spectral n V h) i j).
  { apply mmul_meq with (n := n) (m := n); auto.
    - apply mmul_meq with (n := n) (m := n); auto.
      + intros a b _ _. unfold mT. rewrite QS. apply spectral_sym.
      + intros a b Ha Hb. destruct (D a b Ha Hb) as [-> _]. now rewrite sigma_msum.
    - intros a b _ _. apply QS. }
  transitivity (mmul n (spectral n V (fun k => h k * w k)) (spectral n V h) i j).
  { apply msum_ext. intros l _. now rewrite spectral_mul. }
  rewrite spectral_mul by auto. destruct (D i j Hi Hj) as [_ [_ <-]]. rewrite sigma_msum.
  apply msum_ext. intros k Hk. unfold h.
  assert (K : 0 < sqrt (w k)) by (apply sqrt_lt_R0; auto).
  rewrite <- (sqrt_sqrt (w k)) at 2 by (apply Rlt_le; auto). field. lra.
Qed.

Lemma emp_cov_sym b m X i j : emp_cov b m X i j = emp_cov b m X j i.
Proof. unfold emp_cov. f_equal. apply msum_ext. intros. ring. Qed.

Lemma emp_cov_nonneg b n m X v : (0 < m)%nat -> 0 <= sigma n (fun i => sigma n (fun j => v i * emp_cov b m X i j * v j)).
Proof.
  intros H. unfold emp_cov. set (c := if b then fun _ => 0 else col_mean m X).
  apply (gram_nonneg n m (fun a i => X a i - c i) v H).
Qed.

(** second moments of a product *)
Lemma moment_mul n m (Y W : mat) j l :
  msum m (fun i => mmul n Y W i j * mmul n Y W i l) / INR m =
  mmul n (mmul n (mT W) (fun a b => msum m (fun i => Y i a * Y i b) / INR m)) W j l.
Proof.
  unfold mmul, mT.
  rewrite (msum_ext m _ (fun i => msum n (fun b => msum n (fun a => (W a j * W b l) * (Y i a * Y i b))))).
  2:{ intros i _. rewrite <- msum_scal. apply msum_ext. intros b _. rewrite <- msum_scal_r. apply msum_ext. intros; ring. }
  rewrite msum_swap. unfold Rdiv at 1. rewrite <- msum_scal_r. apply msum_ext. intros b _.
  rewrite msum_swap. rewrite <- (msum_scal_r n (/ INR m)), <- (msum_scal_r n (W b l)). apply msum_ext. intros a _. rewrite msum_scal. unfold Rdiv. ring.
Qed.

Lemma mmul_ext n A A' B B' i j : (forall l, (l < n)%nat -> A i l = A' i l) -> (forall l, (l < n)%nat -> B l j = B' l j) ->
  mmul n A B i j = mmul n A' B' i j.
Proof. intros H1 H2. apply msum_ext. intros l Hl. now rewrite H1, H2. Qed.

(** whitening then colouring *)
Lemma whiten_colour eigh n Cs Ct : eigensolver n eigh -> (forall i j, Cs i j = Cs j i) -> pos_def n Cs ->
  (forall i j, Ct i j = Ct j i) -> (forall v, 0 <= sigma n (fun i => sigma n (fun j => v i * Ct i j * v j))) ->
  let W := mmul n (invsqrtm eigh n Cs) (sqrtm eigh n Ct) in
  forall i j, (i < n)%nat -> (j < n)%nat -> mmul n (mmul n (mT W) Cs) W i j = Ct i j.
Proof.
  intros E S P S' P' W i j Hi Hj.
  set (A := invsqrtm eigh n Cs) in *. set (B := sqrtm eigh n Ct) in *.
  assert (HA := invsqrtm_spec eigh n Cs E S P). fold A in HA.
  assert (HB := sqrtm_spec eigh n Ct E S' P'). fold B in HB.
  rewrite <- (HB i j Hi Hj).
  transitivity (mmul n (mmul n (mT B) (mmul n (mmul n (mT A) Cs) A)) B i j).
  - unfold W. rewrite <- (mmul_assoc n n _ A B i j).
    apply mmul_ext; auto. intros l Hl.
    transitivity (mmul n (mmul n (mmul n (mT B) (mT A)) Cs) A i l).
    + apply mmul_ext; auto. intros a Ha. apply mmul_ext; auto. intros b Hb. unfold mT at 1. apply mmul_T.
    + transitivity (mmul n (mmul n (mT B) (mmul n (mT A) Cs)) A i l).
      * apply mmul_ext; auto. intros a Ha. apply mmul_assoc.
      * apply mmul_assoc.
  - apply mmul_ext; auto. intros l Hl.
    transitivity (mmul n (mT B) (fun a b => if (a =? b)%nat then 1 else 0) i l).
    + apply msum_ext. intros a Ha. now rewrite HA.
    + unfold mmul. now rewrite (msum_delta n (fun a => mT B i a) l Hl).
Qed.

Lemma col_mean_of m X j : col_mean m X j = mean_of m X j.
Proof. reflexivity. Qed.

Lemma centred_sum m X j : (0 < m)%nat -> msum m (fun i => X i j - col_mean m X j) = 0.
Proof.
  intros H. rewrite (msum_ext m _ (fun i => X i j + (- col_mean m X j))) by (intros; ring).
  rewrite msum_plus, msum_const. unfold col_mean. field. apply not_0_INR. lia.
Qed.

Lemma mmul_mean n m (Y W : mat) j : (forall a, (a < n)%nat -> msum m (fun i => Y i a) = 0) -> mean_of m (mmul n Y W) j = 0.
Proof.
  intros H. unfold mean_of, mmul. rewrite sigma_msum, msum_swap.
  rewrite (msum_ext n _ (fun _ => 0)).
  - rewrite msum_zero. unfold Rdiv. ring.
  - intros a Ha. rewrite msum_scal_r, H by auto. ring.
Qed.

Lemma cov_centred m X j l : mean_of m X j = 0 -> mean_of m X l = 0 -> cov_of m X j l = msum m (fun i => X i j * X i l) / INR m.
Proof. intros H1 H2. unfold cov_of. rewrite sigma_msum, H1, H2. f_equal. apply msum_ext. intros; ring. Qed.
End CoralFacts.

Lemma sigma_ext2 n (F G : nat -> nat -> R) : (forall i j, F i j = G i j) ->
  sigma n (fun i => sigma n (fun j => F i j)) = sigma n (fun i => sigma n (fun j => G i j)).
Proof. intros H. rewrite !sigma_msum. apply msum_ext. intros i _. rewrite !sigma_msum. apply msum_ext. auto. Qed.

Lemma classic_zero n (v : nat -> R) : (forall C : mat, sigma n (fun i => sigma n (fun j => v i * C i j * v j)%R) = 0%R) \/ (exists i, (i < n)%nat /\ v i <> 0%R).
Proof.
  assert (G : forall m, (forall i, (i < m)%nat -> v i = 0%R) \/ (exists i, (i < m)%nat /\ v i <> 0%R)).
  { induction m as [|m [IH|[i [Hi Hv]]]]; [left; lia| |right; exists i; split; auto; lia].
    destruct (Req_EM_T (v m) 0) as [E|E]; [|right; exists m; split; auto].
    left. intros i Hi. destruct (Nat.eq_dec i m) as [->|]; auto. apply IH. lia. }
  destruct (G n) as [Z|Z]; [left|now right]. intros C. rewrite sigma_msum. rewrite (msum_ext n _ (fun _ => 0%R)); [apply msum_zero|].
  intros i Hi. rewrite sigma_msum. rewrite (msum_ext n _ (fun _ => 0%R)); [apply msum_zero|]. intros j Hj. rewrite (Z i Hi). ring.
Qed.
