(** Proofs about the covariance estimates of CovModel. *)
From Coq Require Import List ZArith Bool Arith Lia Reals Lra.
From Verif Require Import Np Spec RVec RVecFacts RMat MapModel MapSpec MapProofs2 CovModel CovSpec.
Import ListNotations.
Local Open Scope nat_scope.
Local Open Scope R_scope.

Lemma INRpos m : (0 < m)%nat -> 0 < INR m. Proof. intros; apply lt_0_INR; lia. Qed.

Lemma cov_emp m X j l : emp_cov false m X j l = cov_of m X j l.
Proof. reflexivity. Qed.
Lemma moment_emp m X j l : emp_cov true m X j l = moment_of m X j l.
Proof. unfold emp_cov, moment_of. f_equal. apply msum_ext. intros; ring. Qed.

Lemma emp_cov_centred m X j l : emp_cov false m X j l = msum m (fun i => centred m X i j * centred m X i l) / INR m.
Proof. reflexivity. Qed.

Lemma var_nonneg m X j : (0 < m)%nat -> 0 <= emp_cov false m X j j.
Proof.
  intros Hm. rewrite emp_cov_centred. apply Rmult_le_pos; [|left; apply Rinv_0_lt_compat; now apply INRpos].
  apply msum_nonneg. intros i _. apply Rle_0_sqr.
Qed.
Lemma scale_pos m X j : (0 < m)%nat -> 0 < scale_ m X j.
Proof.
  intros Hm. unfold scale_. destruct (Reqb _ 0) eqn:E; [lra|]. apply Reqb_false in E. apply sqrt_lt_R0.
  pose proof (var_nonneg m X j Hm). lra.
Qed.
Lemma scale_sq m X j : (0 < m)%nat -> emp_cov false m X j j <> 0 -> scale_ m X j * scale_ m X j = emp_cov false m X j j.
Proof.
  intros Hm Hv. unfold scale_. destruct (Reqb _ 0) eqn:E; [apply Reqb_iff in E; contradiction|].
  apply sqrt_sqrt. now apply var_nonneg.
Qed.

(** The data after the scaler and the centring of ledoit_wolf do not depend on [with_mean]. *)
Lemma centred_standard b m X i j : (0 < m)%nat -> centred m (standard_scaler b m X) i j = centred m X i j / scale_ m X j.
Proof.
  intros Hm. unfold centred. pose proof (scale_pos m X j Hm) as S. pose proof (INRpos m Hm) as M.
  set (s := scale_ m X j) in *. set (c := col_mean m X j).
  assert (E : col_mean m (standard_scaler b m X) j = (if b then 0 else c / s)).
  { unfold col_mean at 1. unfold standard_scaler. fold s. fold c. destruct b.
    - rewrite (msum_ext m _ (fun i => (X i j - c) * / s)) by (intros; reflexivity). rewrite msum_scal_r. unfold c.
      rewrite centred_sum by assumption. field. split; lra.
    - rewrite (msum_ext m _ (fun i => X i j * / s)) by (intros; reflexivity). rewrite msum_scal_r.
      unfold c, col_mean. field. split; lra. }
  rewrite E. unfold standard_scaler. fold s. fold c. destruct b; field; lra.
Qed.

Lemma cov_standard b m X j l : (0 < m)%nat ->
  emp_cov false m (standard_scaler b m X) j l = emp_cov false m X j l / (scale_ m X j * scale_ m X l).
Proof.
  intros Hm. rewrite !emp_cov_centred. pose proof (scale_pos m X j Hm). pose proof (scale_pos m X l Hm). pose proof (INRpos m Hm).
  rewrite (msum_ext m _ (fun i => (centred m X i j * centred m X i l) * / (scale_ m X j * scale_ m X l))).
  2:{ intros i _. rewrite !centred_standard by assumption. field. split; lra. }
  rewrite msum_scal_r. field. repeat split; lra.
Qed.

Lemma standard_var b m X j : (0 < m)%nat -> emp_cov false m X j j <> 0 -> emp_cov false m (standard_scaler b m X) j j = 1.
Proof. intros Hm Hv. rewrite cov_standard, scale_sq by assumption. field. assumption. Qed.

(** ** Quadratic forms *)
Definition qf (n : nat) (C : mat) (v : nat -> R) := msum n (fun i => msum n (fun j => v i * C i j * v j)).
Lemma qf_sigma n C v : sigma n (fun i => sigma n (fun j => v i * C i j * v j)) = qf n C v.
Proof. reflexivity. Qed.

Lemma qf_shrink n s C v : qf n (shrink n s C) v =
  (1 - s) * qf n C v + s * (msum n (fun i => C i i) / INR n) * msum n (fun i => v i * v i).
Proof.
  unfold qf, shrink. set (mu := msum n (fun i => C i i) / INR n).
  rewrite <- !msum_scal. rewrite <- msum_plus. apply msum_ext. intros i Hi.
  rewrite (msum_ext n _ (fun j => (1 - s) * (v i * C i j * v j) + (v i * (s * mu) * v j) * (if (j =? i)%nat then 1 else 0))).
  2:{ intros j _. rewrite (Nat.eqb_sym j i). destruct (i =? j)%nat; ring. }
  rewrite msum_plus, msum_scal. rewrite msum_delta by assumption. ring.
Qed.

Lemma sumsq_pos n v : (exists i, (i < n)%nat /\ v i <> 0) -> 0 < msum n (fun i => v i * v i).
Proof.
  induction n as [|n IH]; intros (i & Hi & Hv); [lia|]. cbn.
  assert (N : 0 <= msum n (fun i => v i * v i)) by (apply msum_nonneg; intros; apply Rle_0_sqr).
  destruct (Nat.eq_dec i n) as [->|D].
  - pose proof (Rsqr_pos_lt _ Hv) as P. unfold Rsqr in P. lra.
  - assert (0 < msum n (fun i => v i * v i)) by (apply IH; exists i; split; [lia|assumption]).
    pose proof (Rle_0_sqr (v n)) as P. unfold Rsqr in P. lra.
Qed.

Lemma trace_pos n (C : mat) : (forall i, (i < n)%nat -> 0 <= C i i) -> (exists i, (i < n)%nat /\ C i i <> 0) -> 0 < msum n (fun i => C i i).
Proof.
  induction n as [|n IH]; intros H (i & Hi & Hv); [lia|]. cbn.
  assert (N : 0 <= msum n (fun i => C i i)) by (apply msum_nonneg; intros; apply H; lia).
  pose proof (H n (Nat.lt_succ_diag_r n)) as Hn.
  destruct (Nat.eq_dec i n) as [->|D]; [lra|].
  assert (0 < msum n (fun i => C i i)). { apply IH; [intros; apply H; lia|]. exists i. split; [lia|assumption]. }
  lra.
Qed.

Lemma emp_qf b n m X v : (0 < m)%nat -> 0 <= qf n (emp_cov b m X) v.
Proof. intros. rewrite <- qf_sigma. now apply emp_cov_nonneg. Qed.
Lemma emp_diag b m X j : (0 < m)%nat -> 0 <= emp_cov b m X j j.
Proof.
  intros Hm. apply Rmult_le_pos; [|left; apply Rinv_0_lt_compat; now apply INRpos].
  apply msum_nonneg. intros i _. apply Rle_0_sqr.
Qed.
Lemma mu_nonneg b n m X : (0 < m)%nat -> 0 <= msum n (fun i => emp_cov b m X i i) / INR n.
Proof.
  intros Hm. destruct n; [cbn; unfold Rdiv; lra|]. apply Rmult_le_pos; [|left; apply Rinv_0_lt_compat, INRpos; lia].
  apply msum_nonneg. intros. now apply emp_diag.
Qed.

Lemma shrink_sym n s C : (forall i j, C i j = C j i) -> forall i j, shrink n s C i j = shrink n s C j i.
Proof. intros H i j. unfold shrink. rewrite (H i j), (Nat.eqb_sym i j). reflexivity. Qed.

Lemma shrink_psd b n m X s v : (0 < m)%nat -> 0 <= s <= 1 -> 0 <= qf n (shrink n s (emp_cov b m X)) v.
Proof.
  intros Hm Hs. rewrite qf_shrink. pose proof (emp_qf b n m X v Hm). pose proof (mu_nonneg b n m X Hm).
  assert (0 <= msum n (fun i => v i * v i)) by (apply msum_nonneg; intros; apply Rle_0_sqr).
  assert (0 <= (1 - s) * qf n (emp_cov b m X) v) by (apply Rmult_le_pos; lra).
  assert (0 <= s * (msum n (fun i => emp_cov b m X i i) / INR n)) by (apply Rmult_le_pos; lra).
  assert (0 <= s * (msum n (fun i => emp_cov b m X i i) / INR n) * msum n (fun i => v i * v i)) by (apply Rmult_le_pos; lra).
  lra.
Qed.
Lemma shrink_pd b n m X s v : (0 < m)%nat -> 0 < s <= 1 -> (exists j, (j < n)%nat /\ emp_cov b m X j j <> 0) ->
  (exists i, (i < n)%nat /\ v i <> 0) -> 0 < qf n (shrink n s (emp_cov b m X)) v.
Proof.
  intros Hm Hs HX Hv. rewrite qf_shrink. pose proof (emp_qf b n m X v Hm) as Q. pose proof (sumsq_pos n v Hv) as V.
  pose proof (trace_pos n (emp_cov b m X) (fun i _ => emp_diag b m X i Hm) HX) as T.
  assert (0 < msum n (fun i => emp_cov b m X i i) / INR n).
  { apply Rmult_lt_0_compat; [assumption|]. apply Rinv_0_lt_compat, INRpos. destruct Hv as (i & Hi & _). lia. }
  assert (0 <= (1 - s) * qf n (emp_cov b m X) v) by (apply Rmult_le_pos; lra).
  assert (0 < s * (msum n (fun i => emp_cov b m X i i) / INR n)) by (apply Rmult_lt_0_compat; lra).
  assert (0 < s * (msum n (fun i => emp_cov b m X i i) / INR n) * msum n (fun i => v i * v i)) by (apply Rmult_lt_0_compat; lra).
  lra.
Qed.

Lemma qf_rescale n (d : nat -> R) C v : qf n (fun j l => d j * C j l * d l) v = qf n C (fun i => v i * d i).
Proof. unfold qf. apply msum_ext; intros i _. apply msum_ext; intros j _. ring. Qed.

(** ** Moving and rescaling the data *)
Lemma centred_moved m t X i j : (0 < m)%nat -> centred m (moved t X) i j = centred m X i j.
Proof.
  intros Hm. unfold centred, moved, col_mean. rewrite msum_plus, msum_const. pose proof (INRpos m Hm). field. lra.
Qed.
Lemma col_mean_moved m t X j : (0 < m)%nat -> col_mean m (moved t X) j = col_mean m X j + t j.
Proof. intros Hm. unfold moved, col_mean. rewrite msum_plus, msum_const. pose proof (INRpos m Hm). field. lra. Qed.
Lemma emp_cov_moved m t X j l : (0 < m)%nat -> emp_cov false m (moved t X) j l = emp_cov false m X j l.
Proof. intros Hm. rewrite !emp_cov_centred. f_equal. apply msum_ext. intros. now rewrite !centred_moved. Qed.


Lemma col_mean_scaled m d X j : col_mean m (in_units d X) j = d j * col_mean m X j.
Proof. unfold col_mean, in_units. rewrite msum_scal. unfold Rdiv. ring. Qed.
Lemma centred_scaled m d X i j : centred m (in_units d X) i j = d j * centred m X i j.
Proof. unfold centred. rewrite col_mean_scaled. unfold in_units. ring. Qed.
Lemma emp_cov_scaled m d X j l : emp_cov false m (in_units d X) j l = d j * emp_cov false m X j l * d l.
Proof.
  rewrite !emp_cov_centred. rewrite (msum_ext m _ (fun i => (d j * d l) * (centred m X i j * centred m X i l))).
  2:{ intros. rewrite !centred_scaled. ring. }
  rewrite msum_scal. unfold Rdiv. ring.
Qed.
Lemma scale_scaled m d X j : (0 < m)%nat -> 0 < d j -> emp_cov false m X j j <> 0 -> scale_ m (in_units d X) j = d j * scale_ m X j.
Proof.
  intros Hm Hd Hv. unfold scale_. rewrite emp_cov_scaled. pose proof (var_nonneg m X j Hm) as N.
  assert (P : 0 < emp_cov false m X j j) by lra.
  destruct (Reqb (emp_cov false m X j j) 0) eqn:E; [apply Reqb_iff in E; contradiction|].
  destruct (Reqb (d j * _ * d j) 0) eqn:E'.
  - apply Reqb_iff in E'. assert (0 < d j * emp_cov false m X j j * d j) by (apply Rmult_lt_0_compat; [apply Rmult_lt_0_compat|]; lra). lra.
  - replace (d j * emp_cov false m X j j * d j) with ((d j * d j) * emp_cov false m X j j) by ring.
    rewrite sqrt_mult; [|apply Rle_0_sqr|lra]. rewrite sqrt_square by lra. reflexivity.
Qed.
