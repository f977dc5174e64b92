(** * C243: CORAL with shrinkage brings the covariances of domains of equal spread closer *)
From Coq Require Import List ZArith Bool Arith Lia Reals Lra.
From Verif Require Import Np NpFacts RVec RVecFacts MapModel MapSpec MapProofs2 RMat CovModel CovSpec CovProofs MongeProofs CoralRegModel.
From Verif Require ThmCoralReg SubSpec ThmSpectral.
Local Open Scope R_scope.

Definition frob (n : nat) (A : mat) : R := msum n (fun i => msum n (fun j => A i j * A i j)).
Lemma frob_ext n A B : (forall i j, (i < n)%nat -> (j < n)%nat -> A i j = B i j) -> frob n A = frob n B.
Proof. intros H. apply msum_ext. intros i Hi. apply msum_ext. intros j Hj. now rewrite H. Qed.
Lemma frob_T n A : frob n (mT A) = frob n A.
Proof. unfold frob, mT. apply msum_swap. Qed.
Lemma frob_scal n a A : frob n (fun i j => a * A i j) = a * a * frob n A.
Proof. unfold frob. rewrite <- msum_scal. apply msum_ext. intros i _. rewrite <- msum_scal. apply msum_ext. intros; ring. Qed.
Lemma msum_mul n f g : msum n f * msum n g = msum n (fun k => msum n (fun l => f k * g l)).
Proof. rewrite <- msum_scal_r. apply msum_ext. intros k _. now rewrite <- msum_scal. Qed.
Lemma frob_gram n M : frob n (mmul n M (mT M)) = frob n (mmul n (mT M) M).
Proof.
  unfold frob, mmul, mT.
  rewrite (msum_ext n _ (fun i => msum n (fun j => msum n (fun k => msum n (fun l => (M i k * M j k) * (M i l * M j l)))))).
  2:{ intros i _. apply msum_ext. intros j _. apply msum_mul. }
  rewrite (msum_ext n (fun i => msum n (fun j => msum n (fun l => M l i * M l j) * msum n (fun l => M l i * M l j)))
    (fun k => msum n (fun l => msum n (fun i => msum n (fun j => (M i k * M j k) * (M i l * M j l)))))).
  2:{ intros k _. apply msum_ext. intros l _. rewrite msum_mul. apply msum_ext. intros i _. apply msum_ext. intros j _. ring. }
  rewrite (msum_ext n _ (fun i => msum n (fun k => msum n (fun j => msum n (fun l => M i k * M j k * (M i l * M j l)))))).
  2:{ intros i _. apply msum_swap. }
  rewrite msum_swap. apply msum_ext. intros k _.
  rewrite (msum_ext n _ (fun i => msum n (fun l => msum n (fun j => M i k * M j k * (M i l * M j l))))).
  2:{ intros i _. apply msum_swap. }
  apply msum_swap.
Qed.
Lemma frob_from_one n B : frob n (fun i j => delta i j - B i j) = INR n - 2 * msum n (fun i => B i i) + frob n B.
Proof.
  transitivity (msum n (fun i => 1 + (-2) * B i i + msum n (fun j => B i j * B i j))).
  - apply msum_ext. intros i Hi.
    rewrite (msum_ext n _ (fun j => (1 - 2 * B i j) * (if (j =? i)%nat then 1 else 0) + B i j * B i j)).
    2:{ intros j _. unfold delta. rewrite (Nat.eqb_sym j i). destruct (i =? j)%nat; ring. }
    rewrite msum_plus. rewrite (msum_delta n (fun j => 1 - 2 * B i j)) by assumption. ring.
  - unfold frob. rewrite msum_plus, msum_plus, msum_const, msum_scal. ring.
Qed.
Lemma gram_sides n M : frob n (fun i j => delta i j - mmul n M (mT M) i j) = frob n (fun i j => delta i j - mmul n (mT M) M i j).
Proof.
  rewrite !frob_from_one, frob_gram. f_equal. f_equal. f_equal. unfold mmul, mT. apply msum_swap.
Qed.
(** A matrix that lengthens no vector by more than a factor does the same to the columns of a matrix. *)
Lemma shorter_columns n s A Y : (forall z, s * msum n (fun i => msum n (fun k => A i k * z k) * msum n (fun k => A i k * z k)) <= msum n (fun i => z i * z i)) ->
  s * frob n (mmul n A Y) <= frob n Y.
Proof.
  intros H. unfold frob, mmul. rewrite msum_swap, <- msum_scal. rewrite (msum_swap n n (fun i j => Y i j * Y i j)).
  assert (L : forall k f g, (forall i, (i < k)%nat -> f i <= g i) -> msum k f <= msum k g).
  { induction k as [|k IH]; intros f g Q; cbn; [lra|]. apply Rplus_le_compat; [apply IH; intros; apply Q; lia|apply Q; lia]. }
  apply L. intros j _. exact (H (fun k => Y k j)).
Qed.

Section SHRUNK.
Context (eigh : mat -> (nat -> R) * mat) (n ms mt : nat) (Xs Xt : mat) (s : R).
Context (HE : eigensolver n eigh) (Hn : (0 < n)%nat) (Hms : (0 < ms)%nat) (Hmt : (0 < mt)%nat) (Hs : 0 < s < 1).
Let C1 := emp_cov false ms Xs.
Let C2 := emp_cov false mt Xt.
Let mu := msum n (fun i => C1 i i) / INR n.
Context (Hmu : msum n (fun i => C2 i i) / INR n = mu) (Pmu : 0 < mu).
Let S1 := shrink n s C1.
Let S2 := shrink n s C2.
Let A := invsqrtm eigh n S1.
Let T := sqrtm eigh n S2.
Let W := mmul n A T.
Lemma S1_sym i j : S1 i j = S1 j i.
Proof. apply shrink_sym. apply emp_cov_sym. Qed.
Lemma S2_sym i j : S2 i j = S2 j i.
Proof. apply shrink_sym. apply emp_cov_sym. Qed.
Lemma S1_qf v : s * mu * msum n (fun i => v i * v i) <= qf n S1 v.
Proof. unfold S1. rewrite qf_shrink. fold mu. pose proof (emp_qf false n ms Xs v Hms) as Q. fold C1 in Q. assert (0 <= (1 - s) * qf n C1 v) by (apply Rmult_le_pos; lra). lra. Qed.
Lemma S1_pd : pos_def n S1.
Proof. intros v Hv. rewrite qf_sigma. eapply Rlt_le_trans; [|apply S1_qf]. apply Rmult_lt_0_compat; [apply Rmult_lt_0_compat; lra|now apply sumsq_pos]. Qed.
Lemma S2_psd v : 0 <= sigma n (fun i => sigma n (fun j => v i * S2 i j * v j)).
Proof. rewrite qf_sigma. apply shrink_psd; [exact Hmt|lra]. Qed.
(** The inverse root lengthens no vector by more than 1 / sqrt (s mu). *)
Lemma A_short z : s * mu * msum n (fun i => msum n (fun k => A i k * z k) * msum n (fun k => A i k * z k)) <= msum n (fun i => z i * z i).
Proof.
  eapply Rle_trans; [apply (S1_qf (fun i => msum n (fun k => A i k * z k)))|]. right. unfold qf.
  transitivity (msum n (fun k => msum n (fun l => z k * mmul n (mmul n (mT A) S1) A k l * z l))).
  - unfold mmul, mT.
    transitivity (msum n (fun i => msum n (fun j => msum n (fun k => msum n (fun l => z k * (A i k * S1 i j * A j l) * z l))))).
    + apply msum_ext. intros i _. apply msum_ext. intros j _. rewrite <- msum_scal_r. rewrite <- msum_scal_r. apply msum_ext. intros k _. rewrite <- msum_scal. apply msum_ext. intros l _. ring.
    + rewrite (msum_ext n _ (fun i => msum n (fun k => msum n (fun j => msum n (fun l => z k * (A i k * S1 i j * A j l) * z l))))) by (intros i _; apply msum_swap).
      rewrite msum_swap. apply msum_ext. intros k _.
      rewrite (msum_ext n _ (fun i => msum n (fun l => msum n (fun j => z k * (A i k * S1 i j * A j l) * z l)))) by (intros i _; apply msum_swap).
      rewrite msum_swap. apply msum_ext. intros l _. rewrite msum_swap. rewrite <- msum_scal, <- msum_scal_r. apply msum_ext. intros j _.
      rewrite <- msum_scal_r, <- msum_scal, <- msum_scal_r. apply msum_ext. intros i _. ring.
  - apply msum_ext. intros k Hk. rewrite (msum_ext n _ (fun l => (z k * z l) * (if (l =? k)%nat then 1 else 0))).
    + now rewrite (msum_delta n (fun l => z k * z l) k Hk).
    + intros l Hl. unfold A. rewrite (invsqrtm_spec eigh n S1 HE S1_sym S1_pd k l Hk Hl). rewrite (Nat.eqb_sym l k). destruct (k =? l)%nat; ring.
Qed.
(** What remains between the covariances. *)
Lemma remaining i j : (i < n)%nat -> (j < n)%nat -> (1 - s) * (mmul n (mmul n (mT W) C1) W i j - C2 i j) = s * mu * (delta i j - mmul n (mT W) W i j).
Proof.
  intros Hi Hj. pose proof (whiten_colour eigh n S1 S2 HE S1_sym S1_pd S2_sym S2_psd i j Hi Hj) as Q. cbv zeta in Q. fold A T W in Q.
  assert (E1 : mmul n (mmul n (mT W) S1) W i j = (1 - s) * mmul n (mmul n (mT W) C1) W i j + s * mu * mmul n (mT W) W i j).
  { unfold mmul at 1 3 5. rewrite <- !msum_scal, <- msum_plus. apply msum_ext. intros l Hl.
    assert (E2 : mmul n (mT W) S1 i l = (1 - s) * mmul n (mT W) C1 i l + s * mu * mT W i l).
    { unfold mmul. rewrite <- msum_scal. rewrite <- (msum_delta n (fun k => s * mu * mT W i k) l Hl). rewrite <- msum_plus. apply msum_ext. intros k _. unfold S1, shrink. fold mu. destruct (k =? l)%nat; ring. }
    rewrite E2. ring. }
  rewrite E1 in Q. unfold S2, shrink in Q. rewrite Hmu in Q. unfold delta. destruct (i =? j)%nat; lra.
Qed.
Lemma other_side i j : (i < n)%nat -> (j < n)%nat -> delta i j - mmul n W (mT W) i j = (1 - s) * mmul n A (mmul n (fun a b => C1 a b - C2 a b) A) i j.
Proof.
  intros Hi Hj. assert (I1 : delta i j = mmul n A (mmul n S1 A) i j).
  { rewrite <- (mmul_assoc n n). pose proof (invsqrtm_spec eigh n S1 HE S1_sym S1_pd i j Hi Hj) as Q. fold A in Q. unfold delta. rewrite <- Q. apply mmul_ext; [|reflexivity].
    intros l _. apply msum_ext. intros k _. unfold mT, A. now rewrite (invsqrtm_sym eigh n S1 k i). }
  assert (I2 : mmul n W (mT W) i j = mmul n A (mmul n S2 A) i j).
  { unfold W. rewrite mmul_assoc. apply mmul_ext; [reflexivity|]. intros l Hl.
    transitivity (mmul n (mmul n T T) A l j).
    - rewrite mmul_assoc. apply mmul_ext; [reflexivity|]. intros k _. unfold mT, mmul. apply msum_ext. intros r _. unfold A, T. rewrite (invsqrtm_sym eigh n S1 j r), (sqrtm_sym eigh n S2 r k). ring.
    - apply mmul_ext; [|reflexivity]. intros k Hk. apply (sqrtm_sq eigh n HE S2 S2_sym S2_psd l k Hl Hk). }
  rewrite I1, I2. unfold mmul at 1 3 5. rewrite <- msum_scal. unfold Rminus at 1. replace (- msum n (fun l => A i l * mmul n S2 A l j)) with (msum n (fun l => (-1) * (A i l * mmul n S2 A l j))) by (rewrite msum_scal; ring).
  rewrite <- msum_plus. apply msum_ext. intros l Hl.
  assert (E : mmul n S1 A l j - mmul n S2 A l j = (1 - s) * mmul n (fun a b => C1 a b - C2 a b) A l j).
  { unfold mmul. rewrite <- msum_scal. unfold Rminus at 1. replace (- msum n (fun k => S2 l k * A k j)) with (msum n (fun k => (-1) * (S2 l k * A k j))) by (rewrite msum_scal; ring).
    rewrite <- msum_plus. apply msum_ext. intros k _. unfold S1, S2, shrink. rewrite Hmu. fold mu. destruct (l =? k)%nat; ring. }
  replace ((1 - s) * (A i l * mmul n (fun a b => C1 a b - C2 a b) A l j)) with (A i l * ((1 - s) * mmul n (fun a b => C1 a b - C2 a b) A l j)) by ring. rewrite <- E. ring.
Qed.
Lemma closer : frob n (fun i j => mmul n (mmul n (mT W) C1) W i j - C2 i j) <= frob n (fun i j => C1 i j - C2 i j).
Proof.
  set (D := fun i j => C1 i j - C2 i j). set (D' := fun i j => mmul n (mmul n (mT W) C1) W i j - C2 i j).
  assert (DS : forall i j, D i j = D j i) by (intros i j; unfold D, C1, C2; rewrite (emp_cov_sym false ms Xs i j), (emp_cov_sym false mt Xt i j); reflexivity).
  assert (E1 : (1 - s) * (1 - s) * frob n D' = (s * mu) * (s * mu) * frob n (fun i j => delta i j - mmul n (mT W) W i j)).
  { rewrite <- !frob_scal. apply frob_ext. intros i j Hi Hj. now apply remaining. }
  assert (E2 : frob n (fun i j => delta i j - mmul n (mT W) W i j) = (1 - s) * (1 - s) * frob n (mmul n A (mmul n D A))).
  { rewrite <- gram_sides, <- frob_scal. apply frob_ext. intros i j Hi Hj. now apply other_side. }
  pose proof (shorter_columns n (s * mu) A (mmul n D A) A_short) as L1.
  assert (L2 : s * mu * frob n (mmul n D A) <= frob n D).
  { rewrite <- (frob_T n (mmul n D A)). rewrite (frob_ext n (mT (mmul n D A)) (mmul n A D)).
    - apply shorter_columns. exact A_short.
    - intros i j _ _. unfold mT at 1. rewrite mmul_T. apply mmul_ext; intros l _; unfold mT; [unfold A; apply invsqrtm_sym|apply DS]. }
  assert (P : 0 < s * mu) by (apply Rmult_lt_0_compat; lra). assert (P1 : 0 < (1 - s) * (1 - s)) by (apply Rmult_lt_0_compat; lra).
  rewrite E2 in E1. set (f := frob n (mmul n A (mmul n D A))) in *. set (g := frob n (mmul n D A)) in *. set (h := frob n D) in *. set (h' := frob n D') in *.
  assert (Q : h' = s * mu * (s * mu) * f). { apply (Rmult_eq_reg_l ((1 - s) * (1 - s))); [rewrite E1; ring|lra]. }
  rewrite Q. apply Rle_trans with (s * mu * g); [rewrite Rmult_assoc; apply Rmult_le_compat_l; lra|exact L2].
Qed.
End SHRUNK.

(** Same overall spread, any reg strictly between 0 and 1. *)
Theorem C243_coral_shrunk : forall lw eigh n ms mt Xs Xt s W, eigensolver n eigh -> (0 < n)%nat -> (0 < ms)%nat -> (0 < mt)%nat -> 0 < s < 1 ->
  ThmCoralReg.spread false n ms Xs = ThmCoralReg.spread false n mt Xt -> 0 < ThmCoralReg.spread false n ms Xs ->
  coral_fit lw eigh n ms mt Xs Xt (ShNum s) false = Ok W ->
  SubSpec.frob_dist n n (cov_of ms (coral_rows false n (mean_of ms Xs) W Xs)) (cov_of mt Xt) <= SubSpec.frob_dist n n (cov_of ms Xs) (cov_of mt Xt).
Proof.
  intros lw eigh n ms mt Xs Xt s W HE Hn Hms Hmt Hs Heq Hpos E. rewrite <- !ThmCoralReg.spread_emp in Heq. rewrite <- ThmCoralReg.spread_emp in Hpos.
  unfold coral_fit, estimate_covariance, shrunk_covariance in E. assert (B : Rleb 0 s && Rleb s 1 = true) by (apply andb_true_intro; split; apply Rleb_iff; lra). rewrite B in E. cbn [bind] in E. injection E as <-.
  pose proof (closer eigh n ms mt Xs Xt s HE Hms Hmt Hs (eq_sym Heq) Hpos) as Q. set (W := mmul n (invsqrtm eigh n (shrink n s (emp_cov false ms Xs))) (sqrtm eigh n (shrink n s (emp_cov false mt Xt)))) in *.
  assert (CV : forall j l, (j < n)%nat -> (l < n)%nat -> cov_of ms (coral_rows false n (mean_of ms Xs) W Xs) j l = mmul n (mmul n (mT W) (emp_cov false ms Xs)) W j l).
  { intros j l Hj Hl. unfold coral_rows. assert (M0 : forall a, mean_of ms (mmul n (fun i k => Xs i k - mean_of ms Xs k) W) a = 0).
    { intros a. apply mmul_mean. intros b _. rewrite <- (centred_sum ms Xs b Hms). apply msum_ext. intros i _. reflexivity. }
    rewrite cov_centred by apply M0. rewrite moment_mul. apply mmul_ext; [|reflexivity]. intros b _. apply mmul_ext; [reflexivity|]. intros a _. reflexivity. }
  eapply Rle_trans; [right|eapply Rle_trans; [exact Q|right]].
  - unfold SubSpec.frob_dist, frob. rewrite sigma_msum. apply msum_ext. intros i Hi. rewrite sigma_msum. apply msum_ext. intros j Hj. now rewrite CV, <- (cov_emp mt Xt).
  - symmetry. unfold SubSpec.frob_dist, frob. rewrite sigma_msum. apply msum_ext. intros i Hi. rewrite sigma_msum. apply msum_ext. intros j Hj. reflexivity.
Qed.

(** Sources spread along the first feature, targets as much along the second one. *)
Definition along (k : nat) : mat := fun i j => if (j =? k)%nat then (match i with O => 1 | 1%nat => -1 | _ => 0 end) else 0.
Example C243_ex_shrunk : exists eigh W, eigensolver 2 eigh /\ ThmCoralReg.spread false 2 2 (along 0) = 1/2 /\ ThmCoralReg.spread false 2 2 (along 1) = 1/2 /\
  coral_fit (fun _ _ _ => 0) eigh 2 2 2 (along 0) (along 1) (ShNum (1/2)) false = Ok W /\ SubSpec.frob_dist 2 2 (cov_of 2 (along 0)) (cov_of 2 (along 1)) = 2.
Proof.
  destruct (ThmSpectral.C86_eigensolver_exists 2) as [eigh HE]. eexists eigh, _. split; [exact HE|].
  split; [unfold ThmCoralReg.spread, cov_of, mean_of; cbn; field|]. split; [unfold ThmCoralReg.spread, cov_of, mean_of; cbn; field|]. split.
  - unfold coral_fit, estimate_covariance, shrunk_covariance. replace (Rleb 0 (1/2) && Rleb (1/2) 1)%bool with true by (symmetry; apply andb_true_intro; split; apply Rleb_iff; lra). reflexivity.
  - unfold SubSpec.frob_dist, cov_of, mean_of. cbn. field.
Qed.
