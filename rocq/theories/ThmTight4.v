(** Theorems added after edited programs survived: the automatic shrinkage of a constant feature (C155) and which wrappers offer predict_proba (C157). *)
From Coq Require Import String List ZArith Bool Arith Lia Reals Lra.
From Verif Require Import Np NpFacts Spec RVec RVecFacts RMat UtilsModel SelectModel ReweightModel MapModel MapSpec MapProofs2 CovModel CovSpec CovProofs Sel2Model WrapModel.
Import ListNotations.
Local Open Scope nat_scope.

(** The share of the n features that vary. *)
Definition varying (n m : nat) (X : mat) : R := (sigma n (fun i => if Req_EM_T (cov_of m X i i) 0 then 0 else 1) / INR n)%R.
Lemma constant_cov m X j c : 0 < m -> (forall i, i < m -> X i j = c) -> forall l, cov_of m X j l = 0%R /\ cov_of m X l j = 0%R.
Proof.
  intros Hm H l. assert (P : INR m <> 0%R) by (apply not_0_INR; lia).
  assert (M : col_mean m X j = c). { unfold col_mean. rewrite (msum_ext m _ (fun _ => c)) by exact H. rewrite msum_const. field. exact P. }
  change (emp_cov false m X j l = 0%R /\ emp_cov false m X l j = 0%R). rewrite !emp_cov_centred. 
  assert (Z : forall f, msum m (fun i => ((X i j - col_mean m X j) * f i)%R) = 0%R).
  { intros f. rewrite (msum_ext m _ (fun _ => 0%R)); [apply msum_zero|]. intros i Hi. rewrite H, M by exact Hi. ring. }
  assert (Z' : forall f, msum m (fun i => (f i * (X i j - col_mean m X j))%R) = 0%R).
  { intros f. rewrite (msum_ext m _ (fun _ => 0%R)); [apply msum_zero|]. intros i Hi. rewrite H, M by exact Hi. ring. }
  rewrite Z, Z'. split; unfold Rdiv; ring.
Qed.
Lemma auto_constant : forall lw n m X b j c, 0 < m -> j < n -> (forall i, i < m -> X i j = c) -> exists C, let d := lw n m (centred m (standard_scaler (negb b) m X)) in
  estimate_covariance lw n m X ShAuto b = Ok C /\ C j j = (d * varying n m X)%R /\ (forall l, l < n -> l <> j -> C j l = 0%R /\ C l j = 0%R) /\
  (forall l, l < n -> cov_of m X l l <> 0%R -> C l l = (cov_of m X l l * ((1 - d) + d * varying n m X))%R).
Proof.
  intros lw n m X b j c Hm Hj H. cbn [estimate_covariance]. unfold ledoit_wolf. set (X' := standard_scaler (negb b) m X). set (d := lw n m (centred m X')).
  exists (fun j l => (scale_ m X j * shrink n d (emp_cov false m X') j l * scale_ m X l)%R). cbv zeta. fold X'. fold d. split; [reflexivity|].
  assert (Z : forall l, emp_cov false m X j l = 0%R /\ emp_cov false m X l j = 0%R) by (exact (constant_cov m X j c Hm H)).
  assert (S : scale_ m X j = 1%R). { unfold scale_. rewrite (proj1 (Z j)). rewrite (proj2 (Reqb_iff 0 0) eq_refl). reflexivity. }
  assert (MU : (msum n (fun i => emp_cov false m X' i i) / INR n = varying n m X)%R).
  { unfold varying. f_equal. apply msum_ext. intros i Hi. unfold X'. change (cov_of m X i i) with (emp_cov false m X i i). destruct (Req_EM_T (emp_cov false m X i i) 0) as [E|E].
    - rewrite cov_standard, E by exact Hm. unfold Rdiv. ring.
    - now apply standard_var. }
  unfold shrink. rewrite MU. split; [|split].
  - rewrite Nat.eqb_refl, S. unfold X'. rewrite cov_standard, (proj1 (Z j)) by exact Hm. unfold Rdiv. ring.
  - intros l Hl D. rewrite (proj2 (Nat.eqb_neq j l)), (proj2 (Nat.eqb_neq l j)) by auto. unfold X'. rewrite !cov_standard, (proj1 (Z l)), (proj2 (Z l)) by exact Hm. unfold Rdiv. split; ring.
  - intros l Hl V. rewrite Nat.eqb_refl. unfold X'. change (cov_of m X l l) with (emp_cov false m X l l) in *. rewrite standard_var by assumption. rewrite <- (scale_sq m X l Hm V). ring.
Qed.
(** "auto" and a constant feature: its variance is estimated by the intensity times the share of the features that vary, its covariances by 0. *)
Theorem C155_auto_constant : forall lw n m X b j c, intensity lw -> 0 < m -> j < n -> (forall i, i < m -> X i j = c) -> exists C d,
  estimate_covariance lw n m X ShAuto b = Ok C /\ (0 <= d <= 1)%R /\ C j j = (d * varying n m X)%R /\ (forall l, l < n -> l <> j -> C j l = 0%R /\ C l j = 0%R) /\
  (forall l, l < n -> cov_of m X l l <> 0%R -> C l l = (cov_of m X l l * ((1 - d) + d * varying n m X))%R).
Proof.
  intros lw n m X b j c HI Hm Hj H. destruct (auto_constant lw n m X b j c Hm Hj H) as (C & E & A). exists C, (lw n m (centred m (standard_scaler (negb b) m X))). split; [exact E|]. split; [apply HI|exact A].
Qed.
(** One feature -1, 1 and one feature 3, 3 with intensity 1/2: the constant feature gets the variance 1/4. *)
Example C155_auto_constant_ex : exists C, estimate_covariance (fun _ _ _ => / 2)%R 2 2 (fun i j => if j =? 0 then (if i =? 0 then -1 else 1) else 3)%R ShAuto false = Ok C /\ C 1 1 = (/ 4)%R /\ C 0 0 = (3 / 4)%R.
Proof.
  set (X := fun i j => if j =? 0 then (if i =? 0 then -1 else 1)%R else 3%R).
  assert (V0 : cov_of 2 X 0 0 = 1%R) by (unfold cov_of, mean_of, sigma, X; cbn; lra). assert (V1 : cov_of 2 X 1 1 = 0%R) by (unfold cov_of, mean_of, sigma, X; cbn; lra).
  assert (W : varying 2 2 X = (1 / 2)%R).
  { unfold varying. cbn [sigma INR]. rewrite ?V0, ?V1. destruct (Req_EM_T 1 0); [lra|]. destruct (Req_EM_T 0 0); [|lra]. lra. }
  destruct (auto_constant (fun _ _ _ => / 2)%R 2 2 X false 1 3%R) as (C & E & A & _ & B); [lia|lia|reflexivity|].
  exists C. split; [exact E|]. rewrite A, W. split; [lra|]. rewrite (B 0) by (lia || (rewrite V0; lra)). rewrite V0, W. lra.
Qed.

(** predict_proba is offered exactly when the given estimator has it; DASVM then answers with the given estimator (C57). *)
Theorem C157_proba_offered : forall V Out has_source c (base i : inner V Out) kws, c = JdotClf \/ c = Dasvm ->
  (i_has base MProba = false -> call has_source c base (Some i) MProba kws = Err AttributeError) /\
  (i_has base MProba = true -> forall r, i_call base MProba kws = Ok r -> c = Dasvm -> call has_source c base (Some i) MProba kws = Ok (r, false)).
Proof.
  intros V Out hs c base i kws C. split.
  - intros H. destruct C as [-> | ->]; cbn; now rewrite H.
  - intros H r E ->. cbn. rewrite H. unfold out. now rewrite E.
Qed.
Example C157_proba_offered_ex : let some := mkInner (fun _ => true) (fun (m : meth) (kws : kwargs nat) => Ok 7) in let none := mkInner (fun m => match m with MProba => false | _ => true end) (fun (m : meth) (kws : kwargs nat) => Ok 8) in
  call (fun _ => true) Dasvm some (Some none) MProba [] = Ok (7, false) /\ call (fun _ => true) Dasvm none (Some some) MProba [] = Err AttributeError /\ call (fun _ => true) JdotClf none (Some some) MProba [] = Err AttributeError.
Proof. repeat split. Qed.
