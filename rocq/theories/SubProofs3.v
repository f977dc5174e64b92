(** Proofs about transfer subspace learning, continued: the Fisher objective. *)
From Coq Require Import List ZArith Bool Arith Lia Reals Lra Psatz Permutation.
From Verif Require Import Np NpFacts RVec RVecFacts MapModel MapSpec RMat SubModel SubSpec SubProofs SubProofs2.
Import ListNotations.
Local Open Scope R_scope.

Lemma pick (L : list Z) v g : NoDup L -> In v L -> msum (length L) (fun a => if (v =? nth a L 0)%Z then g else 0) = g.
Proof.
  intros N I. apply In_nth with (d := 0%Z) in I. destruct I as (a0 & Ha & Ea).
  rewrite (msum_ext _ _ (fun a => g * delta a a0)).
  - rewrite (msum_delta_r _ (fun _ => g)) by exact Ha. reflexivity.
  - intros a La. unfold delta. destruct (Nat.eqb_spec a a0) as [->|Na].
    + rewrite Ea, Z.eqb_refl. ring.
    + destruct (Z.eqb_spec v (nth a L 0%Z)) as [E|E]; [|ring]. exfalso. apply Na.
      rewrite NoDup_nth in N. apply (N a a0 La Ha). rewrite Ea. symmetry. exact E.
Qed.
Lemma regroup n (y : nat -> Z) L g : NoDup L -> (forall i, (i < n)%nat -> In (y i) L) ->
  msum n g = msum (length L) (fun a => msum n (fun i => if (y i =? nth a L 0)%Z then g i else 0)).
Proof.
  intros N I. rewrite msum_swap. apply msum_ext. intros i Hi. symmetry. apply pick; auto.
Qed.

Section Balanced.
  Variables (n d k : nat) (y : nat -> Z) (X W : mat) (m : R).
  Local Notation L := (unique (map y (seq 0 n))).
  Local Notation Zp := (projected d X W).
  Hypothesis N : (0 < n)%nat.
  Hypothesis Hm : 0 < m.
  Hypothesis B : forall c, In c L -> size_of n y c = m.

  Lemma L_nodup : NoDup L. Proof. apply unique_NoDup. Qed.
  Lemma L_in i : (i < n)%nat -> In (y i) L.
  Proof. intros Hi. apply unique_In. apply in_map. apply in_seq. lia. Qed.
  Lemma C_pos : (0 < length L)%nat.
  Proof. pose proof (L_in 0%nat N). destruct L; [contradiction|simpl; lia]. Qed.
  Lemma nth_in a : (a < length L)%nat -> In (nth a L 0%Z) L.
  Proof. apply nth_In. Qed.
  Lemma size_eq : INR n = INR (length L) * m.
  Proof.
    rewrite <- (Rmult_1_r (INR n)), <- (msum_const n 1), (regroup n y L (fun _ => 1) L_nodup L_in).
    rewrite (msum_ext _ _ (fun _ => m)); [now rewrite msum_const|]. intros a Ha. exact (B _ (nth_in a Ha)).
  Qed.
  Lemma mean_eq c : mean_of n Zp c = / INR (length L) * msum (length L) (fun a => mean_in n y Zp (nth a L 0%Z) c).
  Proof.
    unfold mean_of. change sigma with msum. rewrite (regroup n y L (fun i => Zp i c) L_nodup L_in).
    rewrite (msum_ext _ _ (fun a => m * mean_in n y Zp (nth a L 0%Z) c)).
    - rewrite msum_scal, size_eq. pose proof C_pos. assert (INR (length L) <> 0) by (apply not_0_INR; lia). field. split; lra.
    - intros a Ha. unfold mean_in. rewrite (B _ (nth_in a Ha)). change sigma with msum. field. lra.
  Qed.
  Lemma scaled_proj a c : (a < length L)%nat ->
    projected d (scaled_means n y X) W a c = sqrt m * mean_in n y Zp (nth a L 0%Z) c.
  Proof.
    intros Ha. unfold projected, scaled_means, class_mean, mean_in. repeat change sigma with msum.
    change (n_in n y) with (size_of n y). rewrite (B _ (nth_in a Ha)).
    rewrite (msum_ext d _ (fun j => (sqrt m * / m) * (msum n (fun i => if (y i =? nth a L 0)%Z then X i j else 0) * W j c)))
      by (intros; unfold Rdiv; ring).
    rewrite msum_scal. unfold Rdiv.
    rewrite (msum_ext d _ (fun j => msum n (fun i => if (y i =? nth a L 0)%Z then X i j * W j c else 0))).
    2:{ intros j _. rewrite <- msum_scal_r. apply msum_ext. intros i _. destruct (y i =? nth a L 0)%Z; ring. }
    rewrite msum_swap. rewrite (msum_ext n (fun j => msum d _) (fun i => if (y i =? nth a L 0)%Z then msum d (fun j => X i j * W j c) else 0)).
    - ring.
    - intros i _. destruct (y i =? nth a L 0)%Z; [reflexivity|apply msum_zero].
  Qed.
  Lemma numerator : tr_form d k W (torch_cov 0 (length L) d (scaled_means n y X)) =
    / INR (length L) * between_scatter n k y Zp.
  Proof.
    rewrite tr_form_cov. rewrite Rmult_0_l, Rmult_0_l, Rplus_0_r, Rminus_0_r, Rmult_1_l.
    unfold total_var, between_scatter, sq_dist. repeat change sigma with msum.
    rewrite (regroup n y L _ L_nodup L_in).
    rewrite (msum_ext (length L) (fun a => msum n _)
      (fun a => m * msum k (fun c => (mean_in n y Zp (nth a L 0%Z) c - mean_of n Zp c) * (mean_in n y Zp (nth a L 0%Z) c - mean_of n Zp c)))).
    2:{ intros a Ha. rewrite <- (B _ (nth_in a Ha)) at 1. unfold size_of. change sigma with msum. rewrite <- msum_scal_r. apply msum_ext.
        intros i _. destruct (Z.eqb_spec (y i) (nth a L 0%Z)) as [E|_]; [rewrite <- E; ring|ring]. }
    rewrite msum_scal, msum_swap, <- Rmult_assoc, <- msum_scal. apply msum_ext. intros c _.
    unfold cov_of. repeat change sigma with msum.
    assert (Em : mean_of (length L) (projected d (scaled_means n y X) W) c = sqrt m * mean_of n Zp c).
    { rewrite mean_eq. unfold mean_of. change sigma with msum.
      rewrite (msum_ext _ _ (fun a => sqrt m * mean_in n y Zp (nth a L 0%Z) c)) by (intros; now apply scaled_proj).
      rewrite msum_scal. unfold Rdiv. ring. }
    rewrite Em. rewrite (msum_ext (length L) _ (fun a => m * ((mean_in n y Zp (nth a L 0%Z) c - mean_of n Zp c) * (mean_in n y Zp (nth a L 0%Z) c - mean_of n Zp c)))).
    - rewrite msum_scal. unfold Rdiv. ring.
    - intros a Ha. rewrite scaled_proj by exact Ha. rewrite <- (sqrt_sqrt m) at 5 by lra. ring.
  Qed.
End Balanced.

Lemma flda_loss n d y X sc m : (0 < n)%nat -> 0 < m ->
  (forall i, (i < n)%nat -> size_of n y (y i) = m) ->
  exists q, 0 < q /\ forall k W,
    tsl_F 0 sc Flda n d k W X y = q * (between_scatter n k y (projected d X W) / total_var n k (projected d X W)).
Proof.
  intros N Hm B.
  assert (B' : forall c, In c (unique (map y (seq 0 n))) -> size_of n y c = m).
  { intros c Hc. apply unique_In, in_map_iff in Hc. destruct Hc as (i & <- & Hi). apply in_seq in Hi. apply B. lia. }
  exists (/ INR (length (unique (map y (seq 0 n))))). split.
  - apply Rinv_0_lt_compat, lt_0_INR. eapply C_pos; eassumption.
  - intros k W. unfold tsl_F. rewrite (numerator n d k y X W m N Hm B'). rewrite (tr_form_cov 0 n d k X W).
    rewrite Rmult_0_l, Rmult_0_l, Rplus_0_r, Rminus_0_r, Rmult_1_l. unfold Rdiv. ring.
Qed.
