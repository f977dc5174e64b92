(** Witnesses against transfer component analysis and the discrepancy of transfer subspace learning. *)
From Coq Require Import List ZArith Bool Arith Lia Reals Lra Psatz Permutation.
From Verif Require Import Np NpFacts RVec RVecFacts MapModel MapSpec RMat SubModel SubSpec SubProofs SubProofs2.
Import ListNotations.
Local Open Scope R_scope.

(** The linear kernel on the plane, and three points. *)
Definition lin (x y : R * R) : R := fst x * fst y + snd x * snd y.
Definition tS (i : nat) : R * R := match i with 0%nat => (1, 0) | _ => (0, 0) end.
Definition tT (i : nat) : R * R := (0, 1).
Definition tK : mat := tca_K lin 2 tS tT.

Lemma tK_val i j : (i < 3)%nat -> (j < 3)%nat -> tK i j = if (i =? j)%nat then (if (i =? 1)%nat then 0 else 1) else 0.
Proof.
  intros Hi Hj. do 3 (destruct i as [|i]; [do 3 (destruct j as [|j]; [cbn; unfold lin; cbn; ring|]); lia|]). lia.
Qed.
Lemma tK_sym : symm 3 tK.
Proof. intros i j Hi Hj. rewrite !tK_val by assumption. rewrite (Nat.eqb_sym j i). destruct (Nat.eqb_spec i j) as [->|]; reflexivity. Qed.

Definition A3 : mat := tca_A 2 1 1 tK.
Definition B3 : mat := tca_B 3 tK.
Ltac entry := unfold A3, B3, tca_A, tca_B, mmul, delta, tca_H, tca_L; cbn [msum Nat.add Nat.eqb Nat.ltb Nat.leb];
  rewrite ?tK_val by lia; cbn [Nat.eqb]; unfold delta; cbn [Nat.eqb]; simpl INR; field.
Lemma A00 : A3 0%nat 0%nat = 5 / 4. Proof. entry. Qed.
Lemma A01 : A3 0%nat 1%nat = 0. Proof. entry. Qed.
Lemma A02 : A3 0%nat 2%nat = - 1 / 2. Proof. entry. Qed.
Lemma A10 : A3 1%nat 0%nat = 0. Proof. entry. Qed.
Lemma A11 : A3 1%nat 1%nat = 1. Proof. entry. Qed.
Lemma A12 : A3 1%nat 2%nat = 0. Proof. entry. Qed.
Lemma A20 : A3 2%nat 0%nat = - 1 / 2. Proof. entry. Qed.
Lemma A21 : A3 2%nat 1%nat = 0. Proof. entry. Qed.
Lemma A22 : A3 2%nat 2%nat = 2. Proof. entry. Qed.
Lemma B00 : B3 0%nat 0%nat = 2 / 3. Proof. entry. Qed.
Lemma B01 : B3 0%nat 1%nat = 0. Proof. entry. Qed.
Lemma B02 : B3 0%nat 2%nat = - 1 / 3. Proof. entry. Qed.
Lemma B10 : B3 1%nat 0%nat = 0. Proof. entry. Qed.
Lemma B11 : B3 1%nat 1%nat = 0. Proof. entry. Qed.
Lemma B12 : B3 1%nat 2%nat = 0. Proof. entry. Qed.
Lemma B20 : B3 2%nat 0%nat = - 1 / 3. Proof. entry. Qed.
Lemma B21 : B3 2%nat 1%nat = 0. Proof. entry. Qed.
Lemma B22 : B3 2%nat 2%nat = 2 / 3. Proof. entry. Qed.

(** Scatter and cost of coefficients (a, b, c). *)
Lemma scatter3 v : scatter 3 tK v = v 0%nat * v 0%nat + v 2%nat * v 2%nat - (v 0%nat + v 2%nat) * (v 0%nat + v 2%nat) / 3.
Proof.
  unfold scatter, average, score_of. repeat change sigma with msum. cbn [msum]. rewrite !tK_val by lia. cbn [Nat.eqb]. simpl INR. field.
Qed.
Lemma cost3 v : tca_cost 2 1 1 tK v =
  v 0%nat * v 0%nat + v 1%nat * v 1%nat + v 2%nat * v 2%nat + (v 0%nat / 2 - v 2%nat) * (v 0%nat / 2 - v 2%nat).
Proof.
  unfold tca_cost, norm2, domain_gap, average, score_of. repeat change sigma with msum. cbn [msum Nat.add]. rewrite !tK_val by lia. cbn [Nat.eqb]. simpl INR. field.
Qed.

Lemma tca_not_best solve eigh argsort : linear_solver solve -> eigh_contract eigh -> argsort_contract argsort ->
  exists v, tca_fit solve eigh argsort (Some 1%nat) 1 2 1 2 tK = [v] /\ norm2 3 v = 1 /\ ~ best_component 2 1 1 tK v.
Proof.
  intros HS HE HA.
  destruct (eigh 3%nat (solve 3%nat A3 B3)) as [w V] eqn:E.
  rewrite (tca_fit_eq solve eigh argsort (Some 1%nat) 1 2 1 2 tK w V E).
  change (2 + 1)%nat with 3%nat.
  assert (Ls : length (firstn 1 (rev (argsort 3%nat (fun a => Rabs (w a))))) = 1%nat).
  { rewrite firstn_length, rev_length. destruct (HA 3%nat (fun a => Rabs (w a))) as [P _].
    rewrite (Permutation_length P), seq_length. reflexivity. }
  pose proof (fun c Hc => sel_spec argsort 3 (fun a => Rabs (w a)) 1 0 c HA (Nat.lt_0_1) (Nat.lt_0_succ 2) Hc) as SS. cbn zeta in SS.
  destruct (firstn 1 (rev (argsort 3%nat (fun a => Rabs (w a))))) as [|k [|]] eqn:Es; try discriminate Ls.
  cbn [map]. cbn [nth] in SS. exists (fun i => V i k). split; [reflexivity|].
  assert (Hk : (k < 3)%nat) by (apply (SS 0%nat); lia).
  assert (Mx : forall c, (c < 3)%nat -> Rabs (w c) <= Rabs (w k)).
  { intros c Hc. destruct (SS c Hc) as [_ [(l & Hl & _)|H]]; [lia|exact H]. }
  clear SS Es Ls.
  pose proof (HE 3%nat (solve 3%nat A3 B3)) as D. rewrite E in D.
  pose proof (HS 3%nat A3 B3 (tca_A_nonsingular 2 1 1 tK tK_sym ltac:(lra))) as X.
  set (s := solve 3%nat A3 B3) in *.
  assert (s00 : s 0%nat 0%nat = 14 / 27 /\ s 2%nat 0%nat = - 1 / 27).
  { pose proof (X 0%nat 0%nat ltac:(lia) ltac:(lia)) as X1. pose proof (X 2%nat 0%nat ltac:(lia) ltac:(lia)) as X2.
    change sigma with msum in *. cbn [msum] in X1, X2. rewrite A00, A01, A02, B00 in X1. rewrite A20, A21, A22, B20 in X2. lra. }
  assert (s22 : s 2%nat 2%nat = 8 / 27).
  { pose proof (X 0%nat 2%nat ltac:(lia) ltac:(lia)) as X1. pose proof (X 2%nat 2%nat ltac:(lia) ltac:(lia)) as X2.
    change sigma with msum in *. cbn [msum] in X1, X2. rewrite A00, A01, A02, B02 in X1. rewrite A20, A21, A22, B22 in X2. lra. }
  assert (s21 : s 2%nat 1%nat = 0).
  { pose proof (X 0%nat 1%nat ltac:(lia) ltac:(lia)) as X1. pose proof (X 2%nat 1%nat ltac:(lia) ltac:(lia)) as X2.
    change sigma with msum in *. cbn [msum] in X1, X2. rewrite A00, A01, A02, B01 in X1. rewrite A20, A21, A22, B21 in X2. lra. }
  assert (s10 : s 1%nat 0%nat = 0).
  { pose proof (X 1%nat 0%nat ltac:(lia) ltac:(lia)) as X1. change sigma with msum in *. cbn [msum] in X1. rewrite A10, A11, A12, B10 in X1. lra. }
  assert (s11 : s 1%nat 1%nat = 0).
  { pose proof (X 1%nat 1%nat ltac:(lia) ltac:(lia)) as X1. change sigma with msum in *. cbn [msum] in X1. rewrite A10, A11, A12, B11 in X1. lra. }
  destruct s00 as [s00 s20]. clear X HS HE HA E.
  pose proof (eigvec 3 (lower s) w V k 0 D Hk ltac:(lia)) as E0. pose proof (eigvec 3 (lower s) w V k 1 D Hk ltac:(lia)) as E1.
  pose proof (eigvec 3 (lower s) w V k 2 D Hk ltac:(lia)) as E2. unfold lower in E0, E1, E2. cbn [msum Nat.leb] in E0, E1, E2.
  rewrite s00, s10, s20 in E0. rewrite s10, s11, s21 in E1. rewrite s20, s21, s22 in E2.
  assert (Nv : norm2 3 (fun i => V i k) = 1). { destruct (D k k Hk Hk) as (_ & Q & _). rewrite Nat.eqb_refl in Q. exact Q. }
  split; [exact Nv|]. unfold norm2 in Nv. change sigma with msum in Nv. cbn [msum] in Nv.
  assert (Wk : 14 / 27 <= Rabs (w k)).
  { destruct (D 0%nat 0%nat ltac:(lia) ltac:(lia)) as (Q1 & _ & Q2). unfold lower in Q1. cbn [Nat.leb] in Q1. rewrite s00 in Q1.
    change sigma with msum in *. cbn [msum Nat.eqb] in Q1, Q2.
    pose proof (Mx 0%nat ltac:(lia)) as M0. pose proof (Mx 1%nat ltac:(lia)) as M1. pose proof (Mx 2%nat ltac:(lia)) as M2.
    assert (T : forall c, Rabs (w c) <= Rabs (w k) -> V 0%nat c * w c * V 0%nat c <= Rabs (w k) * (V 0%nat c * V 0%nat c)).
    { intros c Hc. pose proof (Rle_abs (w c)). pose proof (Rle_0_sqr (V 0%nat c)) as Q. unfold Rsqr in Q.
      replace (V 0%nat c * w c * V 0%nat c) with (w c * (V 0%nat c * V 0%nat c)) by ring. apply Rmult_le_compat_r; lra. }
    pose proof (T _ M0). pose proof (T _ M1). pose proof (T _ M2).
    assert (Rabs (w k) * (V 0%nat 0%nat * V 0%nat 0%nat) + Rabs (w k) * (V 0%nat 1%nat * V 0%nat 1%nat) + Rabs (w k) * (V 0%nat 2%nat * V 0%nat 2%nat) = Rabs (w k)).
    { rewrite <- !Rmult_plus_distr_l. replace (V 0%nat 0%nat * V 0%nat 0%nat + V 0%nat 1%nat * V 0%nat 1%nat + V 0%nat 2%nat * V 0%nat 2%nat) with 1 by lra. ring. }
    lra. }
  intros Best. specialize (Best (fun i => match i with 0%nat => 20 | 2%nat => -3 | _ => 0 end)).
  rewrite !cost3 in Best. change (2 + 1)%nat with 3%nat in Best. rewrite !scatter3 in Best.
  set (a := V 0%nat k) in *. set (b := V 1%nat k) in *. set (c := V 2%nat k) in *. set (l := w k) in *. clearbody a b c l s. clear D Mx.
  assert (Hb : b = 0). { assert (l * b = 0) by lra. apply Rmult_integral in H. destruct H; auto. subst l. rewrite Rabs_R0 in Wk. lra. }
  subst b.
  assert (P1 : a * (14 - 27 * l) = c) by lra. assert (P2 : c * (8 - 27 * l) = a) by lra.
  assert (Ha : a <> 0). { intros ->. assert (c = 0) by lra. subst c. lra. }
  assert (Hq : (14 - 27 * l) * (8 - 27 * l) = 1).
  { apply (Rmult_eq_reg_l a); [|exact Ha]. rewrite <- Rmult_assoc, P1, P2. ring. }
  assert (Hl : 14 / 27 <= l). { unfold Rabs in Wk. destruct (Rcase_abs l); [nra|exact Wk]. }
  set (t := 14 - 27 * l) in *. assert (Ht : t <= 0) by (unfold t; lra).
  assert (Hqt : t * t - 6 * t - 1 = 0) by (replace (8 - 27 * l) with (t - 6) in Hq by (unfold t; ring); lra).
  assert (Hc : c = t * a) by lra. rewrite Hc in Best.
  assert (Q : (16.5 + 720 * (t * t) + 218 * t) * (a * a) <= 0) by nra.
  assert (Pa : 0 < a * a) by nra.
  assert (G : 16.5 + 720 * (t * t) + 218 * t <= 0). { apply Rnot_lt_le. intros G. assert (0 < (16.5 + 720 * (t * t) + 218 * t) * (a * a)) by (apply Rmult_lt_0_compat; lra). lra. }
  assert (t <= - 0.1623) by nra. nra.
Qed.

(** * The discrepancy of two spikes is negative *)
Definition spike (a : R) : mat := fun i _ => if (i =? 0)%nat then a else 0.
Definition W1 : mat := fun _ _ => 1.

Lemma spike_proj a i j : mmul 1 (spike a) W1 i j = spike a i 0%nat.
Proof. unfold mmul, W1. cbn [msum]. unfold spike. ring. Qed.
Lemma spike_cov a : torch_cov 0 9 1 (mmul 1 (spike a) W1) 0%nat 0%nat = 8 * (a * a) / 81.
Proof.
  rewrite torch_cov_eq. unfold cov_of, mean_of. repeat change sigma with msum. cbn [msum]. rewrite !spike_proj. unfold spike. cbn [Nat.eqb]. simpl INR. unfold delta. field.
Qed.
Lemma chol_inv_1 inv chol A : inverse_contract inv -> cholesky_contract chol -> 0 < A 0%nat 0%nat -> chol 1%nat (inv 1%nat A) 0%nat 0%nat = sqrt (/ A 0%nat 0%nat).
Proof.
  intros HI HC P.
  assert (NS : nonsingular 1 A).
  { intros v H j Hj. replace j with 0%nat by lia. specialize (H 0%nat ltac:(lia)). change sigma with msum in H. cbn [msum] in H.
    assert (A 0%nat 0%nat * v 0%nat = 0) by lra. apply Rmult_integral in H0. destruct H0; lra. }
  pose proof (HI 1%nat A NS 0%nat 0%nat ltac:(lia) ltac:(lia)) as E. change sigma with msum in E. cbn [msum Nat.eqb] in E.
  assert (E' : inv 1%nat A 0%nat 0%nat = / A 0%nat 0%nat) by (apply (Rmult_eq_reg_l (A 0%nat 0%nat)); [rewrite Rinv_r by lra; lra|lra]).
  assert (PI : 0 < / A 0%nat 0%nat) by now apply Rinv_0_lt_compat.
  destruct (HC 1%nat (inv 1%nat A)) as (C1 & _ & C2).
  - intros i j Hi Hj. replace i with 0%nat by lia. replace j with 0%nat by lia. reflexivity.
  - intros v (i & Hi & Hv). replace i with 0%nat in Hv by lia. change sigma with msum. cbn [msum]. rewrite E'.
    assert (0 < v 0%nat * v 0%nat) by nra. assert (0 < v 0%nat * v 0%nat * / A 0%nat 0%nat) by (apply Rmult_lt_0_compat; auto). nra.
  - specialize (C1 0%nat 0%nat ltac:(lia) ltac:(lia)). specialize (C2 0%nat ltac:(lia)). change sigma with msum in C1. cbn [msum] in C1.
    rewrite E' in C1. symmetry. apply sqrt_lem_1; lra.
Qed.
Lemma cdist1 Z L Z' i j : cdist 1 (mmul 1 Z L) (mmul 1 Z' L) i j = Rabs (L 0%nat 0%nat * (Z i 0%nat - Z' j 0%nat)).
Proof.
  unfold cdist, mmul. cbn [msum].
  replace (0 + _) with (Rsqr (L 0%nat 0%nat * (Z i 0%nat - Z' j 0%nat))) by (unfold Rsqr; ring). apply sqrt_Rsqr_abs.
Qed.
Lemma exp_quarter x : exp x = exp (x / 4) * exp (x / 4) * exp (x / 4) * exp (x / 4).
Proof. rewrite <- !exp_plus. f_equal. field. Qed.
Lemma exp_ge4 x : 0 <= 1 + x / 4 -> (1 + x / 4) * (1 + x / 4) * (1 + x / 4) * (1 + x / 4) <= exp x.
Proof.
  intros H. rewrite (exp_quarter x). pose proof (exp_ineq1_le (x / 4)).
  repeat apply Rmult_le_compat; repeat apply Rmult_le_pos; lra.
Qed.

Lemma mean_spike (f : R -> R -> R) a b :
  mean2 9 9 (fun i j => f (spike a i 0%nat) (spike b j 0%nat)) = (f a b + 8 * f a 0 + 8 * f 0 b + 64 * f 0 0) / 81.
Proof. unfold mean2, spike. cbn [msum Nat.eqb]. simpl INR. field. Qed.

Lemma tsl_D_spike inv chol : inverse_contract inv -> cholesky_contract chol ->
  tsl_D 0 inv chol 9 9 1 1 W1 (spike 1) (spike 7) < 0.
Proof.
  intros HI HC. unfold tsl_D.
  set (s1 := torch_cov 0 9 1 (mmul 1 (spike 1) W1)). set (s2 := torch_cov 0 9 1 (mmul 1 (spike 7) W1)).
  assert (V1 : s1 0%nat 0%nat = 8 / 81) by (unfold s1; rewrite spike_cov; field).
  assert (V2 : s2 0%nat 0%nat = 392 / 81) by (unfold s2; rewrite spike_cov; field).
  assert (L11 : chol 1%nat (inv 1%nat (fun a b => 2 * s1 a b)) 0%nat 0%nat = 9 / 4).
  { rewrite (chol_inv_1 inv chol) by (auto; rewrite V1; lra). rewrite V1. apply sqrt_lem_1; lra. }
  assert (L22 : chol 1%nat (inv 1%nat (fun a b => 2 * s2 a b)) 0%nat 0%nat = 9 / 28).
  { rewrite (chol_inv_1 inv chol) by (auto; rewrite V2; lra). rewrite V2. apply sqrt_lem_1; lra. }
  assert (L12 : chol 1%nat (inv 1%nat (fun a b => s1 a b + s2 a b)) 0%nat 0%nat = 9 / 20).
  { rewrite (chol_inv_1 inv chol) by (auto; rewrite V1, V2; lra). rewrite V1, V2. apply sqrt_lem_1; lra. }
  rewrite (mean2_ext 9 9 _ (fun i j => (fun x y => exp (- (1 / 2) * Rabs (9 / 4 * (x - y)))) (spike 1 i 0%nat) (spike 1 j 0%nat)))
    by (intros i j _ _; rewrite cdist1, L11, !spike_proj; reflexivity).
  rewrite (mean2_ext 9 9 (fun i j => exp (- (1 / 2) * cdist 1 (mmul 1 (mmul 1 (spike 7) W1) _) _ i j))
     (fun i j => (fun x y => exp (- (1 / 2) * Rabs (9 / 28 * (x - y)))) (spike 7 i 0%nat) (spike 7 j 0%nat)))
    by (intros i j _ _; rewrite cdist1, L22, !spike_proj; reflexivity).
  rewrite (mean2_ext 9 9 (fun i j => exp (- (1 / 2) * cdist 1 _ _ i j))
     (fun i j => (fun x y => exp (- (1 / 2) * Rabs (9 / 20 * (x - y)))) (spike 1 i 0%nat) (spike 7 j 0%nat)))
    by (intros i j _ _; rewrite cdist1, L12, !spike_proj; reflexivity).
  pose proof (mean_spike (fun x y => exp (- (1 / 2) * Rabs (9 / 4 * (x - y)))) 1 1) as M1.
  pose proof (mean_spike (fun x y => exp (- (1 / 2) * Rabs (9 / 28 * (x - y)))) 7 7) as M2.
  pose proof (mean_spike (fun x y => exp (- (1 / 2) * Rabs (9 / 20 * (x - y)))) 1 7) as M3.
  cbn beta in M1, M2, M3 |- *. rewrite M1, M2, M3. clear M1 M2 M3.
  replace (- (1 / 2) * Rabs (9 / 4 * (1 - 1))) with 0 by (rewrite Rminus_diag_eq, Rmult_0_r, Rabs_R0 by reflexivity; ring).
  replace (- (1 / 2) * Rabs (9 / 4 * (0 - 0))) with 0 by (rewrite Rminus_diag_eq, Rmult_0_r, Rabs_R0 by reflexivity; ring).
  replace (- (1 / 2) * Rabs (9 / 28 * (7 - 7))) with 0 by (rewrite Rminus_diag_eq, Rmult_0_r, Rabs_R0 by reflexivity; ring).
  replace (- (1 / 2) * Rabs (9 / 28 * (0 - 0))) with 0 by (rewrite Rminus_diag_eq, Rmult_0_r, Rabs_R0 by reflexivity; ring).
  replace (- (1 / 2) * Rabs (9 / 20 * (0 - 0))) with 0 by (rewrite Rminus_diag_eq, Rmult_0_r, Rabs_R0 by reflexivity; ring).
  replace (- (1 / 2) * Rabs (9 / 4 * (1 - 0))) with (- (9 / 8)) by (rewrite Rabs_right by lra; field).
  replace (- (1 / 2) * Rabs (9 / 4 * (0 - 1))) with (- (9 / 8)) by (rewrite Rabs_left by lra; field).
  replace (- (1 / 2) * Rabs (9 / 28 * (7 - 0))) with (- (9 / 8)) by (rewrite Rabs_right by lra; field).
  replace (- (1 / 2) * Rabs (9 / 28 * (0 - 7))) with (- (9 / 8)) by (rewrite Rabs_left by lra; field).
  replace (- (1 / 2) * Rabs (9 / 20 * (1 - 7))) with (- (27 / 20)) by (rewrite Rabs_left by lra; field).
  replace (- (1 / 2) * Rabs (9 / 20 * (1 - 0))) with (- (9 / 40)) by (rewrite Rabs_right by lra; field).
  replace (- (1 / 2) * Rabs (9 / 20 * (0 - 7))) with (- (63 / 40)) by (rewrite Rabs_left by lra; field).
  rewrite exp_0.
  assert (U : exp (- (9 / 8)) <= / 2.69).
  { rewrite exp_Ropp. apply Rinv_le_contravar; [lra|]. eapply Rle_trans; [|apply exp_ge4; lra]. lra. }
  assert (G1 : 0.79 <= exp (- (9 / 40))) by (eapply Rle_trans; [|apply exp_ge4; lra]; lra).
  assert (G2 : 0.13 <= exp (- (63 / 40))) by (eapply Rle_trans; [|apply exp_ge4; lra]; lra).
  pose proof (exp_pos (- (27 / 20))). lra.
Qed.
