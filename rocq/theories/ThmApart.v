(** * C243: adapting does not move the domains apart *)
From Coq Require Import String List ZArith Bool Arith Lia Reals Lra.
From Verif Require Import Np NpFacts Labels Spec UtilsModel UtilsSpec SelectModel RVec RVecFacts FWModel FWSpec MapModel MapSpec MapProofs MapProofs2 RMat ReweightModel ReweightSpec ThmMmd.
From Verif Require ThmBudget ThmMap ThmSpectral CovModel CoralRegModel ThmCoralReg SubModel SubSpec ThmSub.
Import ListNotations.
Local Open Scope nat_scope.
Local Open Scope list_scope.

(** ** KMM: the weighted sources are no farther from the targets than the sources as they are *)
Lemma ones_allowed B e n : (1 <= B)%R -> (0 <= e)%R -> kmm_allowed B e n (repeat 1%R n).
Proof.
  intros HB He. split; [apply repeat_length|]. split; [apply Forall_forall; intros x Hx; apply repeat_spec in Hx; subst; lra|].
  assert (S : vsum (repeat 1%R n) = INR n). { induction n as [|n IH]; [reflexivity|]. rewrite S_INR. cbn [repeat vsum fold_right]. fold (vsum (repeat 1%R n)). rewrite IH. lra. }
  rewrite S. pose proof (pos_INR n). nra.
Qed.
Lemma slack_nonneg eps n : (forall e, eps = Some e -> (0 <= e)%R) -> 0 < n -> (0 <= kmm_slack eps n)%R.
Proof.
  intros He Hn. destruct eps as [e|]; cbn; [now apply He|]. assert (1 <= sqrt (INR n))%R. { rewrite <- sqrt_1. apply sqrt_le_1_alt. change 1%R with (INR 1). apply le_INR. lia. }
  apply Rmult_le_pos; [lra|]. left. apply Rinv_0_lt_compat. lra.
Qed.
Theorem C243_kmm : forall Row D phi kern slsqp B eps max_iter (X : list Row) sda w Xs, kernel_of D phi kern -> minimises slsqp ->
  (1 <= B)%R -> (forall e, eps = Some e -> (0 <= e)%R) ->
  kmm_fit Row slsqp kern B eps max_iter "scipy" X sda = Ok (w, Xs) ->
  let Xt := rows_of is_target (eff_domain (length X) sda) X in Xs <> [] -> Xt <> [] ->
  (mmd2 D phi w Xs Xt <= mmd2 D phi (repeat 1 (length Xs)) Xs Xt)%R.
Proof.
  intros Row D phi kern slsqp B eps mi X sda w Xs HK HM HB He E Xt N1 N2. destruct (C177_kmm_scipy Row D phi kern slsqp B eps mi X sda w Xs HK HM E) as (_ & Q).
  destruct (Q N1 N2) as [_ Q']. apply Q'. apply ones_allowed; [exact HB|]. apply slack_nonneg; [exact He|]. destruct Xs; [easy|cbn; lia].
Qed.
Theorem C243_kmm_frank_wolfe : forall Row D phi kern slsqp B eps max_iter (X : list Row) sda w Xs kappa, kernel_of D phi kern -> (forall x, (kern x x <= kappa)%R) ->
  (forall e, eps = Some e -> 0 <= e <= 1)%R -> 1 <= max_iter -> kmm_fit Row slsqp kern B eps max_iter "frank-wolfe" X sda = Ok (w, Xs) ->
  let Xt := rows_of is_target (eff_domain (length X) sda) X in let e := kmm_slack eps (length Xs) in Xs <> [] -> Xt <> [] ->
  (mmd2 D phi w Xs Xt <= mmd2 D phi (repeat 1 (length Xs)) Xs Xt + 16 * kappa * (1 + e) * (1 + e) / (INR max_iter + 2))%R.
Proof.
  intros Row D phi kern slsqp B eps mi X sda w Xs kappa HK Hk He Hm E Xt e N1 N2. destruct (C177_kmm_frank_wolfe Row D phi kern slsqp B eps mi X sda w Xs kappa HK Hk He Hm E) as (_ & Q).
  destruct (ones_allowed 1 e (length Xs) ltac:(lra)) as (A1 & A2 & A3).
  { apply slack_nonneg; [intros q Hq; now apply He|]. destruct Xs; [easy|cbn; lia]. }
  apply Q; [exact N1|exact N2|exact A1| |exact A3]. unfold nonneg. eapply Forall_impl; [|exact A2]. cbn. intros; lra.
Qed.
(** After few iterations frank-wolfe can be worse than no weights at all: source 1, target 2/3. *)
Theorem C243_frank_wolfe_refuted : forall slsqp, exists w, kernel_of 1 (fun (x : R) (_ : nat) => x) Rmult /\
  kmm_fit R slsqp Rmult 1000 (Some 1%R) 2 "frank-wolfe" [1; 2/3]%R (SDArr [1; -2]%Z) = Ok (w, [1]%R) /\
  (mmd2 1 (fun (x : R) (_ : nat) => x) [1] [1] [2/3] < mmd2 1 (fun (x : R) (_ : nat) => x) w [1] [2/3])%R.
Proof.
  intros slsqp. exists [4/3]%R. split; [exact line_kernel|]. split.
  - apply ThmBudget.kmm_ex. cbn [fw_loop]. rewrite (ThmBudget.fw_one 1 1 0) by (destruct (Rle_dec _ _); cbn; lra). cbn [bind]. rewrite (ThmBudget.fw_one 2 0 (4/3)) by (destruct (Rle_dec _ _); cbn; lra). reflexivity.
  - unfold mmd2, weighted, Rsqr. cbn. lra.
Qed.
(** ** Subspace alignment: the aligned source basis is no farther from the target basis than the source basis itself *)
Theorem C243_subspace_alignment : forall pca nc ns nt d Xs Xt st, (forall k rows X, k <= rows -> k <= d -> SubSpec.orthonormal_rows k d (pca k rows d X)) ->
  SubModel.sa_fit pca nc ns nt d Xs Xt = Ok st -> let k := SubModel.sa_k st in
  (SubSpec.frob_dist d k (fun i j => sigma k (fun a => SubModel.sa_Ps st a i * SubModel.sa_M st a j)) (fun i j => SubModel.sa_Pt st j i) <=
   SubSpec.frob_dist d k (fun i j => SubModel.sa_Ps st j i) (fun i j => SubModel.sa_Pt st j i))%R.
Proof.
  intros pca nc ns nt d Xs Xt st HP E k. destruct (ThmSub.C125_alignment_is_closest pca nc ns nt d Xs Xt st HP E) as (_ & _ & _ & Q).
  eapply Rle_trans; [apply (Q (fun a b => if a =? b then 1%R else 0%R))|]. fold k. right. unfold SubSpec.frob_dist.
  rewrite !sigma_msum. apply msum_ext. intros i Hi. rewrite !sigma_msum. apply msum_ext. intros j Hj.
  assert (S : sigma k (fun a => SubModel.sa_Ps st a i * (if a =? j then 1 else 0))%R = SubModel.sa_Ps st j i).
  { rewrite sigma_msum. exact (msum_delta k (fun a => SubModel.sa_Ps st a i) j Hj). }
  now rewrite S.
Qed.

(** ** CORAL: without shrinkage the covariances agree afterwards; with reg=1 they can be farther apart than before *)
Lemma msum_null k f : (forall i, i < k -> f i = 0%R) -> msum k f = 0%R.
Proof. intros H. rewrite (msum_ext k f (fun _ => 0%R) H). apply msum_zero. Qed.
Theorem C243_coral : forall eigh n ms mt Xs Xt, eigensolver n eigh -> 0 < ms -> 0 < mt -> pos_def n (cov_of ms Xs) ->
  let Zs := coral_map_source eigh false n ms mt Xs Xt Xs in let Zt := coral_map_target false mt Xt Xt in
  SubSpec.frob_dist n n (cov_of ms Zs) (cov_of mt Zt) = 0%R /\
  (SubSpec.frob_dist n n (cov_of ms Zs) (cov_of mt Zt) <= SubSpec.frob_dist n n (cov_of ms Xs) (cov_of mt Xt))%R.
Proof.
  intros eigh n ms mt Xs Xt HE Hs Ht HP Zs Zt.
  assert (Z : SubSpec.frob_dist n n (cov_of ms Zs) (cov_of mt Zt) = 0%R).
  { unfold SubSpec.frob_dist. rewrite sigma_msum. apply msum_null. intros i Hi. rewrite sigma_msum. apply msum_null. intros j Hj.
    destruct (ThmMap.C86_covariance_match eigh n ms mt Xs Xt HE Hs Ht HP i j Hi Hj) as (_ & _ & A & B). fold Zs in A. fold Zt in B. rewrite A, B. ring. }
  split; [exact Z|]. rewrite Z. unfold SubSpec.frob_dist. rewrite sigma_msum. apply msum_nonneg. intros i Hi. rewrite sigma_msum. apply msum_nonneg. intros j Hj. apply Rle_0_sqr.
Qed.
Definition flat : mat := fun i j => match i, j with 0, 0 => 1%R | 1, 0 => (-1)%R | _, _ => 0%R end.
Definition tall : mat := fun i j => match i, j with 0, 0 => 1%R | 1, 0 => (-1)%R | 2, 1 => 4%R | 3, 1 => (-4)%R | _, _ => 0%R end.
Theorem C243_coral_refuted : forall lw eigh, eigensolver 2 eigh -> exists W, CovModel.coral_fit lw eigh 2 2 4 flat tall (CovModel.ShNum 1) false = Ok W /\
  (SubSpec.frob_dist 2 2 (cov_of 2 flat) (cov_of 4 tall) < SubSpec.frob_dist 2 2 (cov_of 2 (CoralRegModel.coral_rows false 2 (mean_of 2 flat) W flat)) (cov_of 4 tall))%R.
Proof.
  intros lw eigh HE. 
  assert (S1 : ThmCoralReg.spread false 2 2 flat = (1/2)%R) by (unfold ThmCoralReg.spread, cov_of, mean_of; cbn; field).
  assert (S2 : ThmCoralReg.spread false 2 4 tall = (17/4)%R) by (unfold ThmCoralReg.spread, cov_of, mean_of; cbn; field).
  destruct (ThmCoralReg.C208_one lw eigh 2 2 4 flat tall false HE ltac:(lia) ltac:(lia) ltac:(lia) ltac:(rewrite S1; lra)) as (W & E & Q & _). exists W. split; [exact E|].
  rewrite S1, S2 in Q. set (q := sqrt (17 / 4 / (1 / 2))) in Q. assert (QQ : (q * q = 17/2)%R) by (unfold q; rewrite sqrt_sqrt; lra).
  assert (M : mean_of 2 flat 0 = 0%R /\ mean_of 2 flat 1 = 0%R) by (unfold mean_of; cbn; lra). destruct M as [M0 M1].
  set (Z := CoralRegModel.coral_rows false 2 (mean_of 2 flat) W flat).
  assert (Z00 : Z 0 0 = q) by (unfold Z; rewrite Q by lia; rewrite M0; cbn; ring).
  assert (Z10 : Z 1 0 = (- q)%R) by (unfold Z; rewrite Q by lia; rewrite M0; cbn; ring).
  assert (Z01 : Z 0 1 = 0%R) by (unfold Z; rewrite Q by lia; rewrite M1; cbn; ring).
  assert (Z11 : Z 1 1 = 0%R) by (unfold Z; rewrite Q by lia; rewrite M1; cbn; ring).
  assert (C00 : cov_of 2 Z 0 0 = (17/2)%R) by (unfold cov_of, mean_of; cbn -[Z]; rewrite ?Z00, ?Z10; field_simplify; nra).
  assert (C01 : cov_of 2 Z 0 1 = 0%R) by (unfold cov_of, mean_of; cbn -[Z]; rewrite ?Z00, ?Z10, ?Z01, ?Z11; field).
  assert (C10 : cov_of 2 Z 1 0 = 0%R) by (unfold cov_of, mean_of; cbn -[Z]; rewrite ?Z00, ?Z10, ?Z01, ?Z11; field).
  assert (C11 : cov_of 2 Z 1 1 = 0%R) by (unfold cov_of, mean_of; cbn -[Z]; rewrite ?Z01, ?Z11; field).
  assert (T : cov_of 4 tall 0 0 = (1/2)%R /\ cov_of 4 tall 0 1 = 0%R /\ cov_of 4 tall 1 0 = 0%R /\ cov_of 4 tall 1 1 = 8%R) by (unfold cov_of, mean_of; cbn; repeat split; field).
  assert (F : cov_of 2 flat 0 0 = 1%R /\ cov_of 2 flat 0 1 = 0%R /\ cov_of 2 flat 1 0 = 0%R /\ cov_of 2 flat 1 1 = 0%R) by (unfold cov_of, mean_of; cbn; repeat split; field).
  destruct T as (T0 & T1 & T2 & T3), F as (F0 & F1 & F2 & F3).
  unfold SubSpec.frob_dist. cbn -[Z cov_of]. rewrite C00, C01, C10, C11, T0, T1, T2, T3, F0, F1, F2, F3. lra.
Qed.

(** ** Examples *)
Example C243_ex_kmm : (mmd2 1 (fun (x : R) (_ : nat) => x) [0; 2] [1; 2] [2] <= mmd2 1 (fun (x : R) (_ : nat) => x) (repeat 1 2) [1; 2] [2])%R.
Proof.
  exact (C243_kmm R 1 (fun (x : R) (_ : nat) => x) Rmult (guarded [0; 2]%R) 1000 (Some (1/2)%R) 100 [1; 2; 2]%R (SDArr [1; 1; -2]%Z) [0; 2]%R [1; 2]%R line_kernel (guarded_minimises _)
    ltac:(lra) ltac:(intros e [= <-]; lra) (proj1 C177_ex_scipy) ltac:(discriminate) ltac:(discriminate)).
Qed.
Example C243_ex_coral : exists eigh W, eigensolver 2 eigh /\ CovModel.coral_fit (fun _ _ _ => 0%R) eigh 2 2 4 flat tall (CovModel.ShNum 1) false = Ok W.
Proof. destruct (ThmSpectral.C86_eigensolver_exists 2) as [eigh HE]. exists eigh. destruct (C243_coral_refuted (fun _ _ _ => 0%R) eigh HE) as (W & E & _). eauto. Qed.
