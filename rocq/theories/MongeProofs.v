From Coq Require Import List ZArith Bool Arith Lia Reals Lra.
From Verif Require Import Np MapModel MapSpec MapProofs2 RMat CovSpec CovProofs MongeModel.
Import ListNotations.
Local Open Scope R_scope.

Definition delta : mat := fun i j => if (i =? j)%nat then 1 else 0.
Lemma mmul_delta_l n A i j : (i < n)%nat -> mmul n delta A i j = A i j.
Proof.
  intros H. unfold mmul, delta. rewrite (msum_ext n _ (fun l => A l j * (if (l =? i)%nat then 1 else 0))).
  - now rewrite (msum_delta n (fun l => A l j) i H). - intros l _. rewrite Nat.eqb_sym. ring.
Qed.
Lemma mmul_delta_r n A i j : (j < n)%nat -> mmul n A delta i j = A i j.
Proof. intros H. unfold mmul, delta. now rewrite (msum_delta n (fun l => A i l) j H). Qed.

(** ** The roots. *)
Section Roots.
  Variables (eigh : mat -> (nat -> R) * mat) (n : nat).
  Lemma sqrtm_sym C i j : sqrtm eigh n C i j = sqrtm eigh n C j i.
  Proof. unfold sqrtm. destruct (eigh C) as [w V]. apply msum_ext. intros. unfold mT. ring. Qed.
  Lemma invsqrtm_sym C i j : invsqrtm eigh n C i j = invsqrtm eigh n C j i.
  Proof. unfold invsqrtm. destruct (eigh C) as [w V]. apply msum_ext. intros. unfold mT, Rdiv. ring. Qed.
  Hypothesis HE : eigensolver n eigh.
  Lemma sqrtm_sq C : (forall i j, C i j = C j i) -> pos_semidef n C -> meq n n (mmul n (sqrtm eigh n C) (sqrtm eigh n C)) C.
  Proof.
    intros S P i j Hi Hj. rewrite <- (sqrtm_spec eigh n C HE S P i j Hi Hj). apply msum_ext. intros k _. unfold mT. now rewrite (sqrtm_sym C k i).
  Qed.
  Lemma roots_inverse C : (forall i j, C i j = C j i) -> pos_def n C ->
    meq n n (mmul n (invsqrtm eigh n C) (sqrtm eigh n C)) delta /\ meq n n (mmul n (sqrtm eigh n C) (invsqrtm eigh n C)) delta.
  Proof.
    intros S P. unfold invsqrtm, sqrtm. pose proof (HE C S) as D. destruct (eigh C) as [w V]. pose proof (eigen_pos n C w V D P) as W.
    assert (O : forall a b, (a < n)%nat -> (b < n)%nat -> msum n (fun k => V k a * V k b) = if (a =? b)%nat then 1 else 0).
    { intros a b Ha Hb. destruct (D a b Ha Hb) as [_ [O _]]. now rewrite sigma_msum in O. }
    assert (Q1 : forall a b, mmul n (fun i k => V i k * 1 / sqrt (w k)) (mT V) a b = spectral n V (fun k => / sqrt (w k)) a b).
    { intros. apply msum_ext. intros. unfold mT, Rdiv. ring. }
    assert (Q2 : forall a b, mmul n (fun i k => V i k * sqrt (w k)) (mT V) a b = spectral n V (fun k => sqrt (w k)) a b).
    { intros. apply msum_ext. intros. unfold mT. ring. }
    split; intros i j Hi Hj.
    - transitivity (mmul n (spectral n V (fun k => / sqrt (w k))) (spectral n V (fun k => sqrt (w k))) i j); [apply mmul_ext; auto|].
      rewrite spectral_mul by auto. destruct (D i j Hi Hj) as [_ [_ O']]. rewrite sigma_msum in O'. unfold delta. rewrite <- O'. apply msum_ext. intros k Hk.
      field. assert (0 < sqrt (w k)) by (apply sqrt_lt_R0; auto). lra.
    - transitivity (mmul n (spectral n V (fun k => sqrt (w k))) (spectral n V (fun k => / sqrt (w k))) i j); [apply mmul_ext; auto|].
      rewrite spectral_mul by auto. destruct (D i j Hi Hj) as [_ [_ O']]. rewrite sigma_msum in O'. unfold delta. rewrite <- O'. apply msum_ext. intros k Hk.
      field. assert (0 < sqrt (w k)) by (apply sqrt_lt_R0; auto). lra.
  Qed.

  Definition mv (A : mat) (v : nat -> R) : nat -> R := fun i => msum n (fun j => A i j * v j).
  Definition ip (u v : nat -> R) : R := msum n (fun i => u i * v i).
  Lemma qf_ip C v : qf n C v = ip v (mv C v).
  Proof. unfold qf, ip, mv. apply msum_ext. intros i _. rewrite <- msum_scal. apply msum_ext. intros; ring. Qed.
  Lemma ip_mv_sym A u v : (forall i j, A i j = A j i) -> ip (mv A u) v = ip u (mv A v).
  Proof.
    intros S. unfold ip, mv. rewrite (msum_ext n _ (fun i => msum n (fun j => u j * A j i * v i))).
    2:{ intros i _. rewrite <- msum_scal_r. apply msum_ext. intros j _. rewrite (S i j). ring. }
    rewrite msum_swap. apply msum_ext. intros i _. rewrite <- msum_scal. apply msum_ext. intros; ring.
  Qed.
  Lemma mv_mmul A B v i : mv (mmul n A B) v i = mv A (mv B v) i.
  Proof.
    unfold mv, mmul. rewrite (msum_ext n _ (fun j => msum n (fun l => A i l * B l j * v j))).
    2:{ intros j _. now rewrite <- msum_scal_r. }
    rewrite msum_swap. apply msum_ext. intros l _. rewrite <- msum_scal. apply msum_ext. intros; ring.
  Qed.
  Lemma ip_ext u u' v v' : (forall i, (i < n)%nat -> u i = u' i) -> (forall i, (i < n)%nat -> v i = v' i) -> ip u v = ip u' v'.
  Proof. intros H1 H2. apply msum_ext. intros i Hi. now rewrite H1, H2. Qed.
  Lemma mv_ext A A' v v' i : (i < n)%nat -> meq n n A A' -> (forall j, (j < n)%nat -> v j = v' j) -> mv A v i = mv A' v' i.
  Proof. intros Hi H1 H2. apply msum_ext. intros j Hj. now rewrite H1, H2. Qed.
  (** S C S is non-negative when C is. *)
  Lemma sandwich_psd S C : (forall i j, S i j = S j i) -> pos_semidef n C -> pos_semidef n (mmul n (mmul n S C) S).
  Proof.
    intros HS P v. rewrite qf_sigma, qf_ip. rewrite (ip_ext v v (mv (mmul n (mmul n S C) S) v) (mv S (mv C (mv S v)))); auto.
    - rewrite <- ip_mv_sym by auto. specialize (P (mv S v)). now rewrite qf_sigma, qf_ip in P.
    - intros i _. rewrite mv_mmul, mv_mmul. reflexivity.
  Qed.
  Lemma sandwich_sym S C : (forall i j, S i j = S j i) -> (forall i j, C i j = C j i) -> forall i j, mmul n (mmul n S C) S i j = mmul n (mmul n S C) S j i.
  Proof.
    intros HS HC i j. rewrite mmul_assoc. rewrite mmul_T. apply msum_ext. intros l _. unfold mT at 2. rewrite (HS i l). f_equal. unfold mT. rewrite mmul_T.
    apply msum_ext. intros a _. unfold mT. now rewrite (HS a j), (HC l a).
  Qed.
  (** The non-negative square root is unique. *)
  Lemma root_unique A B : (forall i j, A i j = A j i) -> (forall i j, B i j = B j i) -> pos_semidef n A -> pos_semidef n B ->
    meq n n (mmul n A A) (mmul n B B) -> meq n n A B.
  Proof.
    intros SA SB PA PB E. set (D := fun i j => A i j - B i j). assert (SD : forall i j, D i j = D j i) by (intros; unfold D; now rewrite SA, SB).
    pose proof (HE D SD) as HD. destruct (eigh D) as [w V] eqn:EE.
    assert (Z : forall k, (k < n)%nat -> w k = 0).
    { intros k Hk. pose proof (eigen_quadratic n D w V k HD Hk) as Q. rewrite qf_sigma in Q. set (v := fun i => V i k) in *. change (qf n D v = w k) in Q.
      assert (EV : forall i, (i < n)%nat -> mv D v i = w k * v i).
      { intros i Hi. unfold mv, v. rewrite (msum_ext n _ (fun j => msum n (fun a => (V i a * w a) * (V j a * V j k)))).
        2:{ intros j Hj. destruct (HD i j Hi Hj) as [E1 _]. rewrite E1, sigma_msum. rewrite <- msum_scal_r. apply msum_ext. intros; ring. }
        rewrite msum_swap. rewrite (msum_ext n _ (fun a => (V i a * w a) * (if (a =? k)%nat then 1 else 0))).
        2:{ intros a Ha. rewrite msum_scal. destruct (HD a k Ha Hk) as [_ [O _]]. rewrite sigma_msum in O. now rewrite O. }
        rewrite (msum_delta n (fun a => V i a * w a) k Hk). ring. }
      pose proof (PA v) as QA. pose proof (PB v) as QB. rewrite qf_sigma in QA, QB.
      assert (DQ : qf n D v = qf n A v - qf n B v).
      { unfold qf, D. assert (X : msum n (fun i => msum n (fun j => v i * (A i j - B i j) * v j)) + msum n (fun i => msum n (fun j => v i * B i j * v j)) =
          msum n (fun i => msum n (fun j => v i * A i j * v j))); [|lra]. rewrite <- msum_plus. apply msum_ext. intros i _. rewrite <- msum_plus. apply msum_ext. intros; ring. }
      (* v'(D A + B D) v = 0 *)
      assert (K : w k * qf n A v + w k * qf n B v = 0).
      { transitivity (ip v (mv D (mv A v)) + ip v (mv B (mv D v))).
        - f_equal.
          + rewrite <- ip_mv_sym by auto. rewrite (ip_ext (mv D v) (fun i => w k * v i) (mv A v) (mv A v)); auto. rewrite qf_ip. unfold ip. rewrite <- msum_scal. apply msum_ext. intros; ring.
          + rewrite <- ip_mv_sym by auto. rewrite (ip_ext (mv B v) (mv B v) (mv D v) (fun i => w k * v i)); auto. rewrite qf_ip. unfold ip. rewrite <- msum_scal. apply msum_ext. intros; ring.
        - assert (Y : forall i, (i < n)%nat -> mv D (mv A v) i + mv B (mv D v) i = 0).
          { intros i Hi.
            assert (E1 : mv D (mv A v) i = mv (mmul n A A) v i - mv B (mv A v) i).
            { rewrite mv_mmul. unfold mv at 1, D. assert (X : msum n (fun j => (A i j - B i j) * mv A v j) + msum n (fun j => B i j * mv A v j) = msum n (fun j => A i j * mv A v j)).
              { rewrite <- msum_plus. apply msum_ext. intros; ring. } unfold mv in *. lra. }
            assert (E2 : mv B (mv D v) i = mv B (mv A v) i - mv (mmul n B B) v i).
            { rewrite mv_mmul. assert (X : msum n (fun j => B i j * mv D v j) + msum n (fun j => B i j * mv B v j) = msum n (fun j => B i j * mv A v j)).
              { rewrite <- msum_plus. apply msum_ext. intros j _. rewrite <- Rmult_plus_distr_l. f_equal. unfold mv, D. rewrite <- msum_plus. apply msum_ext. intros; ring. }
              unfold mv in *. lra. }
            rewrite E1, E2. rewrite (mv_ext (mmul n A A) (mmul n B B) v v i Hi E) by auto. ring. }
          unfold ip. rewrite <- msum_plus. rewrite (msum_ext n _ (fun _ => 0)); [apply msum_zero|]. intros i Hi. rewrite <- Rmult_plus_distr_l, Y by auto. ring. }
      destruct (Req_dec (w k) 0) as [|N]; auto. exfalso. assert (qf n A v + qf n B v = 0). { apply (Rmult_eq_reg_l (w k)); auto. rewrite Rmult_plus_distr_l. lra. }
      lra. }
    intros i j Hi Hj. destruct (HD i j Hi Hj) as [E1 _]. rewrite sigma_msum in E1. rewrite (msum_ext n _ (fun _ => 0)) in E1.
    - rewrite msum_zero in E1. unfold D in E1. lra.
    - intros k Hk. rewrite Z by auto. ring.
  Qed.

  (** ** The map to the barycentre. *)
  Lemma bw_sym ms mt Cs Ct i j : fst (bw_mapping eigh n ms mt Cs Ct) i j = fst (bw_mapping eigh n ms mt Cs Ct) j i.
  Proof. cbn [bw_mapping fst]. apply sandwich_sym; intros; [apply invsqrtm_sym|apply sqrtm_sym]. Qed.
  Lemma bw_moment ms mt Cs Ct : (forall i j, Cs i j = Cs j i) -> pos_def n Cs -> (forall i j, Ct i j = Ct j i) -> pos_semidef n Ct ->
    let A := fst (bw_mapping eigh n ms mt Cs Ct) in meq n n (mmul n (mmul n (mT A) Cs) A) Ct.
  Proof.
    intros S1 P1 S2 P2. cbn [bw_mapping fst]. set (S := sqrtm eigh n Cs). set (S' := invsqrtm eigh n Cs). set (M := sqrtm eigh n (mmul n (mmul n S Ct) S)). cbv zeta.
    destruct (roots_inverse Cs S1 P1) as (I1 & I2). fold S in I1, I2. fold S' in I1, I2.
    assert (PS : pos_semidef n Cs). { intros v. destruct (classic_zero n v) as [Z|Z]; [rewrite Z; lra|]. apply Rlt_le. now apply P1. }
    assert (SQ : meq n n (mmul n S S) Cs) by now apply sqrtm_sq.
    assert (MM : meq n n (mmul n M M) (mmul n (mmul n S Ct) S)).
    { apply sqrtm_sq; [apply sandwich_sym; auto; intros; apply sqrtm_sym|apply sandwich_psd; auto; intros; apply sqrtm_sym]. }
    set (A := mmul n (mmul n S' M) S'). assert (AT : meq n n (mT A) A).
    { intros i j _ _. unfold mT, A. apply sandwich_sym; intros; [apply invsqrtm_sym|apply sqrtm_sym]. }
    (* S' Cs S' = 1 *)
    assert (W : meq n n (mmul n (mmul n S' Cs) S') delta).
    { intros i j Hi Hj. transitivity (mmul n (mmul n (mmul n S' S) (mmul n S S')) delta i j).
      - rewrite mmul_delta_r by auto. rewrite (mmul_assoc n n S' S). rewrite (mmul_assoc n n S' Cs S' i j). apply mmul_ext; auto. intros l Hl. rewrite <- (mmul_assoc n n S S S').
        apply mmul_ext; auto. intros a Ha. now rewrite SQ.
      - rewrite mmul_delta_r by auto. rewrite (mmul_meq n n n _ delta _ delta I1 I2 i j Hi Hj). now apply mmul_delta_l. }
    intros i j Hi Hj.
    transitivity (mmul n (mmul n A Cs) A i j). { apply mmul_ext; auto. intros l Hl. apply mmul_ext; auto. }
    (* ((S' M) S') Cs ((S' M) S') = (S' M) (S' Cs S') (M S') *)
    transitivity (mmul n (mmul n S' M) (mmul n M S') i j).
    { unfold A.
      transitivity (mmul n (mmul n (mmul n S' M) (mmul n S' Cs)) (mmul n S' (mmul n M S')) i j).
      { apply mmul_ext; intros; apply mmul_assoc. }
      rewrite mmul_assoc. apply mmul_ext; auto. intros l Hl. rewrite <- mmul_assoc.
      rewrite (mmul_ext n _ delta _ (mmul n M S') l j); auto. now apply mmul_delta_l. }
    transitivity (mmul n S' (mmul n (mmul n M M) S') i j).
    { rewrite mmul_assoc. apply mmul_ext; auto. intros l Hl. symmetry. apply mmul_assoc. }
    transitivity (mmul n S' (mmul n (mmul n (mmul n S Ct) S) S') i j).
    { apply mmul_ext; auto. intros l Hl. apply mmul_ext; auto. }
    transitivity (mmul n S' (mmul n S Ct) i j).
    { apply mmul_ext; auto. intros l Hl. rewrite mmul_assoc. rewrite (mmul_ext n _ (mmul n S Ct) _ delta l j); auto. now apply mmul_delta_r. }
    rewrite <- mmul_assoc. rewrite (mmul_ext n _ delta _ Ct i j); auto. now apply mmul_delta_l.
  Qed.
  (** From a Gaussian to itself: the identity. *)
  Lemma bw_identity ms mt Cs Ct : (forall i j, Cs i j = Cs j i) -> pos_def n Cs -> (forall i j, Ct i j = Ct j i) -> meq n n Ct Cs -> (forall j, (j < n)%nat -> mt j = ms j) ->
    meq n n (fst (bw_mapping eigh n ms mt Cs Ct)) delta /\ (forall j, (j < n)%nat -> snd (bw_mapping eigh n ms mt Cs Ct) j = 0).
  Proof.
    intros S1 P1 S2 EC Em.
    assert (PS : pos_semidef n Cs). { intros v. destruct (classic_zero n v) as [Z|Z]; [rewrite Z; lra|]. apply Rlt_le. now apply P1. }
    assert (G : meq n n (fst (bw_mapping eigh n ms mt Cs Ct)) delta).
    { cbn [bw_mapping fst]. set (S := sqrtm eigh n Cs). set (S' := invsqrtm eigh n Cs).
      destruct (roots_inverse Cs S1 P1) as (I1 & I2). fold S in I1, I2. fold S' in I1, I2.
      assert (SQ : meq n n (mmul n S S) Cs) by now apply sqrtm_sq.
      set (B := mmul n (mmul n S Ct) S). assert (SB : forall i j, B i j = B j i) by (apply sandwich_sym; auto; intros; apply sqrtm_sym).
      assert (BE : meq n n B (mmul n Cs Cs)).
      { intros i j Hi Hj. unfold B. transitivity (mmul n (mmul n S (mmul n S S)) S i j).
        - apply mmul_ext; auto. intros l Hl. apply mmul_ext; auto. intros a Ha. rewrite EC, SQ; auto.
        - transitivity (mmul n (mmul n S S) (mmul n S S) i j).
          + rewrite <- mmul_assoc. apply mmul_ext; auto. intros l Hl. symmetry. apply mmul_assoc.
          + apply mmul_ext; auto. }
      assert (PB : pos_semidef n B).
      { apply sandwich_psd; [intros; apply sqrtm_sym|]. intros v. rewrite qf_sigma. specialize (PS v). rewrite qf_sigma in PS. replace (qf n Ct v) with (qf n Cs v); auto.
        apply msum_ext. intros i Hi. apply msum_ext. intros j Hj. now rewrite EC. }
      assert (RM : meq n n (sqrtm eigh n B) Cs).
      { apply root_unique; auto; [apply sqrtm_sym| |].
        - intros v. unfold sqrtm. pose proof (HE B SB) as D. destruct (eigh B) as [w V]. rewrite qf_sigma.
          assert (E1 : qf n (mmul n (fun i k => V i k * sqrt (w k)) (mT V)) v = msum n (fun k => sqrt (w k) * (msum n (fun i => v i * V i k) * msum n (fun i => v i * V i k)))).
          { unfold qf. rewrite (msum_ext n _ (fun i => msum n (fun k => sqrt (w k) * (v i * V i k) * msum n (fun j => v j * V j k)))).
            2:{ intros i _. rewrite (msum_ext n _ (fun j => msum n (fun k => (sqrt (w k) * (v i * V i k)) * (v j * V j k)))).
                2:{ intros j _. unfold mmul, mT. rewrite <- msum_scal, <- msum_scal_r. apply msum_ext. intros; ring. }
                rewrite msum_swap. apply msum_ext. intros k _. apply msum_scal. }
            rewrite msum_swap. apply msum_ext. intros k _. rewrite msum_scal_r, msum_scal. ring. }
          rewrite E1. apply msum_nonneg. intros k _. apply Rmult_le_pos; [apply sqrt_pos|apply Rle_0_sqr].
        - intros i j Hi Hj. rewrite sqrtm_sq by auto. now apply BE. }
      intros i j Hi Hj. transitivity (mmul n (mmul n S' (mmul n S S)) S' i j).
      { apply mmul_ext; auto. intros l Hl. apply mmul_ext; auto. intros a Ha. rewrite RM, SQ; auto. }
      transitivity (mmul n (mmul n S' S) (mmul n S S') i j).
      { rewrite <- mmul_assoc. apply mmul_ext; auto. intros l Hl. symmetry. apply mmul_assoc. }
      rewrite (mmul_meq n n n _ delta _ delta I1 I2 i j Hi Hj). now apply mmul_delta_l. }
    split; auto. intros j Hj. cbn [bw_mapping snd]. rewrite (msum_ext n _ (fun k => ms k * delta k j)).
    2:{ intros k Hk. f_equal. exact (G k j Hk Hj). }
    change (mt j - mmul n (fun _ k => ms k) delta 0%nat j = 0). rewrite mmul_delta_r by auto. rewrite Em by auto. ring.
  Qed.
End Roots.

(** ** Moments of an affine image. *)
Lemma mean_affine n m (X A : mat) b j : (0 < m)%nat -> mean_of m (fun i j => mmul n X A i j + b j) j = msum n (fun k => mean_of m X k * A k j) + b j.
Proof.
  intros Hm. unfold mean_of. rewrite !sigma_msum. rewrite msum_plus, msum_const. unfold mmul. rewrite msum_swap.
  assert (INR m <> 0) by (apply not_0_INR; lia). rewrite (msum_ext n (fun k => msum m (fun i => X i k * A k j)) (fun k => msum m (fun i => X i k) / INR m * A k j * INR m)).
  - rewrite msum_scal_r. transitivity (msum n (fun k => msum m (fun i => X i k) / INR m * A k j) + b j); [field; auto|]. reflexivity.
  - intros k _. rewrite msum_scal_r. field. auto.
Qed.
Lemma cov_affine n m (X A : mat) b j l : (0 < m)%nat ->
  cov_of m (fun i j => mmul n X A i j + b j) j l = mmul n (mmul n (mT A) (cov_of m X)) A j l.
Proof.
  intros Hm. set (Y := fun i a => X i a - mean_of m X a).
  assert (E : forall i c, (mmul n X A i c + b c) - mean_of m (fun i j => mmul n X A i j + b j) c = mmul n Y A i c).
  { intros i c. rewrite mean_affine by auto. unfold mmul, Y. assert (Z : msum n (fun k => (X i k - mean_of m X k) * A k c) + msum n (fun k => mean_of m X k * A k c) = msum n (fun k => X i k * A k c)).
    { rewrite <- msum_plus. apply msum_ext. intros; ring. } lra. }
  unfold cov_of at 1. rewrite sigma_msum. rewrite (msum_ext m _ (fun i => mmul n Y A i j * mmul n Y A i l)) by (intros; now rewrite !E).
  rewrite moment_mul. reflexivity.
Qed.
