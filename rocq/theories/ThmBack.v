(** C200: exchanging source and target inverts the alignment. *)
From Coq Require Import List ZArith Bool Arith Lia Reals Lra Setoid Morphisms.
From Verif Require Import Np NpFacts MapModel MapSpec MapProofs2 RMat CovSpec CovProofs MongeModel MongeProofs ThmMap ThmMonge ThmSame ThmTwice.
Import ListNotations.
Local Open Scope nat_scope.

(** ** Matrices up to equality of the first [n] rows and columns. *)
#[local] Instance meq_equiv n : Equivalence (meq n n).
Proof. split; [intros A i j _ _; reflexivity|intros A B; apply meq_sym|intros A B C; apply meq_trans]. Qed.
#[local] Instance mmul_proper n : Proper (meq n n ==> meq n n ==> meq n n) (mmul n).
Proof. intros A A' H B B' H'. now apply mmul_meq. Qed.
Lemma massoc n A B C : meq n n (mmul n (mmul n A B) C) (mmul n A (mmul n B C)).
Proof. intros i j _ _. apply mmul_assoc. Qed.
Lemma m1l n A : meq n n (mmul n delta A) A. Proof. intros i j Hi Hj. now apply mmul_delta_l. Qed.
Lemma m1r n A : meq n n (mmul n A delta) A. Proof. intros i j Hi Hj. now apply mmul_delta_r. Qed.
Definition symm (A : mat) : Prop := forall i j, A i j = A j i.
Lemma mT_symm n A : symm A -> meq n n (mT A) A. Proof. intros S i j _ _. unfold mT. apply S. Qed.

Section Back.
  Variables (eigh : mat -> (nat -> R) * mat) (n : nat).
  Hypothesis HE : eigensolver n eigh.
  Lemma pd_psd C : pos_def n C -> pos_semidef n C.
  Proof. intros P v. destruct (classic_zero n v) as [Z|Z]; [rewrite Z; lra|]. apply Rlt_le. now apply P. Qed.
  Lemma psd_ext C C' : meq n n C C' -> pos_semidef n C -> pos_semidef n C'.
  Proof. intros E P v. specialize (P v). rewrite qf_sigma in *. replace (qf n C' v) with (qf n C v); auto. apply msum_ext. intros i Hi. apply msum_ext. intros j Hj. now rewrite E. Qed.
  Lemma spectral_psd V (g : nat -> R) : (forall k, k < n -> (0 <= g k)%R) -> pos_semidef n (mmul n (fun i k => V i k * g k)%R (mT V)).
  Proof.
    intros G v. rewrite qf_sigma.
    assert (E1 : qf n (mmul n (fun i k => V i k * g k)%R (mT V)) v = msum n (fun k => g k * (msum n (fun i => v i * V i k) * msum n (fun i => v i * V i k)))%R).
    { unfold qf. rewrite (msum_ext n _ (fun i => msum n (fun k => g k * (v i * V i k) * msum n (fun j => v j * V j k))%R)).
      2:{ intros i _. rewrite (msum_ext n _ (fun j => msum n (fun k => (g k * (v i * V i k)) * (v j * V j k))%R)).
          2:{ intros j _. unfold mmul, mT. rewrite <- msum_scal, <- msum_scal_r. apply msum_ext. intros; ring. }
          rewrite msum_swap. apply msum_ext. intros k _. apply msum_scal. }
      rewrite msum_swap. apply msum_ext. intros k _. rewrite msum_scal_r, msum_scal. ring. }
    rewrite E1. apply msum_nonneg. intros k Hk. apply Rmult_le_pos; [auto|apply Rle_0_sqr].
  Qed.
  Lemma sqrtm_psd C : pos_semidef n (sqrtm eigh n C).
  Proof. unfold sqrtm. destruct (eigh C) as [w V]. apply spectral_psd. intros; apply sqrt_pos. Qed.
  Lemma invsqrtm_psd C : symm C -> pos_def n C -> pos_semidef n (invsqrtm eigh n C).
  Proof.
    intros S P. unfold invsqrtm. pose proof (HE C S) as D. destruct (eigh C) as [w V]. pose proof (eigen_pos n C w V D P) as W.
    eapply psd_ext; [|apply (spectral_psd V (fun k => 1 / sqrt (w k))%R)].
    - intros i j _ _. apply msum_ext. intros; unfold Rdiv; ring.
    - intros k Hk. apply Rlt_le. apply Rdiv_lt_0_compat; [lra|]. apply sqrt_lt_R0. auto.
  Qed.
  Lemma sandwich_pd S S' C : symm S -> meq n n (mmul n S' S) delta -> pos_def n C -> pos_def n (mmul n (mmul n S C) S).
  Proof.
    intros HS HI P v (i0 & Hi & Hv). rewrite qf_sigma, (qf_ip n). rewrite (ip_ext n v v (mv n (mmul n (mmul n S C) S) v) (mv n S (mv n C (mv n S v)))); auto.
    2:{ intros i _. rewrite mv_mmul, mv_mmul. reflexivity. }
    rewrite <- ip_mv_sym by auto. assert (N : exists i, i < n /\ mv n S v i <> 0%R).
    { destruct (classic_zero n (mv n S v)) as [Z|Z]; [|exact Z]. exfalso. apply Hv.
      assert (Q : forall i, i < n -> mv n S v i = 0%R).
      { intros i Hi'. specialize (Z delta). rewrite qf_sigma in Z. assert (E : qf n delta (mv n S v) = msum n (fun i => mv n S v i * mv n S v i)%R).
        { rewrite qf_ip. apply ip_ext; auto. intros a Ha. unfold mv at 1. rewrite (msum_ext n _ (fun j => mv n S v j * (if j =? a then 1 else 0))%R); [now apply msum_delta|].
          intros j _. unfold delta. rewrite Nat.eqb_sym. ring. }
        rewrite E in Z. destruct (Req_dec (mv n S v i) 0) as [|N]; auto. exfalso. pose proof (sumsq_pos n (mv n S v)) as SP. assert (0 < msum n (fun i => mv n S v i * mv n S v i))%R by (apply SP; eauto). lra. }
      transitivity (mv n delta v i0).
      { unfold mv. rewrite (msum_ext n _ (fun j => v j * (if j =? i0 then 1 else 0))%R); [now rewrite msum_delta|]. intros j _. unfold delta. rewrite Nat.eqb_sym. ring. }
      rewrite <- (mv_ext n (mmul n S' S) delta v v i0 Hi HI) by auto. rewrite mv_mmul. unfold mv at 1. rewrite (msum_ext n _ (fun _ => 0%R)); [apply msum_zero|]. intros j Hj. rewrite Q by auto. ring. }
    specialize (P _ N). now rewrite qf_sigma, qf_ip in P.
  Qed.
  Lemma bw_psd ms mt Cs Ct : pos_semidef n (fst (bw_mapping eigh n ms mt Cs Ct)).
  Proof. cbn [bw_mapping fst]. apply sandwich_psd; [apply invsqrtm_sym|apply sqrtm_psd]. Qed.
  (** The matrix of the map has a symmetric non-negative inverse. *)
  Lemma bw_inverse ms mt Cs Ct : symm Cs -> symm Ct -> pos_def n Cs -> pos_def n Ct ->
    exists V, symm V /\ pos_semidef n V /\ meq n n (mmul n (fst (bw_mapping eigh n ms mt Cs Ct)) V) delta /\ meq n n (mmul n V (fst (bw_mapping eigh n ms mt Cs Ct))) delta.
  Proof.
    intros S1 S2 P1 P2. cbn [bw_mapping fst]. set (S := sqrtm eigh n Cs). set (S' := invsqrtm eigh n Cs). set (Q := mmul n (mmul n S Ct) S).
    destruct (roots_inverse eigh n HE Cs S1 P1) as (I1 & I2). fold S in I1, I2. fold S' in I1, I2.
    assert (SQ : symm Q) by (intros i j; apply sandwich_sym; auto; intros; apply sqrtm_sym).
    assert (PQ : pos_def n Q) by (apply (sandwich_pd S S'); auto; intros i j; apply sqrtm_sym).
    destruct (roots_inverse eigh n HE Q SQ PQ) as (J1 & J2). set (M := sqrtm eigh n Q) in *. set (M' := invsqrtm eigh n Q) in *.
    exists (mmul n (mmul n S M') S). split; [|split; [|split]].
    - intros i j. apply sandwich_sym; intros; [apply sqrtm_sym|apply invsqrtm_sym].
    - apply sandwich_psd; [intros; apply sqrtm_sym|now apply invsqrtm_psd].
    - rewrite !massoc. rewrite <- (massoc n S' S). rewrite I1, m1l. rewrite <- (massoc n M M'). rewrite J2, m1l. exact I1.
    - rewrite !massoc. rewrite <- (massoc n S S'). rewrite I2, m1l. rewrite <- (massoc n M' M). rewrite J1, m1l. exact I2.
  Qed.
  Lemma bw_back ms mt ms' mt' Cs Ct Cs' Ct' : symm Cs -> symm Ct -> symm Cs' -> symm Ct' -> pos_def n Cs -> pos_def n Ct -> meq n n Cs' Cs -> meq n n Ct' Ct ->
    meq n n (mmul n (fst (bw_mapping eigh n ms mt Cs Ct')) (fst (bw_mapping eigh n ms' mt' Ct Cs'))) delta.
  Proof.
    intros S1 S2 S3 S4 P1 P2 E1 E2.
    assert (P3 : pos_def n Cs') by (eapply pd_ext; [symmetry; exact E1|auto]).
    assert (P4 : pos_def n Ct') by (eapply pd_ext; [symmetry; exact E2|auto]).
    destruct (bw_inverse ms mt Cs Ct' S1 S4 P1 P4) as (V & SV & PV & TV & VT).
    pose proof (bw_moment eigh n HE ms mt Cs Ct' S1 P1 S4 (pd_psd _ P4)) as MT. pose proof (bw_moment eigh n HE ms' mt' Ct Cs' S2 P2 S3 (pd_psd _ P3)) as MU. cbv zeta in MT, MU.
    pose proof (bw_psd ms' mt' Ct Cs') as PU. pose proof (bw_sym eigh n ms mt Cs Ct') as ST. pose proof (bw_sym eigh n ms' mt' Ct Cs') as SU.
    set (T := fst (bw_mapping eigh n ms mt Cs Ct')) in *. set (U := fst (bw_mapping eigh n ms' mt' Ct Cs')) in *.
    rewrite (mT_symm n T ST), E2 in MT. rewrite (mT_symm n U SU), E1 in MU.
    assert (MV : meq n n (mmul n (mmul n V Ct) V) Cs).
    { rewrite <- MT. rewrite !massoc. rewrite TV, m1r. rewrite <- (massoc n V T). rewrite VT. apply m1l. }
    destruct (roots_inverse eigh n HE Ct S2 P2) as (I1 & I2). pose proof (sqrtm_sq eigh n HE Ct S2 (pd_psd _ P2)) as SQ. pose proof (sqrtm_sym eigh n Ct) as SS.
    set (S := sqrtm eigh n Ct) in *. set (S' := invsqrtm eigh n Ct) in *.
    assert (R : meq n n (mmul n (mmul n S U) S) (mmul n (mmul n S V) S)).
    { apply (root_unique eigh n HE); try (intros; apply sandwich_sym; auto); try (apply sandwich_psd; auto).
      rewrite !massoc. rewrite <- (massoc n S S (mmul n U S)), <- (massoc n S S (mmul n V S)). rewrite SQ.
      rewrite <- (massoc n Ct U S), <- (massoc n Ct V S), <- (massoc n U _ S), <- (massoc n V _ S), <- (massoc n U Ct U), <- (massoc n V Ct V). rewrite MU, MV. reflexivity. }
    assert (UV : meq n n U V).
    { transitivity (mmul n S' (mmul n (mmul n (mmul n S U) S) S')).
      - rewrite !massoc. rewrite I2, m1r. rewrite <- (massoc n S' S U), I1, m1l. reflexivity.
      - rewrite R. rewrite !massoc. rewrite I2, m1r. rewrite <- (massoc n S' S V), I1, m1l. reflexivity. }
    rewrite UV. exact TV.
  Qed.
End Back.

(** ** CORAL. *)
Lemma there_and_back eigh n Cs Ct (Z : mat) i j : eigensolver n eigh -> symm Cs -> symm Ct -> pos_def n Cs -> pos_def n Ct -> j < n ->
  mmul n (mmul n (mmul n (mmul n Z (invsqrtm eigh n Cs)) (sqrtm eigh n Ct)) (invsqrtm eigh n Ct)) (sqrtm eigh n Cs) i j = Z i j.
Proof.
  intros HE S1 S2 P1 P2 Hj. destruct (roots_inverse eigh n HE Cs S1 P1) as (I1 & _). destruct (roots_inverse eigh n HE Ct S2 P2) as (_ & I2).
  set (P := invsqrtm eigh n Cs) in *. set (Q := sqrtm eigh n Ct) in *. set (P' := invsqrtm eigh n Ct) in *. set (Q' := sqrtm eigh n Cs) in *.
  transitivity (mmul n (mmul n Z P) Q' i j).
  - apply mmul_ext; auto. intros l Hl. rewrite mmul_assoc. rewrite (mmul_ext n _ (mmul n Z P) _ delta i l); auto. now apply mmul_delta_r.
  - rewrite mmul_assoc. rewrite (mmul_ext n Z Z _ delta i j); auto. now apply mmul_delta_r.
Qed.
Lemma emp_pd n m X : pos_def n (cov_of m X) -> pos_def n (emp_cov false m X).
Proof. intros P v Hv. erewrite sigma_ext2; [apply (P v Hv)|]. intros; now rewrite cov_emp. Qed.
Lemma emp_pd_c n m X : pos_def n (moment_of m X) -> pos_def n (emp_cov true m X).
Proof. intros P v Hv. erewrite sigma_ext2; [apply (P v Hv)|]. intros; now rewrite moment_emp. Qed.
(** assume_centered=True: a source row moved to the target by one adapter is moved back by the adapter fitted with exchanged roles. *)
Theorem C200_coral_centred : forall eigh n ms mt Xs Xt, eigensolver n eigh -> pos_def n (moment_of ms Xs) -> pos_def n (moment_of mt Xt) ->
  forall Z i j, j < n -> coral_map_source eigh true n mt ms Xt Xs (coral_map_source eigh true n ms mt Xs Xt Z) i j = Z i j.
Proof. intros eigh n ms mt Xs Xt HE Ps Pt Z i j Hj. unfold coral_map_source. apply there_and_back; auto using emp_pd_c; intros a b; apply emp_cov_sym. Qed.
(** Otherwise the adapter works relative to the means: what it returns for a source row, placed around the target's mean, is moved back to the row relative to the source's mean. *)
Theorem C200_coral : forall eigh n ms mt Xs Xt, eigensolver n eigh -> pos_def n (cov_of ms Xs) -> pos_def n (cov_of mt Xt) ->
  forall Z i j, j < n ->
  coral_map_source eigh false n mt ms Xt Xs (fun i j => coral_map_source eigh false n ms mt Xs Xt Z i j + mean_of mt Xt j)%R i j = (Z i j - mean_of ms Xs j)%R.
Proof.
  intros eigh n ms mt Xs Xt HE Ps Pt Z i j Hj. rewrite <- col_mean_of.
  rewrite <- (there_and_back eigh n (emp_cov false ms Xs) (emp_cov false mt Xt) (fun i j => Z i j - col_mean ms Xs j)%R i j); auto using emp_pd; try (intros a b; apply emp_cov_sym).
  unfold coral_map_source. apply mmul_ext; auto. intros l _. apply mmul_ext; auto. intros k _. rewrite <- col_mean_of. ring.
Qed.

(** ** Linear Monge alignment of one source and one target domain. Domain labels play no role, so both fits may use their own. *)
Theorem C200_monge : forall eigh bary n (bias : bool) a b c d ms Xs mt Xt,
  eigensolver n eigh -> gives_covariance n bary -> one_to_itself n bary -> a <> b -> c <> d -> 0 < ms -> 0 < mt ->
  pos_def n (if bias then cov_of ms Xs else moment_of ms Xs) -> pos_def n (if bias then cov_of mt Xt else moment_of mt Xt) ->
  forall Z, exists Y Z',
    mlm_transform_num n (mlm_fit_num eigh bary n bias [(a, (ms, Xs))] [(b, (mt, Xt))]) b Z = Ok Y /\
    mlm_transform_num n (mlm_fit_num eigh bary n bias [(c, (mt, Xt))] [(d, (ms, Xs))]) d Y = Ok Z' /\
    forall i j, j < n -> Z' i j = Z i j.
Proof.
  intros eigh bary n bias a b c d ms Xs mt Xt HE HB H1 Nab Ncd Hs Ht Ps Pt Z. unfold mlm_transform_num.
  rewrite (lookup eigh bary n bias [(a, (ms, Xs))] [(b, (mt, Xt))] b mt Xt); [|cbn; repeat constructor; cbn; intuition|right; now left].
  rewrite (lookup eigh bary n bias [(c, (mt, Xt))] [(d, (ms, Xs))] d ms Xs); [|cbn; repeat constructor; cbn; intuition|right; now left].
  cbn [bind]. eexists. eexists. split; [reflexivity|split; [reflexivity|]].
  destruct (centre_cov bary n HB bias [(a, (ms, Xs))]) as (CS1 & CP1); [repeat constructor; auto|]. destruct (centre_cov bary n HB bias [(c, (mt, Xt))]) as (CS2 & CP2); [repeat constructor; auto|].
  set (ps := get_cov_mean bias None ms Xs). set (pt := get_cov_mean bias None mt Xt). set (b1 := centre bary bias [(a, (ms, Xs))]) in *. set (b2 := centre bary bias [(c, (mt, Xt))]) in *.
  destruct (H1 (snd ps) (fst ps) (param_sym bias ms Xs)) as (M1 & C1). destruct (H1 (snd pt) (fst pt) (param_sym bias mt Xt)) as (M2 & C2).
  change (forall j, j < n -> fst b1 j = snd ps j) in M1. change (forall j, j < n -> fst b2 j = snd pt j) in M2.
  change (meq n n (snd b1) (fst ps)) in C1. change (meq n n (snd b2) (fst pt)) in C2.
  assert (QS : pos_def n (fst ps)). { intros v Hv. unfold ps. destruct bias; (erewrite sigma_ext2; [apply (Ps v Hv)|]); intros; now rewrite ?param_cov, ?param_moment. }
  assert (QT : pos_def n (fst pt)). { intros v Hv. unfold pt. destruct bias; (erewrite sigma_ext2; [apply (Pt v Hv)|]); intros; now rewrite ?param_cov, ?param_moment. }
  assert (B : meq n n (mmul n (fst (bw_mapping eigh n (snd pt) (fst b1) (fst pt) (snd b1))) (fst (bw_mapping eigh n (snd ps) (fst b2) (fst ps) (snd b2)))) delta).
  { apply bw_back; auto; intros i j; apply param_sym. }
  set (f1 := bw_mapping eigh n (snd pt) (fst b1) (fst pt) (snd b1)) in *. set (f2 := bw_mapping eigh n (snd ps) (fst b2) (fst ps) (snd b2)) in *.
  intros i j Hj.
  assert (E1 : snd f2 j = (fst b2 j - msum n (fun k => snd ps k * fst f2 k j))%R) by reflexivity.
  assert (E2 : forall k, snd f1 k = (fst b1 k - msum n (fun l => snd pt l * fst f1 l k))%R) by reflexivity.
  rewrite E1. unfold mmul at 1. rewrite (msum_ext n _ (fun k => mmul n Z (fst f1) i k * fst f2 k j + (snd ps k * fst f2 k j + (-1) * (mmul n (fun _ l => snd pt l) (fst f1) i k * fst f2 k j)))%R).
  2:{ intros k Hk. rewrite E2, M1 by auto. unfold mmul. ring. }
  rewrite msum_plus, msum_plus, msum_scal.
  change (msum n (fun k => mmul n Z (fst f1) i k * fst f2 k j)%R) with (mmul n (mmul n Z (fst f1)) (fst f2) i j).
  change (msum n (fun k => mmul n (fun _ l => snd pt l) (fst f1) i k * fst f2 k j)%R) with (mmul n (mmul n (fun _ l => snd pt l) (fst f1)) (fst f2) i j).
  rewrite !mmul_assoc. rewrite (mmul_ext n Z Z _ delta i j), (mmul_ext n (fun _ l => snd pt l) (fun _ l => snd pt l) _ delta i j); auto. rewrite !mmul_delta_r by auto. rewrite M2 by auto. ring.
Qed.

(** One feature: a source of variance 1 around 1, a target of variance 4 around 12. *)
Example C200_ex : eigensolver 1 eigh1 /\ one_to_itself 1 bary_first /\ gives_covariance 1 bary_first /\
  pos_def 1 (cov_of 2 (two 0 2)) /\ pos_def 1 (cov_of 2 (two 10 14)) /\ mean_of 2 (two 0 2) 0 <> mean_of 2 (two 10 14) 0.
Proof.
  destruct C185_ex as (E & _ & _ & _ & (_ & F & N & _)). destruct C198_ex as (_ & _ & _ & _ & G & _ & H & _).
  split; [exact E|split; [|split; [exact G|]]].
  - intros mu C S. apply (H mu C [mu] [C]); [discriminate|reflexivity|repeat constructor|repeat constructor]; auto.
  - split; [|split; [|exact N]].
    + apply (proj1 (Forall_forall _ _) F (1%Z, (2, two 0 2))). now left.
    + apply (proj1 (Forall_forall _ _) F ((-3)%Z, (2, two 10 14))). right; right; now left.
Qed.
