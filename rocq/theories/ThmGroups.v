(** * C244: groups of unrelated features are aligned separately *)
From Coq Require Import List ZArith Bool Arith Lia Reals Lra.
From Verif Require Import Np NpFacts RVec RVecFacts MapModel MapSpec MapProofs2 RMat CovModel CovSpec CovProofs MongeModel MongeProofs CoralRegModel.
From Verif Require ThmCov ThmCoralReg ThmSame ThmSpectral ThmMonge TurnProofs.
Import ListNotations.
Local Open Scope R_scope.

(** Features of different groups have the entry 0: for a covariance, they are uncorrelated. *)
Definition unrelated (n : nat) (grp : nat -> nat) (A : mat) : Prop := forall i j, (i < n)%nat -> (j < n)%nat -> grp i <> grp j -> A i j = 0.

Lemma unrelated_mmul n grp A B : unrelated n grp A -> unrelated n grp B -> unrelated n grp (mmul n A B).
Proof.
  intros HA HB i j Hi Hj N. unfold mmul. rewrite (msum_ext n _ (fun _ => 0)); [apply msum_zero|]. intros k Hk.
  destruct (Nat.eq_dec (grp i) (grp k)) as [E|E]; [rewrite (HB k j); auto; [ring|congruence]|rewrite (HA i k); auto; ring].
Qed.
Lemma pd_psd n C : pos_def n C -> pos_semidef n C.
Proof. intros P v. destruct (classic_zero n v) as [Z|Z]; [rewrite Z; lra|]. apply Rlt_le. now apply P. Qed.

Section Groups.
  Variables (eigh : mat -> (nat -> R) * mat) (n : nat) (grp : nat -> nat).
  Hypothesis HE : eigensolver n eigh.
  Lemma unrelated_sqrtm C : (forall i j, C i j = C j i) -> pos_semidef n C -> unrelated n grp C -> unrelated n grp (sqrtm eigh n C).
  Proof.
    intros SC PC HC i j Hi Hj N. set (s := fun k => if (grp k =? grp i)%nat then 1 else -1). set (Q := sqrtm eigh n C).
    assert (SS : forall k, s k * s k = 1) by (intros k; unfold s; destruct (grp k =? grp i)%nat; ring).
    assert (E : meq n n (fun k l => s k * Q k l * s l) Q).
    { apply (root_unique eigh n HE).
      - intros a b. unfold Q. rewrite (sqrtm_sym eigh n C a b). ring.
      - intros a b. apply sqrtm_sym.
      - intros v. rewrite qf_sigma, qf_rescale, <- qf_sigma. apply ThmSame.sqrtm_psd.
      - apply ThmSame.sqrtm_psd.
      - intros a b Ha Hb. transitivity (s a * mmul n Q Q a b * s b).
        + unfold mmul. rewrite <- msum_scal, <- msum_scal_r. apply msum_ext. intros k _. transitivity (s a * (Q a k * Q k b) * s b * (s k * s k)); [ring|]. rewrite SS. ring.
        + unfold Q. rewrite (sqrtm_sq eigh n HE C SC PC a b Ha Hb). unfold s. destruct (Nat.eqb_spec (grp a) (grp i)) as [Ea|Ea], (Nat.eqb_spec (grp b) (grp i)) as [Eb|Eb]; try ring;
            rewrite (HC a b); auto; try ring; congruence. }
    specialize (E i j Hi Hj). cbv beta in E. unfold s in E. rewrite Nat.eqb_refl in E. destruct (Nat.eqb_spec (grp j) (grp i)); [congruence|]. fold Q. lra.
  Qed.
  Lemma unrelated_invsqrtm C : (forall i j, C i j = C j i) -> pos_def n C -> unrelated n grp C -> unrelated n grp (invsqrtm eigh n C).
  Proof.
    intros SC PC HC i j Hi Hj N. pose proof (unrelated_sqrtm C SC (pd_psd n C PC) HC) as HQ. destruct (roots_inverse eigh n HE C SC PC) as (I1 & I2).
    set (Q := sqrtm eigh n C) in *. set (P := invsqrtm eigh n C) in *. set (s := fun k => if (grp k =? grp i)%nat then 1 else -1).
    assert (SS : forall k, s k * s k = 1) by (intros k; unfold s; destruct (grp k =? grp i)%nat; ring).
    set (P' := fun k l => s k * P k l * s l).
    assert (J : meq n n (mmul n P' Q) delta).
    { intros a b Ha Hb. transitivity (s a * mmul n P Q a b * s b).
      - unfold mmul, P'. rewrite <- msum_scal, <- msum_scal_r. apply msum_ext. intros k Hk. destruct (Nat.eq_dec (grp k) (grp b)) as [E|E]; [|rewrite (HQ k b) by auto; ring].
        unfold s at 2 4. rewrite E. ring.
      - rewrite (I1 a b Ha Hb). unfold delta. destruct (Nat.eqb_spec a b) as [->|]; [|ring]. transitivity (s b * s b); [ring|apply SS]. }
    assert (E : P' i j = P i j).
    { transitivity (mmul n P' delta i j); [now rewrite mmul_delta_r|]. transitivity (mmul n P' (mmul n Q P) i j).
      - apply mmul_ext; auto. intros k Hk. symmetry. now apply I2.
      - rewrite <- mmul_assoc. transitivity (mmul n delta P i j); [|now rewrite mmul_delta_l]. apply mmul_ext; auto. }
    unfold P', s in E. rewrite Nat.eqb_refl in E. destruct (Nat.eqb_spec (grp j) (grp i)); [congruence|]. lra.
  Qed.
  Lemma unrelated_bw ms mt Cs Ct : (forall i j, Cs i j = Cs j i) -> pos_def n Cs -> (forall i j, Ct i j = Ct j i) -> pos_semidef n Ct -> unrelated n grp Cs -> unrelated n grp Ct ->
    unrelated n grp (fst (bw_mapping eigh n ms mt Cs Ct)).
  Proof.
    intros S1 P1 S2 P2 U1 U2. cbn [bw_mapping fst]. pose proof (unrelated_invsqrtm Cs S1 P1 U1) as V1. pose proof (unrelated_sqrtm Cs S1 (pd_psd n Cs P1) U1) as V2.
    apply unrelated_mmul; auto. apply unrelated_mmul; auto. apply unrelated_sqrtm.
    - apply sandwich_sym; auto. intros; apply sqrtm_sym.
    - apply sandwich_psd; auto. intros; apply sqrtm_sym.
    - apply unrelated_mmul; auto. now apply unrelated_mmul.
  Qed.
End Groups.

Lemma same_group n grp A Z Z' i j : unrelated n grp A -> (j < n)%nat -> (forall k, (k < n)%nat -> grp k = grp j -> Z i k = Z' i k) -> mmul n Z A i j = mmul n Z' A i j.
Proof.
  intros U Hj H. unfold mmul. apply msum_ext. intros k Hk. destruct (Nat.eq_dec (grp k) (grp j)) as [E|E]; [now rewrite H|rewrite (U k j); auto; ring].
Qed.
Lemma emp_sym b m X i j : emp_cov b m X i j = emp_cov b m X j i.
Proof. unfold emp_cov. f_equal. apply msum_ext. intros; ring. Qed.
Lemma emp_psd b n m X : (0 < m)%nat -> pos_semidef n (emp_cov b m X).
Proof. intros H v. rewrite qf_sigma. now apply emp_qf. Qed.

(** CORAL: when features of different groups are uncorrelated in both domains, the adapted values of a group depend on the values of that group only. *)
Theorem C244_coral : forall eigh n grp ms mt Xs Xt, eigensolver n eigh -> (0 < ms)%nat -> (0 < mt)%nat -> pos_def n (cov_of ms Xs) ->
  unrelated n grp (cov_of ms Xs) -> unrelated n grp (cov_of mt Xt) -> forall Z Z' i j, (j < n)%nat -> (forall k, (k < n)%nat -> grp k = grp j -> Z i k = Z' i k) ->
  coral_map_source eigh false n ms mt Xs Xt Z i j = coral_map_source eigh false n ms mt Xs Xt Z' i j.
Proof.
  intros eigh n grp ms mt Xs Xt HE Hms Hmt P U1 U2 Z Z' i j Hj H. unfold coral_map_source. rewrite !mmul_assoc. apply (same_group n grp); auto.
  - apply unrelated_mmul; [apply unrelated_invsqrtm|apply unrelated_sqrtm]; auto; try (intros; apply emp_sym); now apply emp_psd.
  - intros k Hk E. now rewrite H.
Qed.
(** The same with a shrinkage of the covariances. *)
Theorem C244_coral_shrunk : forall lw eigh n grp ms mt Xs Xt r W, eigensolver n eigh -> (0 < ms)%nat -> (0 < mt)%nat -> 0 < r <= 1 ->
  (exists j, (j < n)%nat /\ cov_of ms Xs j j <> 0) -> unrelated n grp (cov_of ms Xs) -> unrelated n grp (cov_of mt Xt) ->
  coral_fit lw eigh n ms mt Xs Xt (ShNum r) false = Ok W -> forall Z Z' i j, (j < n)%nat -> (forall k, (k < n)%nat -> grp k = grp j -> Z i k = Z' i k) ->
  coral_rows false n (mean_of ms Xs) W Z i j = coral_rows false n (mean_of ms Xs) W Z' i j.
Proof.
  intros lw eigh n grp ms mt Xs Xt r W HE Hms Hmt Hr HV U1 U2 E Z Z' i j Hj H.
  unfold coral_fit in E. cbn [estimate_covariance] in E. unfold shrunk_covariance in E. rewrite (proj2 (Rleb_iff 0 r)), (proj2 (Rleb_iff r 1)) in E by lra. cbn [andb bind] in E. injection E as <-.
  assert (SH : forall C, unrelated n grp C -> unrelated n grp (shrink n r C)).
  { intros C U a b Ha Hb N. unfold shrink. rewrite (U a b) by auto. destruct (Nat.eqb_spec a b); [congruence|ring]. }
  unfold coral_rows. apply (same_group n grp); auto.
  - apply unrelated_mmul; [apply unrelated_invsqrtm|apply unrelated_sqrtm]; auto; try (intros; apply shrink_sym; intros; apply emp_sym).
    + intros v Hv. rewrite qf_sigma. apply shrink_pd; auto.
    + intros v. rewrite qf_sigma. apply shrink_psd; auto. lra.
  - intros k Hk G. now rewrite H.
Qed.

(** The same with every shrinkage, including 'auto', as soon as the estimate of the source covariance is positive definite (C155). *)
Theorem C244_coral_any : forall lw eigh n grp ms mt Xs Xt reg Cs W, intensity lw -> eigensolver n eigh -> (0 < ms)%nat -> (0 < mt)%nat ->
  estimate_covariance lw n ms Xs reg false = Ok Cs -> pos_def n Cs -> unrelated n grp (cov_of ms Xs) -> unrelated n grp (cov_of mt Xt) ->
  coral_fit lw eigh n ms mt Xs Xt reg false = Ok W -> forall Z Z' i j, (j < n)%nat -> (forall k, (k < n)%nat -> grp k = grp j -> Z i k = Z' i k) ->
  coral_rows false n (mean_of ms Xs) W Z i j = coral_rows false n (mean_of ms Xs) W Z' i j.
Proof.
  intros lw eigh n grp ms mt Xs Xt reg Cs W HI HE Hms Hmt E1 P U1 U2 E Z Z' i j Hj H.
  assert (ES : forall m X C, (0 < m)%nat -> unrelated n grp (cov_of m X) -> estimate_covariance lw n m X reg false = Ok C -> (forall a b, C a b = C b a) /\ unrelated n grp C).
  { intros m X C Hm U EC. assert (SH : forall r D, unrelated n grp D -> unrelated n grp (shrink n r D)).
    { intros r D UD a b Ha Hb N. unfold shrink. rewrite (UD a b) by auto. destruct (Nat.eqb_spec a b); [congruence|ring]. }
    destruct reg as [| |s|]; cbn [estimate_covariance] in EC.
    - injection EC as <-. split; [intros; apply emp_sym|exact U].
    - injection EC as <-. split; [intros a b; unfold ledoit_wolf; rewrite (shrink_sym n _ _ (emp_sym false m _) a b); ring|].
      intros a b Ha Hb N. unfold ledoit_wolf. rewrite SH; auto; [ring|]. intros c d Hc Hd Nc. rewrite cov_standard by auto. change (emp_cov false m X c d) with (cov_of m X c d). rewrite U by auto. unfold Rdiv. ring.
    - unfold shrunk_covariance in EC. destruct (_ && _); [|discriminate]. injection EC as <-. split; [intros; apply shrink_sym; intros; apply emp_sym|now apply SH].
    - discriminate. }
  unfold coral_fit in E. rewrite E1 in E. cbn [bind] in E. destruct (estimate_covariance lw n mt Xt reg false) as [Ct|] eqn:E2; [|discriminate]. cbn [bind] in E. injection E as <-.
  destruct (ES _ _ _ Hms U1 E1) as (S1 & V1). destruct (ES _ _ _ Hmt U2 E2) as (S2 & V2). destruct (ThmCov.C155_covariance lw n mt Xt reg false Ct HI Hmt E2) as (_ & P2).
  unfold coral_rows. apply (same_group n grp); auto.
  - apply unrelated_mmul; [now apply unrelated_invsqrtm|now apply unrelated_sqrtm].
  - intros k Hk G. now rewrite H.
Qed.

(** Uncorrelated features: every feature is centred and stretched by the ratio of its standard deviations. *)
Lemma diag_sqrtm eigh n C j : eigensolver n eigh -> (forall i k, C i k = C k i) -> pos_semidef n C -> unrelated n (fun k => k) C -> (j < n)%nat -> sqrtm eigh n C j j = sqrt (C j j).
Proof.
  intros HE SC PC U Hj. pose proof (unrelated_sqrtm eigh n (fun k => k) HE C SC PC U) as V. pose proof (sqrtm_sq eigh n HE C SC PC j j Hj Hj) as Q.
  assert (D : forall A B : mat, unrelated n (fun k => k) A -> mmul n A B j j = A j j * B j j).
  { intros A B UA. unfold mmul. rewrite (msum_ext n _ (fun k => (A j j * B j j) * (if (k =? j)%nat then 1 else 0))); [apply (msum_delta n (fun _ => A j j * B j j) j Hj)|].
    intros k Hk. destruct (Nat.eqb_spec k j) as [->|N]; [ring|rewrite (UA j k); auto; ring]. }
  rewrite D in Q by auto. rewrite <- Q, sqrt_square; auto.
  pose proof (ThmSame.sqrtm_psd eigh n C (fun k => if (k =? j)%nat then 1 else 0)) as P. rewrite qf_sigma in P. unfold qf in P.
  rewrite (msum_ext n _ (fun k => sqrtm eigh n C k j * (if (k =? j)%nat then 1 else 0))) in P.
  - now rewrite (msum_delta n (fun k => sqrtm eigh n C k j) j Hj) in P.
  - intros k Hk. transitivity (msum n (fun l => ((if (k =? j)%nat then 1 else 0) * sqrtm eigh n C k l) * (if (l =? j)%nat then 1 else 0))); [apply msum_ext; intros; reflexivity|].
    rewrite (msum_delta n (fun l => (if (k =? j)%nat then 1 else 0) * sqrtm eigh n C k l) j Hj). ring.
Qed.
Lemma diag_mmul n A B j : unrelated n (fun k => k) B -> (j < n)%nat -> forall i, mmul n A B i j = A i j * B j j.
Proof.
  intros U Hj i. unfold mmul. rewrite (msum_ext n _ (fun k => (A i j * B j j) * (if (k =? j)%nat then 1 else 0))); [apply (msum_delta n (fun _ => A i j * B j j) j Hj)|].
  intros k Hk. destruct (Nat.eqb_spec k j) as [->|N]; [ring|rewrite (U k j); auto; ring].
Qed.
Theorem C244_coral_uncorrelated : forall eigh n ms mt Xs Xt, eigensolver n eigh -> (0 < ms)%nat -> (0 < mt)%nat -> pos_def n (cov_of ms Xs) ->
  unrelated n (fun j => j) (cov_of ms Xs) -> unrelated n (fun j => j) (cov_of mt Xt) -> forall Z i j, (j < n)%nat ->
  coral_map_source eigh false n ms mt Xs Xt Z i j = (Z i j - mean_of ms Xs j) * sqrt (cov_of mt Xt j j) / sqrt (cov_of ms Xs j j).
Proof.
  intros eigh n ms mt Xs Xt HE Hms Hmt P U1 U2 Z i j Hj. unfold coral_map_source. set (Cs := emp_cov false ms Xs). set (Ct := emp_cov false mt Xt).
  assert (S1 : forall a b, Cs a b = Cs b a) by (intros; apply emp_sym). assert (S2 : forall a b, Ct a b = Ct b a) by (intros; apply emp_sym).
  assert (P2 : pos_semidef n Ct) by now apply emp_psd.
  pose proof (unrelated_sqrtm eigh n (fun k => k) HE Ct S2 P2 U2) as V2. pose proof (unrelated_invsqrtm eigh n (fun k => k) HE Cs S1 P U1) as V1.
  rewrite (diag_mmul n _ _ j V2 Hj). rewrite (diag_mmul n _ _ j V1 Hj). rewrite (diag_sqrtm eigh n Ct j HE S2 P2 U2 Hj).
  destruct (roots_inverse eigh n HE Cs S1 P) as (I & _). specialize (I j j Hj Hj). unfold delta in I. rewrite Nat.eqb_refl in I.
  rewrite (diag_mmul n _ _ j (unrelated_sqrtm eigh n (fun k => k) HE Cs S1 (pd_psd n Cs P) U1) Hj), (diag_sqrtm eigh n Cs j HE S1 (pd_psd n Cs P) U1 Hj) in I.
  assert (NZ : sqrt (Cs j j) <> 0) by (intros Q; rewrite Q in I; lra).
  replace (invsqrtm eigh n Cs j j) with (/ sqrt (Cs j j)) by (apply (Rmult_eq_reg_r (sqrt (Cs j j))); auto; rewrite I; now field).
  change (cov_of ms Xs j j) with (Cs j j). change (cov_of mt Xt j j) with (Ct j j). change (mean_of ms Xs j) with (col_mean ms Xs j). cbv beta iota. now field.
Qed.

(** ** Multi-domain Monge alignment *)
(** The barycentre of Gaussians whose features of different groups are uncorrelated is one, too. *)
Definition keeps_groups (n : nat) (bary : list (nat -> R) -> list mat -> (nat -> R) * mat) : Prop :=
  forall grp ms Cs, ms <> [] -> Forall (fun C => pos_def n C /\ unrelated n grp C) Cs -> unrelated n grp (snd (bary ms Cs)).
Theorem C244_monge : forall eigh bary n grp sources targets, eigensolver n eigh -> ThmMonge.gives_covariance n bary -> keeps_groups n bary -> sources <> [] ->
  NoDup (map fst (sources ++ targets)) ->
  Forall (fun d : domain => (0 < fst (snd d))%nat /\ pos_def n (cov_of (fst (snd d)) (snd (snd d))) /\ unrelated n grp (cov_of (fst (snd d)) (snd (snd d)))) (sources ++ targets) ->
  let fitted := mlm_fit_num eigh bary n true sources targets in
  forall k Z Z' i j, In k (map fst (sources ++ targets)) -> (j < n)%nat -> (forall l, (l < n)%nat -> grp l = grp j -> Z i l = Z' i l) ->
  exists Y Y', mlm_transform_num n fitted k Z = Ok Y /\ mlm_transform_num n fitted k Z' = Ok Y' /\ Y i j = Y' i j.
Proof.
  intros eigh bary n grp sources targets HE HB HK NE ND H fitted k Z Z' i j Hk Hj A. apply in_map_iff in Hk as ([k' [m X]] & <- & I). cbn [fst].
  destruct (proj1 (Forall_forall _ _) H _ I) as (Hm & HP & HU). cbn [fst snd] in Hm, HP, HU.
  unfold mlm_transform_num, fitted. rewrite (ThmMonge.lookup eigh bary n true sources targets k' m X ND I). cbn [bind].
  do 2 eexists. split; [reflexivity|]. split; [reflexivity|]. cbv beta. f_equal. apply (same_group n grp); auto.
  assert (HS : Forall (fun d : domain => (0 < fst (snd d))%nat) sources).
  { apply Forall_forall. intros d Hd. apply (proj1 (Forall_forall _ _) H d). apply in_app_iff. now left. }
  destruct (ThmMonge.centre_cov bary n HB true sources HS) as (CS & CP).
  apply unrelated_bw; auto.
  - intros a b. apply ThmMonge.param_sym.
  - apply (TurnProofs.pd_meq n (cov_of m X)); auto. intros a b _ _. symmetry. apply ThmMonge.param_cov.
  - intros a b Ha Hb N. rewrite ThmMonge.param_cov. now apply HU.
  - apply HK; [now destruct sources|]. apply Forall_forall. intros C HC. apply in_map_iff in HC as (d & <- & Hd). cbn [fst snd].
    assert (Hd' : In d (sources ++ targets)) by (apply in_app_iff; now left). destruct (proj1 (Forall_forall _ _) H d Hd') as (_ & PD & UD). split.
    + apply (TurnProofs.pd_meq n (cov_of (fst (snd d)) (snd (snd d)))); auto. intros a b _ _. symmetry. apply ThmMonge.param_cov.
    + intros a b Ha Hb N. rewrite ThmMonge.param_cov. now apply UD.
Qed.

(** ** A group alone: the adapted values of the first p features are those of CORAL fitted on these features only. *)
Lemma msum_cut p n f : (p <= n)%nat -> (forall k, (p <= k < n)%nat -> f k = 0) -> msum n f = msum p f.
Proof.
  intros H. induction H as [|n H IH]; [reflexivity|]. intros Z. change (msum n f + f n = msum p f). rewrite IH by (intros; apply Z; lia). rewrite Z by lia. ring.
Qed.
Definition first_group (p : nat) : nat -> nat := fun k => if (k <? p)%nat then 0%nat else 1%nat.
Lemma first_apart p a k : (a < p)%nat -> (p <= k)%nat -> first_group p a <> first_group p k.
Proof. intros H K. unfold first_group. destruct (Nat.ltb_spec a p), (Nat.ltb_spec k p); try lia; discriminate. Qed.
Lemma msum_none n f : (forall k, (k < n)%nat -> f k = 0) -> msum n f = 0.
Proof. intros H. rewrite <- (msum_zero n). now apply msum_ext. Qed.
Lemma qf_cut p n C v : (p <= n)%nat -> qf n C (fun k => if (k <? p)%nat then v k else 0) = qf p C v.
Proof.
  intros H. unfold qf. transitivity (msum p (fun i => msum n (fun j => (if (i <? p)%nat then v i else 0) * C i j * (if (j <? p)%nat then v j else 0)))).
  { apply msum_cut; auto. intros k Hk. apply msum_none. intros l _. destruct (Nat.ltb_spec k p); [lia|ring]. }
  apply msum_ext. intros i Hi. etransitivity; [apply (msum_cut p n); auto; intros k Hk; destruct (Nat.ltb_spec k p); [lia|ring]|].
  apply msum_ext. intros j Hj. destruct (Nat.ltb_spec i p); [|lia]. destruct (Nat.ltb_spec j p); [reflexivity|lia].
Qed.
Lemma psd_cut p n C : (p <= n)%nat -> pos_semidef n C -> pos_semidef p C.
Proof. intros H P v. rewrite qf_sigma, <- (qf_cut p n C v H), <- qf_sigma. apply P. Qed.
Lemma pd_cut p n C : (p <= n)%nat -> pos_def n C -> pos_def p C.
Proof. intros H P v (i & Hi & Hv). rewrite qf_sigma, <- (qf_cut p n C v H), <- qf_sigma. apply P. exists i. split; [lia|]. destruct (Nat.ltb_spec i p); [auto|lia]. Qed.
Lemma mmul_cut p n A B i j : (p <= n)%nat -> (i < p)%nat -> unrelated n (first_group p) A -> mmul n A B i j = mmul p A B i j.
Proof. intros H Hi U. unfold mmul. apply msum_cut; auto. intros k Hk. rewrite (U i k); [ring|lia|lia|apply first_apart; lia]. Qed.
Section Cut.
  Variables (eigh eighp : mat -> (nat -> R) * mat) (n p : nat) (C : mat).
  Hypotheses (HE : eigensolver n eigh) (HP : eigensolver p eighp) (Hp : (p <= n)%nat) (SC : forall i j, C i j = C j i) (U : unrelated n (first_group p) C).
  Lemma sqrtm_cut : pos_semidef n C -> meq p p (sqrtm eigh n C) (sqrtm eighp p C).
  Proof.
    intros P. apply (root_unique eighp p HP); try (intros; apply sqrtm_sym); [apply (psd_cut p n); auto; apply ThmSame.sqrtm_psd|apply ThmSame.sqrtm_psd|].
    intros i j Hi Hj. rewrite <- (mmul_cut p n) by (auto; apply unrelated_sqrtm; auto). rewrite (sqrtm_sq eigh n HE C SC P) by lia. symmetry. apply (sqrtm_sq eighp p HP); auto. now apply (psd_cut p n).
  Qed.
  Lemma invsqrtm_cut : pos_def n C -> meq p p (invsqrtm eigh n C) (invsqrtm eighp p C).
  Proof.
    intros P i j Hi Hj. destruct (roots_inverse eigh n HE C SC P) as (I1 & _). destruct (roots_inverse eighp p HP C SC (pd_cut p n C Hp P)) as (_ & J2).
    pose proof (sqrtm_cut (pd_psd n C P)) as E. set (N := invsqrtm eigh n C) in *. set (N' := invsqrtm eighp p C) in *.
    assert (UN : unrelated n (first_group p) N) by (apply unrelated_invsqrtm; auto).
    transitivity (mmul p N delta i j); [now rewrite mmul_delta_r|]. transitivity (mmul p N (mmul p (sqrtm eighp p C) N') i j).
    - unfold mmul at 1 2. apply msum_ext. intros k Hk. now rewrite (J2 k j Hk Hj).
    - rewrite <- mmul_assoc. transitivity (mmul p delta N' i j); [|now rewrite mmul_delta_l]. unfold mmul at 1 3. apply msum_ext. intros k Hk. f_equal.
      rewrite <- (I1 i k) by lia. rewrite (mmul_cut p n) by auto. unfold mmul. apply msum_ext. intros l Hl. now rewrite E.
  Qed.
End Cut.
Theorem C244_coral_alone : forall eigh eighp n p ms mt Xs Xt, eigensolver n eigh -> eigensolver p eighp -> (p <= n)%nat -> (0 < ms)%nat -> (0 < mt)%nat -> pos_def n (cov_of ms Xs) ->
  (forall j l, (j < p)%nat -> (p <= l < n)%nat -> cov_of ms Xs j l = 0 /\ cov_of mt Xt j l = 0) -> forall Z i j, (j < p)%nat ->
  coral_map_source eigh false n ms mt Xs Xt Z i j = coral_map_source eighp false p ms mt Xs Xt Z i j.
Proof.
  intros eigh eighp n p ms mt Xs Xt HE HP Hp Hms Hmt P H Z i j Hj.
  assert (UU : forall C : mat, (forall a b, C a b = C b a) -> (forall a b, (a < p)%nat -> (p <= b < n)%nat -> C a b = 0) -> unrelated n (first_group p) C).
  { intros C SC K a b Ha Hb N. unfold first_group in N. destruct (Nat.ltb_spec a p), (Nat.ltb_spec b p); try congruence; [apply K; lia|rewrite SC; apply K; lia]. }
  set (Cs := emp_cov false ms Xs). set (Ct := emp_cov false mt Xt).
  assert (S1 : forall a b, Cs a b = Cs b a) by (intros; apply emp_sym). assert (S2 : forall a b, Ct a b = Ct b a) by (intros; apply emp_sym).
  assert (P2 : pos_semidef n Ct) by now apply emp_psd.
  assert (U1 : unrelated n (first_group p) Cs) by (apply UU; auto; intros a b Ha Hb; apply (H a b Ha Hb)).
  assert (U2 : unrelated n (first_group p) Ct) by (apply UU; auto; intros a b Ha Hb; apply (H a b Ha Hb)).
  pose proof (sqrtm_cut eigh eighp n p Ct HE HP Hp S2 U2 P2) as E2. pose proof (invsqrtm_cut eigh eighp n p Cs HE HP Hp S1 U1 P) as E1.
  pose proof (unrelated_sqrtm eigh n (first_group p) HE Ct S2 P2 U2) as V2. pose proof (unrelated_invsqrtm eigh n (first_group p) HE Cs S1 P U1) as V1.
  unfold coral_map_source. fold Cs. fold Ct. unfold mmul. etransitivity; [apply (msum_cut p n); auto; intros k Hk; rewrite (V2 k j); [ring|lia|lia|apply not_eq_sym, first_apart; lia]|].
  apply msum_ext. intros k Hk. rewrite (E2 k j Hk Hj). f_equal. etransitivity; [apply (msum_cut p n); auto; intros l Hl; rewrite (V1 l k); [ring|lia|lia|apply not_eq_sym, first_apart; lia]|].
  apply msum_ext. intros l Hl. now rewrite (E1 l k Hl Hk).
Qed.

(** ** Example: sources at (2, 0), (-2, 0), (0, 1), (0, -1), targets at (1, 0), (-1, 0), (0, 3), (0, -3). *)
Definition cross (a b : R) : mat := fun i j => match i, j with 0%nat, 0%nat => a | 1%nat, 0%nat => - a | 2%nat, 1%nat => b | 3%nat, 1%nat => - b | _, _ => 0 end.
Lemma cross_cov a b j l : cov_of 4 (cross a b) j l = match j, l with 0%nat, 0%nat => a * a / 2 | 1%nat, 1%nat => b * b / 2 | _, _ => 0 end.
Proof. unfold cov_of, mean_of. destruct j as [|[|j]], l as [|[|l]]; cbn; field. Qed.
Example C244_ex : pos_def 2 (cov_of 4 (cross 2 1)) /\ unrelated 2 (fun j => j) (cov_of 4 (cross 2 1)) /\ unrelated 2 (fun j => j) (cov_of 4 (cross 1 3)) /\
  exists eigh, eigensolver 2 eigh /\ coral_map_source eigh false 2 4 4 (cross 2 1) (cross 1 3) (cross 2 1) 2%nat 1%nat = 3.
Proof.
  assert (U : forall a b, unrelated 2 (fun j => j) (cov_of 4 (cross a b))) by (intros a b j l Hj Hl N; rewrite cross_cov; destruct j as [|[|j]], l as [|[|l]]; try lia; reflexivity).
  assert (P : pos_def 2 (cov_of 4 (cross 2 1))).
  { intros v (i & Hi & Hv). cbn [sigma]. rewrite !cross_cov. destruct i as [|[|i]]; [| |lia].
    - assert (0 < v 0%nat * v 0%nat) by (apply Rsqr_pos_lt; auto). assert (0 <= v 1%nat * v 1%nat) by apply Rle_0_sqr. lra.
    - assert (0 < v 1%nat * v 1%nat) by (apply Rsqr_pos_lt; auto). assert (0 <= v 0%nat * v 0%nat) by apply Rle_0_sqr. lra. }
  split; [exact P|]. split; [apply U|]. split; [apply U|]. destruct (ThmSpectral.C86_eigensolver_exists 2) as [eigh HE]. exists eigh. split; [exact HE|].
  rewrite C244_coral_uncorrelated; auto; try lia. rewrite !cross_cov. replace (3 * 3 / 2) with (3 * 3 * (1 * 1 / 2)) by field. rewrite sqrt_mult, sqrt_square by lra.
  assert (0 < sqrt (1 * 1 / 2)) by (apply sqrt_lt_R0; lra). replace (mean_of 4 (cross 2 1) 1%nat) with 0 by (unfold mean_of; cbn; field). cbn [cross]. field. lra.
Qed.
