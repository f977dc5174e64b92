(** C218: Monge alignment moves the samples no farther than needed. *)
From Coq Require Import List ZArith Bool Arith Lia Reals Lra Psatz.
From Verif Require Import Np NpFacts MapModel MapSpec MapProofs2 RMat CovSpec CovProofs MongeModel MongeProofs ThmMap ThmMonge ThmSame ThmTwice ThmBack TurnProofs CoralRegModel ThmCoralReg ThmSpectral.
Import ListNotations.
Local Open Scope nat_scope.

(** ** Specification *)
(** How far [m] rows are moved: the sum of the squared distances. *)
Definition displacement (m n : nat) (X Y : nat -> nat -> R) : R := sigma m (fun i => sigma n (fun j => (X i j - Y i j) * (X i j - Y i j))%R).
(** Rows with the same means, variances and covariances. *)
Definition same_cov (m n : nat) (Y Y' : nat -> nat -> R) : Prop :=
  (forall j, j < n -> mean_of m Y' j = mean_of m Y j) /\ (forall j l, j < n -> l < n -> cov_of m Y' j l = cov_of m Y j l).
Definition same_second (m n : nat) (Y Y' : nat -> nat -> R) : Prop := forall j l, j < n -> l < n -> moment_of m Y' j l = moment_of m Y j l.

(** ** Facts *)
Lemma mean_sum m X j : 0 < m -> msum m (fun i => X i j) = (INR m * mean_of m X j)%R.
Proof. intros Hm. unfold mean_of. change (sigma m) with (msum m). field. apply not_0_INR. lia. Qed.
Lemma moment_sum m X j l : 0 < m -> msum m (fun i => X i j * X i l)%R = (INR m * moment_of m X j l)%R.
Proof. intros Hm. unfold moment_of. change (sigma m) with (msum m). field. apply not_0_INR. lia. Qed.
Lemma moment_cov m X j l : 0 < m -> moment_of m X j l = (cov_of m X j l + mean_of m X j * mean_of m X l)%R.
Proof.
  intros Hm. assert (Q : (msum m (fun i => (X i j - mean_of m X j) * (X i l - mean_of m X l)) + mean_of m X l * msum m (fun i => X i j) + mean_of m X j * msum m (fun i => X i l) =
    msum m (fun i => X i j * X i l) + msum m (fun _ => mean_of m X j * mean_of m X l))%R).
  { rewrite <- !msum_scal, <- !msum_plus. apply msum_ext. intros; ring. }
  rewrite !mean_sum, moment_sum, msum_const in Q by auto. unfold cov_of. change (sigma m) with (msum m). assert (N : INR m <> 0%R) by (apply not_0_INR; lia).
  apply (Rmult_eq_reg_l (INR m)); auto. rewrite Rmult_plus_distr_l. replace (INR m * (msum m (fun i => (X i j - mean_of m X j) * (X i l - mean_of m X l)) / INR m))%R with (msum m (fun i => (X i j - mean_of m X j) * (X i l - mean_of m X l)))%R by (field; auto). lra.
Qed.
Lemma same_cov_second m n Y Y' : 0 < m -> same_cov m n Y Y' -> same_second m n Y Y'.
Proof. intros Hm (A & B) j l Hj Hl. rewrite !moment_cov by auto. now rewrite !A, B by auto. Qed.

(** A symmetric map with a non-negative inverse, and a shift: by how much farther any rows [Y'] are that have the second moments and, unless the
    shift is zero, the means of the images. *)
Lemma gap_moved m n X A V (b : nat -> R) (Y Y' : nat -> nat -> R) : 0 < m -> symm V -> meq n n (mmul n A V) delta ->
  (forall i j, j < n -> Y i j = (mmul n X A i j + b j)%R) -> same_second m n Y Y' -> ((forall j, j < n -> b j = 0%R) \/ (forall j, j < n -> mean_of m Y' j = mean_of m Y j)) ->
  displacement m n X Y' = (displacement m n X Y + msum m (fun i => qf n V (fun j => Y' i j - Y i j)%R))%R.
Proof.
  intros Hm SV AV HY S2 SM.
  assert (SS : forall j l, j < n -> l < n -> msum m (fun i => Y' i j * Y' i l)%R = msum m (fun i => Y i j * Y i l)%R) by (intros; rewrite !moment_sum by auto; now rewrite S2).
  set (u := fun i j => (Y i j - b j)%R). set (u' := fun i j => (Y' i j - b j)%R).
  (* second moments of the unshifted rows, weighted by V *)
  assert (Q : msum m (fun i => qf n V (u' i)) = msum m (fun i => qf n V (u i))).
  { assert (G : forall W : nat -> nat -> R, msum m (fun i => qf n V (W i)) = msum n (fun j => msum n (fun l => V j l * msum m (fun i => W i j * W i l)))%R).
    { intros W. unfold qf. rewrite msum_swap. apply msum_ext. intros j _. rewrite msum_swap. apply msum_ext. intros l _. rewrite <- msum_scal. apply msum_ext. intros; ring. }
    rewrite !G. apply msum_ext. intros j Hj. apply msum_ext. intros l Hl. f_equal.
    assert (E : forall W : nat -> nat -> R, (msum m (fun i => (W i j - b j) * (W i l - b l)) = msum m (fun i => W i j * W i l) - b l * msum m (fun i => W i j) - b j * msum m (fun i => W i l) + INR m * (b j * b l))%R).
    { intros W. assert (K : (msum m (fun i => (W i j - b j) * (W i l - b l)) + b l * msum m (fun i => W i j) + b j * msum m (fun i => W i l) = msum m (fun i => W i j * W i l) + msum m (fun _ => b j * b l))%R).
      { rewrite <- !msum_scal, <- !msum_plus. apply msum_ext. intros; ring. } rewrite msum_const in K. lra. }
    unfold u, u'. rewrite !E, SS by auto.
    destruct SM as [Z0 | ME]; [rewrite !Z0 by auto; ring|]. rewrite !(mean_sum m Y'), !(mean_sum m Y), !ME by auto. reflexivity. }
  (* V (A x) = x *)
  assert (VU : forall i j, j < n -> mv n V (u i) j = X i j).
  { intros i j Hj. transitivity (mmul n X (mmul n A V) i j).
    - rewrite <- mmul_assoc. unfold mmul at 1. apply msum_ext. intros k Hk. unfold u. rewrite HY by auto. rewrite (SV j k). ring.
    - rewrite (mmul_ext n X X _ delta i j); auto. now apply mmul_delta_r. }
  assert (K : forall i, (qf n V (fun j => Y' i j - Y i j) = qf n V (u' i) + qf n V (u i) - 2 * ip n (u' i) (X i))%R).
  { intros i. rewrite <- (ip_ext n (u' i) (u' i) (mv n V (u i)) (X i)) by auto.
    transitivity (qf n V (fun j => u' i j - u i j)%R).
    - unfold qf, u, u'. apply msum_ext. intros j Hj. apply msum_ext. intros l Hl. ring.
    - assert (E : (qf n V (fun j => u' i j - u i j) = qf n V (u' i) + qf n V (u i) - 2 * ip n (u' i) (mv n V (u i)))%R).
    { assert (E2 : ip n (u i) (mv n V (u' i)) = ip n (u' i) (mv n V (u i))) by (rewrite <- ip_mv_sym by auto; unfold ip; apply msum_ext; intros; ring).
      rewrite !qf_ip. transitivity (ip n (u' i) (mv n V (u' i)) - ip n (u' i) (mv n V (u i)) - (ip n (u i) (mv n V (u' i)) - ip n (u i) (mv n V (u i))))%R; [|rewrite E2; ring].
      assert (L : forall a c (z : nat -> R), (ip n (fun j => a j - c j) z = ip n a z - ip n c z)%R).
      { intros a c z. unfold ip. assert (T : (msum n (fun i => (a i - c i) * z i) + msum n (fun i => c i * z i) = msum n (fun i => a i * z i))%R) by (rewrite <- msum_plus; apply msum_ext; intros; ring). lra. }
      assert (R' : forall a (z w : nat -> R), (ip n a (mv n V (fun j => z j - w j)) = ip n a (mv n V z) - ip n a (mv n V w))%R).
      { intros a z w. rewrite <- !(ip_mv_sym n V a) by auto. unfold ip. assert (T : (msum n (fun i => mv n V a i * (z i - w i)) + msum n (fun i => mv n V a i * w i) = msum n (fun i => mv n V a i * z i))%R) by (rewrite <- msum_plus; apply msum_ext; intros; ring). lra. }
      rewrite L, !R'. ring. }
      exact E. }
  assert (Eq : forall i, qf n V (u i) = ip n (u i) (X i)) by (intros i; rewrite qf_ip; apply ip_ext; auto).
  assert (C : (msum m (fun i => qf n V (fun j => Y' i j - Y i j)) + 2 * msum m (fun i => ip n (u' i) (X i)) = 2 * msum m (fun i => ip n (u i) (X i)))%R).
  { rewrite <- msum_scal, <- msum_plus. rewrite (msum_ext m _ (fun i => qf n V (u' i) + qf n V (u i))%R) by (intros i _; rewrite K; ring). rewrite msum_plus, Q, (msum_ext m _ _ (fun i _ => Eq i)). ring. }
  assert (D : forall W : nat -> nat -> R, (displacement m n X W = msum m (fun i => ip n (X i) (X i)) + msum n (fun j => msum m (fun i => W i j * W i j)) - 2 * (msum m (fun i => ip n (fun j => W i j - b j) (X i)) + msum n (fun j => b j * msum m (fun i => X i j))))%R).
  { intros W. unfold displacement. change sigma with msum. unfold ip.
    assert (T : (msum m (fun i => msum n (fun j => (X i j - W i j) * (X i j - W i j))) + 2 * (msum m (fun i => msum n (fun j => (W i j - b j) * X i j)) + msum m (fun i => msum n (fun j => b j * X i j)))
      = msum m (fun i => msum n (fun j => X i j * X i j)) + msum m (fun i => msum n (fun j => W i j * W i j)))%R).
    { rewrite <- !msum_plus, <- msum_scal, <- msum_plus. apply msum_ext. intros i _. rewrite <- !msum_plus, <- msum_scal, <- msum_plus. apply msum_ext. intros; ring. }
    rewrite (msum_swap m n (fun i j => b j * X i j)%R), (msum_swap m n (fun i j => W i j * W i j)%R) in T.
    rewrite (msum_ext n (fun j => msum m (fun i => b j * X i j)%R) (fun j => b j * msum m (fun i => X i j))%R) in T by (intros; apply msum_scal). lra. }
  rewrite !D. fold u u'. assert (SQ : msum n (fun j => msum m (fun i => Y' i j * Y' i j)%R) = msum n (fun j => msum m (fun i => Y i j * Y i j)%R)) by (apply msum_ext; intros j Hj; now apply SS).
  rewrite SQ. unfold u, u' in C. lra.
Qed.

Lemma ip_comm n a c : ip n a c = ip n c a.
Proof. unfold ip. apply msum_ext. intros; ring. Qed.
Lemma psd_zero n V w : symm V -> pos_semidef n V -> qf n V w = 0%R -> forall i, i < n -> mv n V w i = 0%R.
Proof.
  intros SV PV H0. set (z := mv n V w). set (a := ip n z z). set (c := qf n V z).
  assert (G : forall t : R, (0 <= 2 * t * a + t * t * c)%R).
  { intros t. pose proof (PV (fun j => w j + t * z j)%R) as P. rewrite qf_sigma in P. rewrite qf_ip in P.
    assert (L : forall (x y v : nat -> R), (ip n (fun j => x j + t * y j) v = ip n x v + t * ip n y v)%R).
    { intros x y v. unfold ip. rewrite <- msum_scal, <- msum_plus. apply msum_ext. intros; ring. }
    assert (L2 : forall x, ip n x (mv n V (fun j => w j + t * z j)%R) = (ip n x (mv n V w) + t * ip n x (mv n V z))%R).
    { intros x. rewrite <- !(ip_mv_sym n V x) by auto. rewrite !(ip_comm n (mv n V x)). apply L. }
    rewrite L, !L2 in P. rewrite <- !qf_ip in P. rewrite H0 in P. rewrite <- (ip_mv_sym n V w z) in P by auto. fold z in P. fold a in P. fold c in P. lra. }
  assert (A0 : a = 0%R).
  { assert (a0 : (0 <= a)%R) by (unfold a, ip; apply msum_nonneg; intros; apply Rle_0_sqr). assert (c0 : (0 <= c)%R) by (unfold c; rewrite <- qf_sigma; apply PV).
    specialize (G (- a / (c + 1))%R). replace (2 * (- a / (c + 1)) * a + - a / (c + 1) * (- a / (c + 1)) * c)%R with (- (a * a) * (c + 2) / ((c + 1) * (c + 1)))%R in G by (field; lra).
    destruct (Req_dec a 0); auto. exfalso. assert (0 < a * a)%R by nra. assert (0 < (a * a) * (c + 2) / ((c + 1) * (c + 1)))%R by (apply Rdiv_lt_0_compat; nra).
    replace (- (a * a) * (c + 2) / ((c + 1) * (c + 1)))%R with (- ((a * a) * (c + 2) / ((c + 1) * (c + 1))))%R in G by (field; lra). lra. }
  intros i Hi. unfold a, ip in A0. pose proof (msum_zero_terms n (fun j => z j * z j)%R (fun j _ => Rle_0_sqr (z j)) (Req_le _ _ A0) i Hi) as E. cbn in E. now apply Rsqr_0_uniq.
Qed.

(** The images are the closest rows, and the only ones as close. *)
Lemma least_moved m n X A V (b : nat -> R) (Y Y' : nat -> nat -> R) : 0 < m -> symm V -> pos_semidef n V -> meq n n (mmul n A V) delta ->
  (forall i j, j < n -> Y i j = (mmul n X A i j + b j)%R) -> same_second m n Y Y' -> ((forall j, j < n -> b j = 0%R) \/ (forall j, j < n -> mean_of m Y' j = mean_of m Y j)) ->
  (displacement m n X Y <= displacement m n X Y')%R /\ (displacement m n X Y' = displacement m n X Y -> forall i j, i < m -> j < n -> Y' i j = Y i j).
Proof.
  intros Hm SV PV AV HY S2 SM. pose proof (gap_moved m n X A V b Y Y' Hm SV AV HY S2 SM) as G.
  assert (N : forall i, i < m -> (0 <= qf n V (fun j => Y' i j - Y i j))%R) by (intros i _; rewrite <- qf_sigma; apply PV). split.
  - pose proof (msum_nonneg m _ N). lra.
  - intros E i j Hi Hj. assert (Z0 : qf n V (fun j => Y' i j - Y i j)%R = 0%R) by (apply (msum_zero_terms m _ N); auto; lra).
    assert (P := psd_zero n V _ SV PV Z0). set (w := fun j => (Y' i j - Y i j)%R) in *.
    assert (W : w j = mmul n A (fun k _ => mv n V w k) j 0).
    { unfold mv. transitivity (mmul n A (mmul n V (fun k _ => w k)) j 0); [|reflexivity]. rewrite <- mmul_assoc. rewrite (mmul_ext n (mmul n A V) delta (fun k _ => w k) (fun k _ => w k) j 0); auto. now rewrite mmul_delta_l. }
    unfold mmul in W. rewrite (msum_ext n _ (fun _ => 0%R)) in W by (intros k Hk; rewrite P by auto; ring). rewrite RMat.msum_zero in W. unfold w in W. lra.
Qed.

(** bias=True. Any arrangement [Y'] of as many rows with the mean and covariance of the aligned rows is at least as far from the
    given ones, and only the aligned rows themselves are as close. *)
Theorem C218_monge : forall eigh bary n sources targets,
  eigensolver n eigh -> gives_covariance n bary -> gives_definite n bary -> sources <> [] ->
  NoDup (map fst (sources ++ targets)) -> Forall (fun d : domain => 0 < fst (snd d) /\ pos_def n (cov_of (fst (snd d)) (snd (snd d)))) (sources ++ targets) ->
  forall k m X, In (k, (m, X)) (sources ++ targets) -> exists Y, mlm_transform_num n (mlm_fit_num eigh bary n true sources targets) k X = Ok Y /\
    forall Y', same_cov m n Y Y' -> (displacement m n X Y <= displacement m n X Y')%R /\ (displacement m n X Y' = displacement m n X Y -> forall i j, i < m -> j < n -> Y' i j = Y i j).
Proof.
  intros eigh bary n sources targets HE HB HD NE ND H k m X I.
  assert (HS : Forall (fun d : domain => 0 < fst (snd d)) sources).
  { apply Forall_forall. intros d Hd. apply (proj1 (Forall_forall _ _) H d). apply in_app_iff. now left. }
  destruct (centre_cov bary n HB true sources HS) as (CS & CP).
  assert (PC : pos_def n (snd (centre bary true sources))).
  { apply HD; [now destruct sources|]. apply Forall_forall. intros C HC. apply in_map_iff in HC as (d & <- & Hd). split; [intros; apply param_sym|].
    destruct (proj1 (Forall_forall _ _) H d) as (_ & P); [apply in_app_iff; now left|]. apply (pd_ext n (cov_of (fst (snd d)) (snd (snd d)))); auto. intros a b _ _. symmetry. apply param_cov. }
  destruct (proj1 (Forall_forall _ _) H _ I) as (Hm & HP). cbn [fst snd] in Hm, HP.
  unfold mlm_transform_num. rewrite (lookup eigh bary n true sources targets k m X ND I). cbn [bind]. eexists. split; [reflexivity|].
  set (p := get_cov_mean true None m X). set (b := centre bary true sources) in *.
  assert (PP : pos_def n (fst p)) by (apply (pd_ext n (cov_of m X)); auto; intros a c _ _; symmetry; apply param_cov).
  destruct (bw_inverse eigh n HE (snd p) (fst b) (fst p) (snd b)) as (V & SV & PV & AV & _); auto; [intros i j; apply param_sym|].
  intros Y' (SM & SC). apply (least_moved m n X (fst (bw_mapping eigh n (snd p) (fst b) (fst p) (snd b))) V (snd (bw_mapping eigh n (snd p) (fst b) (fst p) (snd b)))); auto.
  now apply same_cov_second.
Qed.

(** bias=False: the same for second moments. *)
Theorem C218_monge_linear : forall eigh bary n sources targets,
  eigensolver n eigh -> gives_covariance n bary -> gives_definite n bary -> zero_to_zero n bary -> sources <> [] ->
  NoDup (map fst (sources ++ targets)) -> Forall (fun d : domain => 0 < fst (snd d) /\ pos_def n (moment_of (fst (snd d)) (snd (snd d)))) (sources ++ targets) ->
  forall k m X, In (k, (m, X)) (sources ++ targets) -> exists Y, mlm_transform_num n (mlm_fit_num eigh bary n false sources targets) k X = Ok Y /\
    forall Y', same_second m n Y Y' -> (displacement m n X Y <= displacement m n X Y')%R /\ (displacement m n X Y' = displacement m n X Y -> forall i j, i < m -> j < n -> Y' i j = Y i j).
Proof.
  intros eigh bary n sources targets HE HB HD HZ NE ND H k m X I.
  assert (HS : Forall (fun d : domain => 0 < fst (snd d)) sources).
  { apply Forall_forall. intros d Hd. apply (proj1 (Forall_forall _ _) H d). apply in_app_iff. now left. }
  destruct (centre_cov bary n HB false sources HS) as (CS & CP).
  assert (PC : pos_def n (snd (centre bary false sources))).
  { apply HD; [now destruct sources|]. apply Forall_forall. intros C HC. apply in_map_iff in HC as (d & <- & Hd). split; [intros; apply param_sym|].
    destruct (proj1 (Forall_forall _ _) H d) as (_ & P); [apply in_app_iff; now left|]. apply (pd_ext n (moment_of (fst (snd d)) (snd (snd d)))); auto. intros a b _ _. symmetry. apply param_moment. }
  destruct (proj1 (Forall_forall _ _) H _ I) as (Hm & HP). cbn [fst snd] in Hm, HP.
  unfold mlm_transform_num. rewrite (lookup eigh bary n false sources targets k m X ND I). cbn [bind]. eexists. split; [reflexivity|].
  set (p := get_cov_mean false None m X). set (b := centre bary false sources) in *.
  assert (PP : pos_def n (fst p)) by (apply (pd_ext n (moment_of m X)); auto; intros a c _ _; symmetry; apply param_moment).
  destruct (bw_inverse eigh n HE (snd p) (fst b) (fst p) (snd b)) as (V & SV & PV & AV & _); auto; [intros i j; apply param_sym|].
  intros Y' S2. apply (least_moved m n X (fst (bw_mapping eigh n (snd p) (fst b) (fst p) (snd b))) V (snd (bw_mapping eigh n (snd p) (fst b) (fst p) (snd b)))); auto.
  left. intros j Hj. cbn [bw_mapping snd]. rewrite (msum_ext n _ (fun _ => 0%R)); [|intros; unfold p; cbn; ring]. rewrite RMat.msum_zero.
  unfold b, centre. rewrite HZ; [ring| |auto]. apply Forall_forall. intros mu Hmu. apply in_map_iff in Hmu as (d & <- & _). reflexivity.
Qed.

Lemma emp_sym b m X i j : emp_cov b m X i j = emp_cov b m X j i.
Proof. unfold emp_cov. f_equal. apply msum_ext. intros; ring. Qed.
(** ** CORAL: least when the features are uncorrelated in both domains, and not in general. *)
Theorem C218_coral_uncorrelated : forall eigh n ms mt Xs Xt, eigensolver n eigh -> 0 < ms -> 0 < mt ->
  (forall j l, j < n -> l < n -> j <> l -> cov_of ms Xs j l = 0%R /\ cov_of mt Xt j l = 0%R) -> (forall j, j < n -> (0 < cov_of ms Xs j j)%R /\ (0 < cov_of mt Xt j j)%R) ->
  let Y := coral_map_source eigh false n ms mt Xs Xt Xs in
  forall Y', same_cov ms n Y Y' -> (displacement ms n Xs Y <= displacement ms n Xs Y')%R /\ (displacement ms n Xs Y' = displacement ms n Xs Y -> forall i j, i < ms -> j < n -> Y' i j = Y i j).
Proof.
  intros eigh n ms mt Xs Xt HE Hs Ht H0 HV Y Y' (SM & SC).
  set (ds := fun j => cov_of ms Xs j j). set (dt := fun j => cov_of mt Xt j j).
  assert (ES : meq n n (emp_cov false ms Xs) (diag ds)).
  { intros i j Hi Hj. rewrite cov_emp. unfold diag. destruct (Nat.eqb_spec i j) as [->|N]; [reflexivity|]. now apply H0. }
  assert (ET : meq n n (emp_cov false mt Xt) (diag dt)).
  { intros i j Hi Hj. rewrite cov_emp. unfold diag. destruct (Nat.eqb_spec i j) as [->|N]; [reflexivity|]. now apply H0. }
  assert (W : meq n n (mmul n (invsqrtm eigh n (emp_cov false ms Xs)) (sqrtm eigh n (emp_cov false mt Xt))) (diag (fun j => / sqrt (ds j) * sqrt (dt j))%R)).
  { rewrite (invroot_diag eigh n HE _ ds), (root_diag eigh n HE _ dt), diag_mul; try reflexivity; auto; try (intros; apply emp_sym); intros i Hi; unfold ds, dt; destruct (HV i Hi); lra. }
  set (A := mmul n (invsqrtm eigh n (emp_cov false ms Xs)) (sqrtm eigh n (emp_cov false mt Xt))) in *.
  apply (least_moved ms n Xs A (diag (fun j => sqrt (ds j) * / sqrt (dt j))%R) (fun j => - msum n (fun k => col_mean ms Xs k * A k j))%R); auto.
  - intros i j. apply diag_sym.
  - apply diag_psd. intros j Hj. apply Rmult_le_pos; [apply sqrt_pos|]. left. apply Rinv_0_lt_compat, sqrt_lt_R0, (HV j Hj).
  - rewrite W, diag_mul. intros i j Hi Hj. unfold diag, delta. destruct (i =? j); auto. field. split; apply Rgt_not_eq, sqrt_lt_R0, (HV i Hi).
  - intros i j Hj. unfold Y, coral_map_source. rewrite mmul_assoc. fold A. unfold mmul at 1 2.
    enough (msum n (fun k => (Xs i k - col_mean ms Xs k) * A k j) + msum n (fun k => col_mean ms Xs k * A k j) = msum n (fun k => Xs i k * A k j))%R by lra.
    rewrite <- msum_plus. apply msum_ext. intros; ring.
  - now apply same_cov_second.
Qed.

Definition four (a b c d : R) (i : nat) : R := match i with 0 => a | 1 => b | 2 => c | _ => d end.
Definition sides : mat := fun i j => if j =? 0 then four 7 7 (-7) (-7) i else four 1 (-1) 1 (-1) i.
Definition slope : mat := fun i j => if j =? 0 then four 3 1 (-1) (-3) i else four 2 0 0 (-2) i.
Definition shorter : mat := fun i j => if j =? 0 then four (9/5) (13/5) (-13/5) (-9/5) i else four (8/5) (6/5) (-6/5) (-8/5) i.
Theorem C218_coral_longer : forall eigh, eigensolver 2 eigh ->
  let Y := coral_map_source eigh false 2 4 4 sides slope sides in
  pos_def 2 (cov_of 4 sides) /\ pos_def 2 (cov_of 4 slope) /\ same_cov 4 2 Y shorter /\ (displacement 4 2 sides shorter < displacement 4 2 sides Y)%R.
Proof.
  intros eigh HE Y.
  assert (L2 : forall j, j < 2 -> j = 0 \/ j = 1) by (intros; lia).
  assert (CS : meq 2 2 (cov_of 4 sides) (diag (fun j => if j =? 0 then 49 else 1)%R)).
  { intros i j Hi Hj. destruct (L2 i Hi) as [-> | ->], (L2 j Hj) as [-> | ->]; unfold cov_of, mean_of, diag, sides, four; cbn; field. }
  set (T2 := fun i j => if i =? 0 then (if j =? 0 then 2 else 1)%R else 1%R).
  assert (CT : meq 2 2 (mmul 2 T2 T2) (cov_of 4 slope)).
  { intros i j Hi Hj. destruct (L2 i Hi) as [-> | ->], (L2 j Hj) as [-> | ->]; unfold cov_of, mean_of, mmul, T2, slope, four; cbn; field. }
  assert (PT : pos_semidef 2 T2). { intros v. rewrite qf_sigma. unfold qf, T2. cbn. nra. }
  assert (PS : pos_def 2 (cov_of 4 sides)).
  { apply (pd_meq 2 (diag (fun j => if j =? 0 then 49 else 1)%R)); [now symmetry|]. apply diag_pd. intros i Hi. destruct (L2 i Hi) as [-> | ->]; cbn; lra. }
  assert (PL : pos_def 2 (cov_of 4 slope)).
  { apply (pd_meq 2 (mmul 2 T2 T2)); auto. intros v (i & Hi & Hv). rewrite qf_sigma. unfold qf, mmul, T2. cbn.
    destruct (Req_dec (v 1%nat) 0) as [E1|N1]; [|assert (0 < v 1%nat * v 1%nat)%R by (apply Rsqr_pos_lt; exact N1); pose proof (Rle_0_sqr (5 * v 0%nat + 3 * v 1%nat)) as Q; unfold Rsqr in Q; lra].
    destruct (L2 i Hi) as [-> | ->]; [|easy]. rewrite E1. assert (0 < v 0%nat * v 0%nat)%R by now apply Rsqr_pos_lt. nra. }
  assert (W : meq 2 2 (mmul 2 (invsqrtm eigh 2 (emp_cov false 4 sides)) (sqrtm eigh 2 (emp_cov false 4 slope))) (mmul 2 (diag (fun j => if j =? 0 then / 7 else 1)%R) T2)).
  { assert (I : meq 2 2 (invsqrtm eigh 2 (emp_cov false 4 sides)) (diag (fun j => if j =? 0 then / 7 else 1)%R)).
    { rewrite (invroot_diag eigh 2 HE _ (fun j => if j =? 0 then 49 else 1)%R).
      - intros i j Hi Hj. unfold diag. destruct (i =? j); auto. destruct (L2 i Hi) as [-> | ->]; cbn; [f_equal; replace 49%R with (7 * 7)%R by ring; apply sqrt_square; lra|rewrite sqrt_1; field].
      - intros; apply emp_sym.
      - intros i Hi. destruct (L2 i Hi) as [-> | ->]; cbn; lra.
      - intros i j Hi Hj. rewrite cov_emp. now apply CS. }
    assert (S : meq 2 2 (sqrtm eigh 2 (emp_cov false 4 slope)) T2).
    { assert (R1 : forall i j, T2 i j = T2 j i) by (intros i j; unfold T2; destruct (i =? 0), (j =? 0); auto).
      assert (R2 : meq 2 2 (mmul 2 T2 T2) (emp_cov false 4 slope)) by (intros i j Hi Hj; rewrite CT by auto; symmetry; apply cov_emp).
      assert (R3 : pos_semidef 2 (emp_cov false 4 slope)).
      { apply (psd_meq 2 (cov_of 4 slope)); [intros i j _ _; symmetry; apply cov_emp|]. intros v. destruct (classic_zero 2 v) as [Z0|Z0]; [rewrite Z0; lra|]. apply Rlt_le. now apply PL. }
      exact (root_is eigh 2 HE _ _ (emp_sym false 4 slope) R3 R1 PT R2). }
    now rewrite I, S. }
  assert (EY : forall i j, j < 2 -> Y i j = (if j =? 0 then 2 / 7 * sides i 0%nat + sides i 1%nat else / 7 * sides i 0%nat + sides i 1%nat)%R).
  { intros i j Hj. unfold Y, coral_map_source. rewrite mmul_assoc.
    assert (M0 : forall k, col_mean 4 sides k = 0%R) by (intros k; unfold col_mean, sides, four; cbn; destruct (k =? 0); field).
    rewrite (mmul_ext 2 _ (fun a b => sides a b) _ (mmul 2 (diag (fun j => if j =? 0 then / 7 else 1)%R) T2) i j); [|intros; rewrite M0; ring|intros; now apply W].
    unfold mmul, diag, T2. destruct (L2 j Hj) as [-> | ->]; cbn; field. }
  clearbody Y. split; [exact PS|]. split; [exact PL|]. split; [split|].
  - intros j Hj. unfold mean_of. cbn [sigma fold_right map seq]. destruct (L2 j Hj) as [-> | ->]; cbn; rewrite !EY by lia; unfold sides, shorter, four; cbn; field.
  - intros j l Hj Hl. unfold cov_of, mean_of. destruct (L2 j Hj) as [-> | ->], (L2 l Hl) as [-> | ->]; cbn; rewrite !EY by lia; unfold sides, shorter, four; cbn; field.
  - unfold displacement. cbn. rewrite !EY by lia. unfold sides, shorter, four. cbn. lra.
Qed.

(** ** Examples *)
(** The targets 10, 14 become 0, 2; in the other order, with the same mean and covariance, they would move farther. *)
Example C218_ex : eigensolver 1 eigh1 /\ gives_covariance 1 bary_first /\ gives_definite 1 bary_first /\ zero_to_zero 1 bary_first /\
  Forall (fun d : domain => 0 < fst (snd d) /\ pos_def 1 (cov_of (fst (snd d)) (snd (snd d)))) ([(1%Z, (2, two 0 2))] ++ [((-3)%Z, (2, two 10 14))]) /\
  same_cov 2 1 (two 0 2) (two 2 0) /\ (displacement 2 1 (two 10 14) (two 0 2) < displacement 2 1 (two 10 14) (two 2 0))%R.
Proof.
  split; [apply C185_ex|]. split; [apply C198_ex|]. split; [apply C198_ex|]. split.
  { intros [|mu ms] Cs H j Hj; [reflexivity|]. cbn. inversion H. subst. match goal with Q : forall j, _ -> mu j = _ |- _ => now apply Q | _ => auto end. }
  split; [repeat (constructor; [split; [cbn; lia|apply pd_two; lra]|]); constructor|]. split; [split|].
  - intros j Hj. unfold mean_of, two. cbn. field.
  - intros j l Hj Hl. unfold cov_of, mean_of, two. cbn. field.
  - unfold displacement, two. cbn. lra.
Qed.
Definition wide : mat := fun i j => if j =? 0 then four 1 1 (-1) (-1) i else four 3 (-3) 3 (-3) i.
Example C218_coral_ex : (exists eigh, eigensolver 2 eigh) /\ (forall j l, j < 2 -> l < 2 -> j <> l -> cov_of 4 sides j l = 0%R /\ cov_of 4 wide j l = 0%R) /\
  (forall j, j < 2 -> (0 < cov_of 4 sides j j)%R /\ (0 < cov_of 4 wide j j)%R) /\ cov_of 4 sides 0 0 = 49%R /\ cov_of 4 wide 0 0 = 1%R /\ cov_of 4 sides 1 1 = 1%R /\ cov_of 4 wide 1 1 = 9%R.
Proof.
  split; [apply C86_eigensolver_exists|].
  assert (E : cov_of 4 sides 0 0 = 49%R /\ cov_of 4 wide 0 0 = 1%R /\ cov_of 4 sides 1 1 = 1%R /\ cov_of 4 wide 1 1 = 9%R /\ cov_of 4 sides 0 1 = 0%R /\ cov_of 4 wide 0 1 = 0%R /\ cov_of 4 sides 1 0 = 0%R /\ cov_of 4 wide 1 0 = 0%R)
    by (repeat split; unfold cov_of, mean_of, sides, wide, four; cbn; field).
  destruct E as (E1 & E2 & E3 & E4 & E5 & E6 & E7 & E8). split; [|split; [|auto]].
  - intros j l Hj Hl N. destruct j as [|[|j]], l as [|[|l]]; try lia; auto.
  - intros j Hj. destruct j as [|[|j]]; try lia; rewrite ?E1, ?E2, ?E3, ?E4; lra.
Qed.
