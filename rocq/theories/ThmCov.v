(** Theorems C155 and C156: covariance estimates, and the weights of the Gaussian adapter. *)
From Coq Require Import List ZArith Bool Arith Lia Reals Lra.
From Verif Require Import Np NpFacts Spec RVec RVecFacts RMat UtilsModel UtilsSpec SelectModel ReweightModel ReweightSpec ThmReweight MapModel MapSpec MapProofs2 CovModel CovSpec CovProofs.
Import ListNotations.
Local Open Scope nat_scope.

(** ** C155 *)
Theorem C155_none : forall lw n m X assume_centered, exists C,
  estimate_covariance lw n m X ShNone assume_centered = Ok C /\
  forall j l, C j l = if assume_centered then moment_of m X j l else cov_of m X j l.
Proof.
  intros lw n m X b. eexists. split; [reflexivity|]. intros. destruct b; [apply moment_emp|apply cov_emp].
Qed.

(** A number: shrunk towards the mean variance, refused outside [0, 1]. *)
Theorem C155_number : forall lw n m X s, (0 <= s <= 1)%R -> exists C,
  estimate_covariance lw n m X (ShNum s) false = Ok C /\
  forall j l, C j l = ((1 - s) * cov_of m X j l + (if j =? l then s * mean_variance n m X else 0))%R.
Proof.
  intros lw n m X s Hs. cbn [estimate_covariance]. unfold shrunk_covariance.
  rewrite (proj2 (Rleb_iff 0 s)) by lra. rewrite (proj2 (Rleb_iff s 1)) by lra.
  eexists. split; [reflexivity|]. intros j l. reflexivity.
Qed.
Theorem C155_number_centered : forall lw n m X s, (0 <= s <= 1)%R -> exists C,
  estimate_covariance lw n m X (ShNum s) true = Ok C /\
  forall j l, C j l = ((1 - s) * moment_of m X j l + (if j =? l then s * (sigma n (fun i => moment_of m X i i) / INR n) else 0))%R.
Proof.
  intros lw n m X s Hs. cbn [estimate_covariance]. unfold shrunk_covariance.
  rewrite (proj2 (Rleb_iff 0 s)) by lra. rewrite (proj2 (Rleb_iff s 1)) by lra.
  eexists. split; [reflexivity|]. intros j l. unfold shrink. rewrite moment_emp. rewrite (msum_ext n _ (fun i => moment_of m X i i)) by (intros; apply moment_emp). reflexivity.
Qed.
Theorem C155_refused : forall lw n m X b,
  (forall s, (s < 0 \/ 1 < s)%R -> estimate_covariance lw n m X (ShNum s) b = Err ValueError) /\
  estimate_covariance lw n m X ShOther b = Err UnboundLocalError.
Proof.
  intros lw n m X b. split; [|reflexivity]. intros s [H|H]; cbn [estimate_covariance]; unfold shrunk_covariance.
  - replace (Rleb 0 s) with false; [reflexivity|]. symmetry. apply Rleb_false. lra.
  - replace (Rleb s 1) with false; [now rewrite andb_false_r|]. symmetry. apply Rleb_false. lra.
Qed.

(** "auto": the variances of the data exactly, the covariances shrunk by one common factor. *)
Theorem C155_auto : forall lw n m X b, intensity lw -> 0 < m -> all_vary n m X -> exists C d,
  estimate_covariance lw n m X ShAuto b = Ok C /\ (0 <= d <= 1)%R /\
  forall j l, j < n -> l < n -> C j l = (if j =? l then cov_of m X j l else (1 - d) * cov_of m X j l)%R.
Proof.
  intros lw n m X b HI Hm HV. cbn [estimate_covariance]. unfold ledoit_wolf.
  set (X' := standard_scaler (negb b) m X). set (d := lw n m (centred m X')).
  exists (fun j l => (scale_ m X j * shrink n d (emp_cov false m X') j l * scale_ m X l)%R), d.
  split; [reflexivity|]. split; [apply HI|]. intros j l Hj Hl.
  pose proof (scale_pos m X j Hm) as Sj. pose proof (scale_pos m X l Hm) as Sl.
  unfold shrink. change (cov_of m X j l) with (emp_cov false m X j l).
  assert (MU : (msum n (fun i => emp_cov false m X' i i) / INR n = 1)%R).
  { rewrite (msum_ext n _ (fun _ => 1%R)). 2:{ intros i Hi. apply standard_var; [assumption|apply HV; assumption]. }
    rewrite msum_const. field. apply not_0_INR. lia. }
  rewrite MU. destruct (Nat.eqb_spec j l) as [->|D].
  - unfold X'. rewrite standard_var by (auto; apply HV; auto). rewrite <- (scale_sq m X l) by (auto; apply HV; auto). ring.
  - unfold X'. rewrite cov_standard by assumption. field. split; lra.
Qed.

(** Whatever the estimate: symmetric, positive semidefinite, and definite as soon as something is shrunk and the data vary. *)
Theorem C155_covariance : forall lw n m X sh b C, intensity lw -> 0 < m ->
  estimate_covariance lw n m X sh b = Ok C -> symmetric n C /\ pos_semidef n C.
Proof.
  intros lw n m X sh b C HI Hm E. destruct sh as [| |s|]; cbn [estimate_covariance] in E.
  - injection E as <-. split; [intros i j _ _; apply emp_cov_sym|]. intros v. now apply emp_cov_nonneg.
  - injection E as <-. unfold ledoit_wolf. split.
    + intros i j _ _. rewrite (shrink_sym n _ _ (emp_cov_sym false m _) i j). ring.
    + intros v. rewrite qf_sigma, qf_rescale. apply shrink_psd; auto.
  - unfold shrunk_covariance in E. destruct (Rleb 0 s) eqn:A; [|discriminate]. destruct (Rleb s 1) eqn:B; [|discriminate].
    injection E as <-. apply Rleb_iff in A, B. split.
    + intros i j _ _. apply shrink_sym. intros; apply emp_cov_sym.
    + intros v. rewrite qf_sigma. apply shrink_psd; auto.
  - discriminate.
Qed.

Theorem C155_definite : forall lw n m X, intensity lw -> 0 < m -> (exists j, j < n /\ cov_of m X j j <> 0%R) ->
  (forall s C, (0 < s)%R -> estimate_covariance lw n m X (ShNum s) false = Ok C -> pos_def n C) /\
  (forall b C, (0 < lw n m (centred m (standard_scaler (negb b) m X)))%R -> estimate_covariance lw n m X ShAuto b = Ok C -> pos_def n C).
Proof.
  intros lw n m X HI Hm HX. split.
  - intros s C Hs E v Hv. cbn [estimate_covariance] in E. unfold shrunk_covariance in E.
    destruct (Rleb 0 s) eqn:A; [|discriminate]. destruct (Rleb s 1) eqn:B; [|discriminate].
    injection E as <-. apply Rleb_iff in B. rewrite qf_sigma. apply shrink_pd; auto.
  - intros b C Hd E v Hv. cbn [estimate_covariance] in E. injection E as <-. rewrite qf_sigma, qf_rescale. unfold ledoit_wolf.
    apply shrink_pd; auto.
    + split; [assumption|apply HI].
    + destruct HX as (j & Hj & HV). exists j. split; [assumption|]. rewrite standard_var; [lra|assumption|exact HV].
    + destruct Hv as (i & Hi & Hv). exists i. split; [assumption|]. apply Rmult_integral_contrapositive. split; [assumption|].
      apply Rgt_not_eq, scale_pos, Hm.
Qed.

(** Where the data lie does not matter (unless they are declared centred). *)
Theorem C155_translation : forall lw n m X t sh C, entries_only lw -> 0 < m ->
  estimate_covariance lw n m X sh false = Ok C -> exists C',
  estimate_covariance lw n m (moved t X) sh false = Ok C' /\ forall j l, j < n -> l < n -> C' j l = C j l.
Proof.
  intros lw n m X t sh C HL Hm E.
  assert (SC : forall j, scale_ m (moved t X) j = scale_ m X j) by (intros; unfold scale_; now rewrite emp_cov_moved).
  assert (EM : forall j l, emp_cov false m (moved t X) j l = emp_cov false m X j l) by (intros; now apply emp_cov_moved).
  destruct sh as [| |s|]; cbn [estimate_covariance] in E |- *.
  - injection E as <-. eexists. split; [reflexivity|]. auto.
  - injection E as <-. eexists. split; [reflexivity|]. intros j l Hj Hl. unfold ledoit_wolf. rewrite !SC. f_equal. f_equal.
    assert (CS : forall i a, standard_scaler (negb false) m (moved t X) i a = standard_scaler (negb false) m X i a).
    { intros. unfold standard_scaler. cbn [negb]. rewrite SC. unfold moved at 1. rewrite col_mean_moved by assumption.
      f_equal. ring. }
    assert (CC : forall i a, centred m (standard_scaler (negb false) m (moved t X)) i a = centred m (standard_scaler (negb false) m X) i a).
    { intros. rewrite !centred_standard by assumption. now rewrite SC, centred_moved. }
    rewrite (HL n m _ (centred m (standard_scaler (negb false) m X))) by (intros; apply CC).
    assert (EC : forall j l, emp_cov false m (standard_scaler (negb false) m (moved t X)) j l = emp_cov false m (standard_scaler (negb false) m X) j l).
    { intros. rewrite !cov_standard by assumption. now rewrite !SC, EM. }
    unfold shrink. rewrite EC. rewrite (msum_ext n _ (fun i => emp_cov false m (standard_scaler (negb false) m X) i i)) by (intros; apply EC).
    reflexivity.
  - unfold shrunk_covariance in *. destruct (Rleb 0 s && Rleb s 1); [|discriminate]. injection E as <-. eexists. split; [reflexivity|].
    intros j l _ _. unfold shrink. rewrite EM. rewrite (msum_ext n _ (fun i => emp_cov false m X i i)) by (intros; apply EM). reflexivity.
  - discriminate.
Qed.

(** With "auto" the data are always centred: declaring them centred changes nothing, although it does without shrinkage. *)
Theorem C155_assume_centered_refuted : forall lw n m X, entries_only lw -> 0 < m ->
  exists C C', estimate_covariance lw n m X ShAuto true = Ok C /\ estimate_covariance lw n m X ShAuto false = Ok C' /\
    forall j l, j < n -> l < n -> C j l = C' j l.
Proof.
  intros lw n m X HL Hm. cbn [estimate_covariance]. do 2 eexists. split; [reflexivity|]. split; [reflexivity|].
  intros j l Hj Hl. cbn [negb]. f_equal. f_equal. unfold ledoit_wolf.
  rewrite (HL n m _ (centred m (standard_scaler true m X))) by (intros; now rewrite !centred_standard).
  assert (EC : forall j l, emp_cov false m (standard_scaler false m X) j l = emp_cov false m (standard_scaler true m X) j l)
    by (intros; now rewrite !cov_standard).
  unfold shrink. rewrite EC. rewrite (msum_ext n _ (fun i => emp_cov false m (standard_scaler true m X) i i)) by (intros; apply EC).
  reflexivity.
Qed.

(** CORAL with any regularisation: the fitted map takes the estimate of the source covariance to that of the target. *)
Theorem C155_coral : forall lw eigh n ms mt Xs Xt reg b W Cs Ct, intensity lw -> eigensolver n eigh -> 0 < ms -> 0 < mt ->
  estimate_covariance lw n ms Xs reg b = Ok Cs -> estimate_covariance lw n mt Xt reg b = Ok Ct -> pos_def n Cs ->
  coral_fit lw eigh n ms mt Xs Xt reg b = Ok W ->
  forall j l, j < n -> l < n -> sigma n (fun a => sigma n (fun c => W c j * Cs c a) * W a l)%R = Ct j l.
Proof.
  intros lw eigh n ms mt Xs Xt reg b W Cs Ct HI HE Hs Ht Es Et HP E j l Hj Hl.
  unfold coral_fit in E. rewrite Es, Et in E. cbn [bind] in E. injection E as <-.
  assert (SY : forall m X C, estimate_covariance lw n m X reg b = Ok C -> forall i j, C i j = C j i).
  { clear. intros m X C E i j. destruct reg as [| |s|]; cbn [estimate_covariance] in E.
    - injection E as <-. apply emp_cov_sym.
    - injection E as <-. unfold ledoit_wolf. rewrite (shrink_sym n _ _ (emp_cov_sym false m _) i j). ring.
    - unfold shrunk_covariance in E. destruct (Rleb 0 s && Rleb s 1); [|discriminate]. injection E as <-.
      apply shrink_sym. intros; apply emp_cov_sym.
    - discriminate. }
  exact (whiten_colour eigh n Cs Ct HE (SY _ _ _ Es) HP (SY _ _ _ Et) (proj2 (C155_covariance lw n mt Xt reg b Ct HI Ht Et)) j l Hj Hl).
Qed.

(** One feature with values 1 and 3, declared centred: the second moment is 5, and with "auto" the variance 1 is returned. *)
Definition two_values : mat := fun i j => if i =? 0 then 1%R else 3%R.
Example C155_ex : exists C C',
  estimate_covariance (fun _ _ _ => 0%R) 1 2 two_values ShNone true = Ok C /\ C 0 0 = 5%R /\
  estimate_covariance (fun _ _ _ => 0%R) 1 2 two_values ShAuto true = Ok C' /\ C' 0 0 = 1%R.
Proof.
  cbn [estimate_covariance]. do 2 eexists. split; [reflexivity|]. split; [cbv; field|]. split; [reflexivity|].
  cbn beta. unfold ledoit_wolf, shrink. rewrite cov_standard by lia. cbn [Nat.eqb].
  assert (V : emp_cov false 2 two_values 0 0 = 1%R) by (cbv; field).
  assert (S : scale_ 2 two_values 0 = 1%R). { unfold scale_. rewrite V. destruct (Reqb 1 0); [reflexivity|apply sqrt_1]. }
  rewrite S, V. set (mu := (msum 1 _ / INR 1)%R). clearbody mu. field.
Qed.

(** ** C156 *)
Lemma gaussian_weights_map Row Row' (f : Row -> Row') ps pt ps' pt' X sda :
  (forall x, pt' (f x) / ps' (f x) = pt x / ps x)%R ->
  gaussian_weights Row' ps' pt' (map f X) sda = gaussian_weights Row ps pt X sda.
Proof.
  intros H. unfold gaussian_weights.
  assert (R : rw_check Row' (map f X) sda = rw_check Row X sda).
  { unfold rw_check. now rewrite map_length. }
  rewrite R. destruct (rw_check Row X sda) as [sd|e]; cbn [bind]; [|reflexivity].
  destruct (source_positions sd) as [idx|e]; cbn [bind]; [|reflexivity].
  assert (T : np_take idx (map f X) = (y <- np_take idx X ;; Ok (map f y))).
  { clear. unfold np_take. induction idx as [|i idx IH]; [reflexivity|]. cbn [mapM]. rewrite nth_error_map.
    destruct (nth_error X i); cbn [option_map bind]; [|reflexivity]. rewrite IH. match goal with |- context [mapM ?g idx] => destruct (mapM g idx) end; reflexivity. }
  rewrite T. destruct (np_take idx X) as [Xs|e]; cbn [bind]; [|reflexivity].
  rewrite map_length. f_equal. rewrite !map_map.
  unfold np_map2. rewrite !map_length, !Nat.eqb_refl. f_equal.
  clear -H. induction Xs as [|x Xs IH]; [reflexivity|]. cbn. now rewrite H, IH.
Qed.

(** Moving all the data together, in fit and afterwards, changes no weight. *)
Theorem C156_translation : forall lw pdf n ms mt Xs Xt reg g t, entries_only lw -> gaussian_density pdf -> 0 < ms -> 0 < mt ->
  gauss_fit lw n ms mt Xs Xt reg = Ok g -> exists g',
  gauss_fit lw n ms mt (moved t Xs) (moved t Xt) reg = Ok g' /\
  forall X sda, gauss_weights pdf n g' (map (fun x j => x j + t j)%R X) sda = gauss_weights pdf n g X sda.
Proof.
  intros lw pdf n ms mt Xs Xt reg g t HL HG Hs Ht E. unfold gauss_fit in E.
  destruct (estimate_covariance lw n ms Xs reg false) as [cs|] eqn:Es; [|discriminate].
  destruct (estimate_covariance lw n mt Xt reg false) as [ct|] eqn:Et; [|discriminate]. cbn [bind] in E. injection E as <-.
  destruct (C155_translation _ _ _ _ t _ _ HL Hs Es) as (cs' & Es' & Hcs).
  destruct (C155_translation _ _ _ _ t _ _ HL Ht Et) as (ct' & Et' & Hct).
  eexists. split. { unfold gauss_fit. rewrite Es', Et'. reflexivity. }
  intros X sda. unfold gauss_weights. cbn [g_mean_s g_cov_s g_mean_t g_cov_t].
  apply gaussian_weights_map. intros x.
  assert (P : forall m Xd C C', 0 < m -> (forall j l, j < n -> l < n -> C' j l = C j l) ->
    pdf n (fun j => (x j + t j)%R) (col_mean m (moved t Xd)) C' = pdf n x (col_mean m Xd) C).
  { intros m Xd C C' Hm HC. apply HG; [|assumption]. intros j Hj. rewrite col_mean_moved by assumption. ring. }
  rewrite (P ms Xs cs cs'), (P mt Xt ct ct') by assumption. reflexivity.
Qed.

(** The units of the features do not matter, without shrinkage or with the default one. *)
Theorem C156_units : forall lw pdf n ms mt Xs Xt reg g d, entries_only lw -> gaussian_density pdf -> density_units pdf ->
  0 < ms -> 0 < mt -> units n d -> all_vary n ms Xs -> all_vary n mt Xt -> reg = ShNone \/ reg = ShAuto ->
  gauss_fit lw n ms mt Xs Xt reg = Ok g -> exists g',
  gauss_fit lw n ms mt (in_units d Xs) (in_units d Xt) reg = Ok g' /\
  forall X sda, gauss_weights pdf n g' (map (fun x j => d j * x j)%R X) sda = gauss_weights pdf n g X sda.
Proof.
  intros lw pdf n ms mt Xs Xt reg g d HL HG HU Hs Ht Hd Vs Vt Hr E.
  assert (EST : forall m X C, 0 < m -> all_vary n m X -> estimate_covariance lw n m X reg false = Ok C -> exists C',
    estimate_covariance lw n m (in_units d X) reg false = Ok C' /\ forall j l, j < n -> l < n -> C' j l = (d j * C j l * d l)%R).
  { clear -HL Hd Hr. intros m X C Hm V E. destruct Hr as [-> | ->]; cbn [estimate_covariance] in *; injection E as <-.
    - eexists. split; [reflexivity|]. intros. apply emp_cov_scaled.
    - eexists. split; [reflexivity|]. intros j l Hj Hl.
      assert (SC : forall a, a < n -> scale_ m (in_units d X) a = (d a * scale_ m X a)%R).
      { intros. apply scale_scaled; [assumption|now apply Hd|now apply V]. }
      assert (SP : forall a, (0 < scale_ m X a)%R) by (intros; now apply scale_pos).
      assert (CC : forall i a, a < n -> centred m (standard_scaler (negb false) m (in_units d X)) i a = centred m (standard_scaler (negb false) m X) i a).
      { intros i a Ha. rewrite !centred_standard by assumption. rewrite SC, centred_scaled by assumption.
        specialize (SP a). specialize (Hd a Ha). field. split; lra. }
      assert (EC : forall a b, a < n -> b < n -> emp_cov false m (standard_scaler (negb false) m (in_units d X)) a b = emp_cov false m (standard_scaler (negb false) m X) a b).
      { intros a b Ha Hb. rewrite !emp_cov_centred. f_equal. apply msum_ext. intros. now rewrite !CC. }
      unfold ledoit_wolf. rewrite (HL n m _ (centred m (standard_scaler (negb false) m X))) by (intros; now apply CC).
      unfold shrink. rewrite EC by assumption.
      rewrite (msum_ext n _ (fun i => emp_cov false m (standard_scaler (negb false) m X) i i)) by (intros; now apply EC).
      rewrite !SC by assumption. cbn [negb]. ring. }
  unfold gauss_fit in E.
  destruct (estimate_covariance lw n ms Xs reg false) as [cs|] eqn:Es; [|discriminate].
  destruct (estimate_covariance lw n mt Xt reg false) as [ct|] eqn:Et; [|discriminate]. cbn [bind] in E. injection E as <-.
  destruct (EST _ _ _ Hs Vs Es) as (cs' & Es' & Hcs). destruct (EST _ _ _ Ht Vt Et) as (ct' & Et' & Hct).
  destruct (HU n d Hd) as (k & Hk & HK).
  eexists. split. { unfold gauss_fit. rewrite Es', Et'. reflexivity. }
  intros X sda. unfold gauss_weights. cbn [g_mean_s g_cov_s g_mean_t g_cov_t].
  apply gaussian_weights_map. intros x.
  assert (P : forall m Xd C C', (forall j l, j < n -> l < n -> C' j l = (d j * C j l * d l)%R) ->
    pdf n (fun j => (d j * x j)%R) (col_mean m (in_units d Xd)) C' = (k * pdf n x (col_mean m Xd) C)%R).
  { intros m Xd C C' HC. rewrite <- HK. apply HG; [|assumption]. intros j Hj. rewrite col_mean_scaled. reflexivity. }
  rewrite (P ms Xs cs cs') by assumption. rewrite (P mt Xt ct ct') by assumption.
  unfold Rdiv. destruct (Req_dec (pdf n x (col_mean ms Xs) cs) 0) as [Z|Z].
  - rewrite Z. rewrite Rmult_0_r. rewrite Rinv_0. ring.
  - field. split; lra.
Qed.

(** Source and target with the same means and covariances: every source sample weighs 1. *)
Theorem C156_no_shift : forall lw pdf n ms mt Xs Xt reg g X sda w, gaussian_density pdf ->
  gauss_fit lw n ms mt Xs Xt reg = Ok g ->
  (forall j, j < n -> mean_of ms Xs j = mean_of mt Xt j) ->
  (forall j l, j < n -> l < n -> g_cov_s g j l = g_cov_t g j l) ->
  (forall x, pdf n x (g_mean_s g) (g_cov_s g) <> 0%R) ->
  gauss_weights pdf n g X sda = Ok w ->
  let sd := eff_domain (length X) sda in weights_at sd w (map (fun _ => 1%R) (rows_of is_source sd X)).
Proof.
  intros lw pdf n ms mt Xs Xt reg g X sda w HG E HM HC HP HW sd.
  assert (D : forall x, (pdf n x (g_mean_t g) (g_cov_t g) / pdf n x (g_mean_s g) (g_cov_s g) = 1)%R).
  { intros x. rewrite (HG n x (g_mean_t g) (g_cov_t g) x (g_mean_s g) (g_cov_s g)).
    - field. apply HP.
    - intros j Hj. unfold gauss_fit in E. destruct (estimate_covariance lw n ms Xs reg false); [|discriminate].
      destruct (estimate_covariance lw n mt Xt reg false); [|discriminate]. cbn [bind] in E. injection E as <-. cbn [g_mean_s g_mean_t].
      rewrite !col_mean_of, HM by assumption. reflexivity.
    - intros j l Hj Hl. symmetry. now apply HC. }
  unfold gauss_weights in HW.
  pose proof (ThmReweight.C34_gaussian _ _ _ _ _ _ HW) as Q. cbn beta zeta in Q. fold sd in Q.
  rewrite (map_ext _ (fun _ => 1%R)) in Q; [exact Q|]. intros x. apply D.
Qed.

(** A density of the first feature (heavy-tailed, to stay rational): the contracts hold; source values 1 and 3, target values 2 and 6. *)
Definition heavy_tail (n : nat) (x m : nat -> R) (C : mat) : R :=
  match n with 0 => 1%R | S _ => let u := Rminus (x 0) (m 0) in (/ (C 0%nat 0%nat + u * u))%R end.
Definition twice : mat := fun i j => if i =? 0 then 2%R else 6%R.
Example C156_ex : gaussian_density heavy_tail /\ density_units heavy_tail /\
  exists g, gauss_fit (fun _ _ _ => 0%R) 1 2 2 two_values twice ShNone = Ok g /\
    gauss_weights heavy_tail 1 g [fun _ => 3%R; fun _ => 2%R] (SDArr [1; -2]%Z) = Ok [(2 / 5)%R; 0%R].
Proof.
  split; [|split].
  - intros [|n] x m C x' m' C' Hx HC; [reflexivity|]. cbn [heavy_tail]. rewrite (Hx 0), (HC 0 0) by lia. reflexivity.
  - intros [|n] d Hd.
    + exists 1%R. split; [lra|]. intros. cbn. ring.
    + exists (/ (d 0%nat * d 0%nat))%R. assert (0 < d 0%nat)%R by (apply Hd; lia). split.
      * apply Rinv_0_lt_compat. now apply Rmult_lt_0_compat.
      * intros x m C. cbn [heavy_tail]. rewrite <- Rinv_mult. f_equal. ring.
  - eexists. split; [reflexivity|]. unfold gauss_weights, gaussian_weights. cbn -[Rdiv Rmult Rplus Rminus emp_cov col_mean Rinv].
    assert (A : emp_cov false 2 two_values 0 0 = 1%R) by (cbv; field).
    assert (B : emp_cov false 2 twice 0 0 = 4%R) by (cbv; field).
    assert (C : col_mean 2 two_values 0 = 2%R) by (cbv; field).
    assert (D : col_mean 2 twice 0 = 4%R) by (cbv; field).
    cbn [g_mean_s g_cov_s g_mean_t g_cov_t]. rewrite ?A, ?B, ?C, ?D.
    do 2 f_equal. field.
Qed.
