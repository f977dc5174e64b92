(** C231, continued: CORAL, Gaussian reweighting and soft neighbourhood density with a target domain of a single sample. *)
From Coq Require Import List ZArith QArith Bool Arith Lia Reals Lra Psatz.
From Verif Require Import Np NpFacts Labels Spec SpecFacts UtilsModel SelectModel RVec RVecFacts MetricsModel MetricsSpec ThmMetrics
  ReweightModel MapModel MapSpec MapProofs RMat MapProofs2 ThmMap CovModel CoralRegModel SingleModel.
Import ListNotations.
Local Open Scope nat_scope.

Lemma msum_sq_zero n f : msum n (fun k => f k * f k)%R = 0%R -> forall k, k < n -> f k = 0%R.
Proof.
  induction n as [|n IH]; intros H k Hk; [lia|]. cbn [msum] in H.
  assert (P : (0 <= msum n (fun k => f k * f k))%R) by (apply msum_nonneg; intros; nra).
  assert (Q : f n = 0%R) by nra. destruct (Nat.eq_dec k n) as [->|]; [exact Q|]. apply IH; [nra|lia].
Qed.
Lemma one_cov X j l : emp_cov false 1 X j l = 0%R.
Proof. unfold emp_cov, col_mean. cbn. field. Qed.
Lemma shrink_zero n s C : (forall j l, C j l = 0%R) -> forall j l, shrink n s C j l = 0%R.
Proof.
  intros H j l. unfold shrink. rewrite H. rewrite (msum_ext n _ (fun _ => 0%R)) by (intros; apply H). rewrite msum_zero. destruct (j =? l); unfold Rdiv; ring.
Qed.
Lemma one_estimate lw n X reg C : estimate_covariance lw n 1 X reg false = Ok C -> forall j l, C j l = 0%R.
Proof.
  destruct reg as [| |s|]; cbn [estimate_covariance negb]; intros E j l.
  - injection E as <-. apply one_cov.
  - injection E as <-. unfold ledoit_wolf. rewrite (shrink_zero n _ _ (one_cov _)). ring.
  - unfold shrunk_covariance in E. destruct (Rleb 0 s && Rleb s 1); [|discriminate]. injection E as <-. apply shrink_zero. apply one_cov.
  - discriminate.
Qed.
Lemma sigma_zero n : sigma n (fun _ => 0%R) = 0%R.
Proof. induction n as [|n IH]; [reflexivity|]. cbn. rewrite IH. ring. Qed.
Lemma sigma_ext' n f g : (forall i, f i = g i) -> sigma n f = sigma n g.
Proof. intros H. induction n as [|n IH]; [reflexivity|]. cbn. now rewrite IH, H. Qed.
Lemma quad_zero n (v : nat -> R) C : (forall a b, C a b = 0%R) -> sigma n (fun i => sigma n (fun j => v i * C i j * v j)%R) = 0%R.
Proof.
  intros H. rewrite (sigma_ext' n _ (fun _ => 0%R)); [apply sigma_zero|]. intros i. rewrite (sigma_ext' n _ (fun _ => 0%R)); [apply sigma_zero|]. intros j. rewrite H. ring.
Qed.

(** CORAL with every reg: all source rows, those of the fit and later ones, are moved onto the target sample, which centring has moved to the origin. *)
Theorem C231_coral : forall lw eigh n ms Xs Xt reg W Cs, eigensolver n eigh -> estimate_covariance lw n ms Xs reg false = Ok Cs -> pos_def n Cs ->
  coral_fit lw eigh n ms 1 Xs Xt reg false = Ok W -> forall c rows i j, j < n ->
  coral_rows false n c W rows i j = 0%R /\ coral_map_target false 1 Xt Xt 0 j = 0%R.
Proof.
  intros lw eigh n ms Xs Xt reg W Cs HE Es _ E c rows i j Hj. split.
  - unfold coral_fit in E. rewrite Es in E. cbn [bind] in E. apply bind_ok in E as [C [EC E]]. injection E as <-.
    pose proof (one_estimate _ _ _ _ _ EC) as Zc.
    assert (B : forall k, k < n -> sqrtm eigh n C k j = 0%R).
    { apply msum_sq_zero. rewrite <- (Zc j j). refine (_ : mmul n (mT (sqrtm eigh n C)) (sqrtm eigh n C) j j = C j j). apply sqrtm_spec; auto.
      - intros a b. now rewrite !Zc.
      - intros v. rewrite quad_zero by exact Zc. lra. }
    unfold coral_rows, mmul. rewrite (msum_ext n _ (fun _ => 0%R)); [apply msum_zero|]. intros k Hk.
    rewrite (msum_ext n _ (fun _ => 0%R)); [rewrite msum_zero; ring|]. intros l Hl. rewrite (B l Hl). ring.
  - unfold coral_map_target, col_mean. cbn. field.
Qed.

(** When both estimates are regular the weights are those of CovModel. *)
Lemma gauss_compute_regular : forall pdf regular n g X sda, regular n (g_cov_s g) = true -> regular n (g_cov_t g) = true ->
  gauss_compute pdf regular n g X sda = gauss_weights pdf n g X sda.
Proof. intros pdf regular n g X sda Hs Ht. unfold gauss_compute, gauss_weights, gaussian_weights, mvn_pdf. rewrite Hs, Ht. reflexivity. Qed.
(** REFUTED for Gaussian reweighting: the fit succeeds, and with every reg the weights are refused, by an error about a singular matrix. *)
Theorem C231_gaussian_refuted : forall lw pdf regular n ms Xs Xt reg g X sda, (forall C, regular n C = true -> pos_def n C) -> 0 < n ->
  gauss_fit lw n ms 1 Xs Xt reg = Ok g -> (exists sd, rw_check (nat -> R) X sda = Ok sd /\ exists idx Xc, source_positions sd = Ok idx /\ np_take idx X = Ok Xc) ->
  gauss_compute pdf regular n g X sda = Err ValueError.
Proof.
  intros lw pdf regular n ms Xs Xt reg g X sda HR Hn E (sd & E1 & idx & Xc & E2 & E3). unfold gauss_fit in E. apply bind_ok in E as [cs [_ E]]. apply bind_ok in E as [ct [Ec E]]. injection E as <-.
  pose proof (one_estimate _ _ _ _ _ Ec) as Zc. unfold gauss_compute. rewrite E1. cbn [bind]. rewrite E2. cbn [bind]. rewrite E3. cbn [bind]. unfold mvn_pdf at 1. cbn [g_cov_t].
  destruct (regular n ct) eqn:Rg; [|reflexivity]. exfalso. apply HR in Rg. specialize (Rg (fun _ => 1%R)). rewrite quad_zero in Rg by exact Zc.
  assert (0 < 0)%R; [|lra]. apply Rg. exists 0. split; [exact Hn|lra].
Qed.

(** SoftNeighborhoodDensity of a single target sample is 0. *)
Theorem C231_density : forall Row sign pp T (X : list Row) y sd r,
  (forall A d P, pp A d = Ok P -> length P = length A /\ row_stochastic P) ->
  length X = length sd -> how_many is_target sd = 1 -> snd_score Row sign pp T X y (SDArr sd) = Ok r -> r = 0%R.
Proof.
  intros Row sign pp T X y sd r Hp L H1 E. destruct (C47_mean_of_entropies Row sign pp T X y sd r Hp L) as (P & D & _ & H); [lia|exact E|].
  cbv zeta in H. rewrite H1 in H. destruct H as (_ & _ & _ & -> & [A B]). cbn in B. rewrite ln_1 in B. assert (Q : mean (map entropy D) = 0%R) by lra. rewrite Q. ring.
Qed.

(** Sources -1 and 1, target 5, one feature, no regularisation: CORAL moves both sources to 0, Gaussian reweighting refuses. *)
Example C231_ex2 : let Xs := fun i _ : nat => (if i =? 0 then -1 else 1)%R in let Xt := fun _ _ : nat => 5%R in
  let eigh := fun C : mat => ((fun _ : nat => C 0 0), (fun _ _ : nat => 1%R)) in
  eigensolver 1 eigh /\ (exists Cs, estimate_covariance (fun _ _ _ => 0%R) 1 2 Xs ShNone false = Ok Cs /\ pos_def 1 Cs) /\
  (exists W, coral_fit (fun _ _ _ => 0%R) eigh 1 2 1 Xs Xt ShNone false = Ok W) /\
  (exists g, gauss_fit (fun _ _ _ => 0%R) 1 2 1 Xs Xt ShNone = Ok g /\
    gauss_compute (fun _ _ _ _ => 1%R) (fun _ C => Rltb 0 (C 0 0)) 1 g [(fun _ => -1); (fun _ => 1); (fun _ => 5)]%R (SDArr [1; 1; -2]%Z) = Err ValueError) /\
  (exists r, snd_score nat 1%R (fun A _ => Ok (map (fun _ => [1; 0]%R) A)) 1%R [7; 8] [VNum 0; VNum 1] (SDArr [1; -2]%Z) = Ok r).
Proof.
  cbv zeta. split; [|split; [|split; [|split]]].
  - intros C _. intros [|i] [|j] Hi Hj; try lia. cbn. repeat split; ring.
  - eexists. split; [reflexivity|]. intros v [i [Hi Hv]]. assert (i = 0) by lia. subst i. cbn. unfold emp_cov, col_mean. cbn.
    assert (0 < v 0%nat * v 0%nat)%R by (destruct (Rlt_dec (v 0%nat) 0); nra). nra.
  - eexists. reflexivity.
  - eexists. split; [reflexivity|]. eapply (C231_gaussian_refuted (fun _ _ _ => 0%R) _ _ 1 2 (fun i _ => (if i =? 0 then -1 else 1)%R) (fun _ _ => 5%R) ShNone).
    + intros C H v [i [Hi Hv]]. assert (i = 0) by lia. subst i. cbn. assert (0 < C 0%nat 0%nat)%R by (unfold Rltb in H; destruct (Rlt_dec 0 (C 0%nat 0%nat)); [assumption|discriminate]).
      assert (0 < v 0%nat * v 0%nat)%R by (destruct (Rlt_dec (v 0%nat) 0); nra). assert (0 < (v 0%nat * v 0%nat) * C 0%nat 0%nat)%R by nra. lra.
    + lia.
    + reflexivity.
    + eexists. split; [reflexivity|]. do 2 eexists. split; reflexivity.
  - eexists. reflexivity.
Qed.
