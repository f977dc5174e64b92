(** C185: multi-domain Monge alignment gives every domain the mean and the covariance of the barycentre. *)
From Coq Require Import List ZArith Bool Arith Lia Reals Lra.
From Verif Require Import Np NpFacts MapModel MapSpec MapProofs2 RMat CovSpec CovProofs MongeModel MongeProofs.
Import ListNotations.
Local Open Scope nat_scope.

(** ** What is asked of POT's barycentre. *)
(** The barycentre of covariances is a covariance. *)
Definition gives_covariance (n : nat) (bary : list (nat -> R) -> list mat -> (nat -> R) * mat) : Prop :=
  forall ms Cs, Forall (fun C : mat => (forall i j, C i j = C j i) /\ pos_semidef n C) Cs ->
    (forall i j, snd (bary ms Cs) i j = snd (bary ms Cs) j i) /\ pos_semidef n (snd (bary ms Cs)).
(** The barycentre of zero means has mean zero. *)
Definition zero_to_zero (n : nat) (bary : list (nat -> R) -> list mat -> (nat -> R) * mat) : Prop :=
  forall ms Cs, Forall (fun mu : nat -> R => forall j, j < n -> mu j = 0%R) ms -> forall j, j < n -> fst (bary ms Cs) j = 0%R.
(** The barycentre of one Gaussian is that Gaussian. *)
Definition one_to_itself (n : nat) (bary : list (nat -> R) -> list mat -> (nat -> R) * mat) : Prop :=
  forall mu C, (forall i j, C i j = C j i) -> (forall j, j < n -> fst (bary [mu] [C]) j = mu j) /\ (forall j l, j < n -> l < n -> snd (bary [mu] [C]) j l = C j l).

Lemma getitem_update {V} (d e : list (Z * V)) k v : NoDup (map fst (d ++ e)) -> In (k, v) (d ++ e) -> dict_getitem Z.eqb k (dict_update Z.eqb d e) = Ok v.
Proof.
  intros ND I. unfold dict_getitem. rewrite (dict_get_update Z.eqb Z.eqb_eq). rewrite map_app in ND.
  assert (G : forall l, NoDup (map fst l) -> In (k, v) l -> dict_get Z.eqb k l = Some v) by (intros; now apply dict_get_NoDup; [apply Z.eqb_eq| |]).
  apply in_app_iff in I as [I|I].
  - assert (N : dict_get Z.eqb k (rev e) = None).
    { apply (dict_get_None Z.eqb Z.eqb_eq). rewrite map_rev, <- in_rev. intros H. clear - ND I H. induction (map fst d) as [|x l IH] eqn:E in d, ND, I |- *.
      - destruct d; [easy|discriminate]. - destruct d as [|[a b] d]; [easy|]. cbn in *. injection E as E1 E2. subst. inversion ND; subst. destruct I as [I|I].
        + injection I as -> ->. apply H2. apply in_app_iff. now right. + eapply IH; eauto. }
    rewrite N. rewrite (G d); auto. clear - ND. induction (map fst d); [constructor|]. cbn in ND. inversion ND; subst. constructor; auto. intros H. apply H1. apply in_app_iff. now left.
  - rewrite (G (rev e)); auto.
    + rewrite map_rev. apply NoDup_rev. clear - ND. induction (map fst d); auto. cbn in ND. inversion ND; auto.
    + now rewrite <- in_rev.
Qed.

Lemma ones_sum m : msum m (fun _ => 1%R) = INR m.
Proof. rewrite msum_const. ring. Qed.
Lemma param_mean m X j : snd (get_cov_mean true None m X) j = mean_of m X j.
Proof. cbn [get_cov_mean snd]. rewrite ones_sum. unfold mean_of. change (sigma m) with (msum m). f_equal. apply msum_ext. intros; ring. Qed.
Lemma param_cov m X j l : fst (get_cov_mean true None m X) j l = cov_of m X j l.
Proof.
  cbn [get_cov_mean fst]. rewrite ones_sum. unfold cov_of. change (sigma m) with (msum m). f_equal. apply msum_ext. intros i _.
  pose proof (param_mean m X j) as E1. pose proof (param_mean m X l) as E2. cbn [get_cov_mean snd] in E1, E2. rewrite ones_sum in E1, E2. rewrite E1, E2. ring.
Qed.
Lemma param_moment m X j l : fst (get_cov_mean false None m X) j l = moment_of m X j l.
Proof. cbn [get_cov_mean fst]. rewrite ones_sum. unfold moment_of. change (sigma m) with (msum m). f_equal. apply msum_ext. intros i _. ring. Qed.
Lemma param_sym b m X j l : fst (get_cov_mean b None m X) j l = fst (get_cov_mean b None m X) l j.
Proof. cbn [get_cov_mean fst]. f_equal. apply msum_ext. intros i _. ring. Qed.
Lemma param_psd b n m X : 0 < m -> pos_semidef n (fst (get_cov_mean b None m X)).
Proof.
  intros Hm v. destruct b.
  - erewrite sigma_ext2; [apply (emp_cov_nonneg false n m X v Hm)|]. intros i j. rewrite param_cov. reflexivity.
  - erewrite sigma_ext2; [apply (emp_cov_nonneg true n m X v Hm)|]. intros i j. rewrite param_moment. f_equal. f_equal. unfold moment_of, emp_cov. change (sigma m) with (msum m).
    f_equal. apply msum_ext. intros; ring.
Qed.

Section Stmt.
  Variables (eigh : mat -> (nat -> R) * mat) (bary : list (nat -> R) -> list mat -> (nat -> R) * mat) (n : nat).
  Hypothesis HE : eigensolver n eigh.
  Hypothesis HB : gives_covariance n bary.
  (** The mean and covariance the fit computes for the barycentre of the source domains. *)
  Definition centre (bias : bool) (sources : list domain) : (nat -> R) * mat :=
    bary (map (fun d => snd (get_cov_mean bias None (fst (snd d)) (snd (snd d)))) sources)
         (map (fun d => fst (get_cov_mean bias None (fst (snd d)) (snd (snd d)))) sources).

  Lemma lookup bias sources targets k m X : NoDup (map fst (sources ++ targets)) -> In (k, (m, X)) (sources ++ targets) ->
    let p := get_cov_mean bias None m X in let b := centre bias sources in
    dict_getitem Z.eqb k (mlm_fit_num eigh bary n bias sources targets) = Ok (bw_mapping eigh n (snd p) (fst b) (fst p) (snd b)).
  Proof.
    intros ND I p b. unfold mlm_fit_num. rewrite !map_map. apply getitem_update.
    - rewrite <- !map_app in *. rewrite map_map. cbn [fst]. exact ND.
    - rewrite <- map_app. apply in_map_iff. exists (k, (m, X)). split; auto.
  Qed.

  Lemma centre_cov bias sources : Forall (fun d : domain => 0 < fst (snd d)) sources ->
    (forall i j, snd (centre bias sources) i j = snd (centre bias sources) j i) /\ pos_semidef n (snd (centre bias sources)).
  Proof.
    intros H. apply HB. apply Forall_forall. intros C HC. apply in_map_iff in HC as (d & <- & Hd). split; [apply param_sym|]. apply param_psd.
    exact (proj1 (Forall_forall _ _) H d Hd).
  Qed.
End Stmt.

(** bias=True: any domain seen in fit, source or target, is mapped to rows with the mean and the covariance of the barycentre. *)
Theorem C185_same_moments : forall eigh bary n sources targets,
  eigensolver n eigh -> gives_covariance n bary ->
  NoDup (map fst (sources ++ targets)) -> Forall (fun d : domain => 0 < fst (snd d) /\ pos_def n (cov_of (fst (snd d)) (snd (snd d)))) (sources ++ targets) ->
  exists mu C, forall k m X, In (k, (m, X)) (sources ++ targets) -> exists Y,
    mlm_transform_num n (mlm_fit_num eigh bary n true sources targets) k X = Ok Y /\
    (forall j, j < n -> mean_of m Y j = mu j) /\ (forall j l, j < n -> l < n -> cov_of m Y j l = C j l).
Proof.
  intros eigh bary n sources targets HE HB ND H.
  assert (HS : Forall (fun d : domain => 0 < fst (snd d)) sources).
  { apply Forall_forall. intros d Hd. apply (proj1 (Forall_forall _ _) H d). apply in_app_iff. now left. }
  destruct (centre_cov bary n HB true sources HS) as (CS & CP).
  exists (fst (centre bary true sources)), (snd (centre bary true sources)). intros k m X I.
  destruct (proj1 (Forall_forall _ _) H _ I) as (Hm & HP). cbn [fst snd] in Hm, HP.
  unfold mlm_transform_num. rewrite (lookup eigh bary n true sources targets k m X ND I). cbn [bind]. eexists. split; [reflexivity|].
  set (p := get_cov_mean true None m X). set (b := centre bary true sources) in *. set (A := bw_mapping eigh n (snd p) (fst b) (fst p) (snd b)).
  split.
  - intros j Hj. rewrite mean_affine by auto. unfold A at 2. cbn [bw_mapping snd]. fold (fst A).
    rewrite (msum_ext n (fun k0 => snd p k0 * _)%R (fun k0 => mean_of m X k0 * fst A k0 j)%R); [ring|]. intros c Hc. unfold p. rewrite param_mean. reflexivity.
  - intros j l Hj Hl. rewrite cov_affine by auto.
    assert (E : meq n n (mmul n (mmul n (mT (fst A)) (fst p)) (fst A)) (snd b)).
    { apply bw_moment; auto; [intros; apply param_sym|]. intros v Hv. erewrite sigma_ext2; [apply (HP v Hv)|]. intros; unfold p; now rewrite param_cov. }
    rewrite <- (E j l Hj Hl). apply mmul_ext; auto. intros a Ha. apply mmul_ext; auto. intros c Hc. unfold p. now rewrite param_cov.
Qed.

(** bias=False: the maps are linear, and the second moments are matched instead. *)
Theorem C185_same_second_moments : forall eigh bary n sources targets,
  eigensolver n eigh -> gives_covariance n bary -> zero_to_zero n bary ->
  NoDup (map fst (sources ++ targets)) -> Forall (fun d : domain => 0 < fst (snd d) /\ pos_def n (moment_of (fst (snd d)) (snd (snd d)))) (sources ++ targets) ->
  exists C, forall k m X, In (k, (m, X)) (sources ++ targets) -> exists Y,
    mlm_transform_num n (mlm_fit_num eigh bary n false sources targets) k X = Ok Y /\
    (forall j l, j < n -> l < n -> moment_of m Y j l = C j l).
Proof.
  intros eigh bary n sources targets HE HB HZ ND H.
  assert (HS : Forall (fun d : domain => 0 < fst (snd d)) sources).
  { apply Forall_forall. intros d Hd. apply (proj1 (Forall_forall _ _) H d). apply in_app_iff. now left. }
  destruct (centre_cov bary n HB false sources HS) as (CS & CP).
  exists (snd (centre bary false sources)). intros k m X I.
  destruct (proj1 (Forall_forall _ _) H _ I) as (Hm & HP). cbn [fst snd] in Hm, HP.
  unfold mlm_transform_num. rewrite (lookup eigh bary n false sources targets k m X ND I). cbn [bind]. eexists. split; [reflexivity|].
  set (p := get_cov_mean false None m X). set (b := centre bary false sources) in *. set (A := bw_mapping eigh n (snd p) (fst b) (fst p) (snd b)).
  assert (B0 : forall j, j < n -> snd A j = 0%R).
  { intros j Hj. unfold A. cbn [bw_mapping snd]. rewrite (msum_ext n _ (fun _ => 0%R)); [|intros; unfold p; cbn; ring]. rewrite msum_zero.
    unfold b, centre. rewrite HZ; [ring| |auto]. apply Forall_forall. intros mu Hmu. apply in_map_iff in Hmu as (d & <- & _). reflexivity. }
  intros j l Hj Hl. unfold moment_of. change (sigma m) with (msum m). rewrite (msum_ext m _ (fun i => mmul n X (fst A) i j * mmul n X (fst A) i l)%R) by (intros; rewrite !B0 by auto; ring).
  rewrite moment_mul.
  assert (E : meq n n (mmul n (mmul n (mT (fst A)) (fst p)) (fst A)) (snd b)).
  { apply bw_moment; auto; [intros; apply param_sym|]. intros v Hv. erewrite sigma_ext2; [apply (HP v Hv)|]. intros; unfold p; now rewrite param_moment. }
  rewrite <- (E j l Hj Hl). apply mmul_ext; auto. intros a Ha. apply mmul_ext; auto. intros c Hc. unfold p. rewrite param_moment. reflexivity.
Qed.

(** A single source domain stays where it is: any row of that domain, seen in fit or not, is returned as it came. *)
Theorem C185_single_source : forall eigh bary n k m X targets (bias : bool),
  eigensolver n eigh -> gives_covariance n bary -> one_to_itself n bary ->
  NoDup (k :: map fst targets) -> 0 < m -> pos_def n (if bias then cov_of m X else moment_of m X) ->
  forall Z, exists Y, mlm_transform_num n (mlm_fit_num eigh bary n bias [(k, (m, X))] targets) k Z = Ok Y /\ forall i j, j < n -> Y i j = Z i j.
Proof.
  intros eigh bary n k m X targets bias HE HB H1 ND Hm HP Z.
  unfold mlm_transform_num. rewrite (lookup eigh bary n bias [(k, (m, X))] targets k m X); [|exact ND|now left]. cbn [bind]. eexists. split; [reflexivity|].
  destruct (centre_cov bary n HB bias [(k, (m, X))]) as (CS & CP); [repeat constructor; auto|].
  set (p := get_cov_mean bias None m X). set (b := centre bary bias [(k, (m, X))]) in *.
  destruct (H1 (snd p) (fst p) (param_sym bias m X)) as (M1 & C1).
  destruct (bw_identity eigh n HE (snd p) (fst b) (fst p) (snd b)) as (GA & Gb).
  - intros; apply param_sym.
  - intros v Hv. destruct bias; (erewrite sigma_ext2; [apply (HP v Hv)|]); intros; unfold p; now rewrite ?param_cov, ?param_moment.
  - exact CS.
  - exact C1.
  - exact M1.
  - intros i j Hj. rewrite Gb by auto. rewrite (mmul_ext n _ Z _ delta i j); auto. rewrite mmul_delta_r by auto. ring.
Qed.

(** One feature, two sources (variances 1 and 9) and a target (variance 4); the barycentre of two variances a, b is ((sqrt a + sqrt b) / 2)^2 = 4. *)
Definition eigh1 (C : mat) : (nat -> R) * mat := ((fun _ => C 0 0), (fun _ _ => 1%R)).
Definition lsum (l : list R) : R := fold_right Rplus 0%R l.
Definition bary1 (ms : list (nat -> R)) (Cs : list mat) : (nat -> R) * mat :=
  let q := (lsum (map (fun C : mat => sqrt (C 0%nat 0%nat)) Cs) / INR (length Cs))%R in
  ((fun j => lsum (map (fun mu : nat -> R => mu j) ms) / INR (length ms))%R, fun _ _ => (q * q)%R).
Definition two (a b : R) : mat := fun i _ => if i =? 0 then a else b.
Example C185_ex : eigensolver 1 eigh1 /\ gives_covariance 1 bary1 /\ zero_to_zero 1 bary1 /\ one_to_itself 1 (fun (ms : list (nat -> R)) (Cs : list mat) => (fst (bary1 ms Cs), match Cs with [C] => C | _ => snd (bary1 ms Cs) end)) /\
  (let S : list domain := [(1%Z, (2, two 0 2)); (2%Z, (2, two 1 7))] in let T : list domain := [((-3)%Z, (2, two 10 14))] in
   NoDup (map fst (S ++ T)) /\ Forall (fun d : domain => 0 < fst (snd d) /\ pos_def 1 (cov_of (fst (snd d)) (snd (snd d)))) (S ++ T) /\
   mean_of 2 (two 0 2) 0 <> mean_of 2 (two 10 14) 0 /\ cov_of 2 (two 0 2) 0 0 <> cov_of 2 (two 10 14) 0 0).
Proof.
  split.
  { intros C S i j Hi Hj. assert (i = 0) as -> by lia. assert (j = 0) as -> by lia. simpl. repeat split; ring. }
  split.
  { intros ms Cs _. split; [reflexivity|]. intros v. cbn. set (q := (_ / _)%R). pose proof (Rle_0_sqr (v 0%nat * q)) as H. unfold Rsqr in H. lra. }
  split.
  { intros ms Cs H j Hj. cbn. replace (lsum (map (fun mu => mu j) ms)) with 0%R; [unfold Rdiv; ring|]. induction H as [|mu ms Hmu _ IH]; cbn; auto. rewrite Hmu by auto. unfold lsum in IH. rewrite <- IH. ring. }
  split.
  { intros mu C S. split; [intros j _; cbn; field|reflexivity]. }
  cbv zeta.
  assert (PD : forall a b, (a <> b)%R -> pos_def 1 (cov_of 2 (two a b))).
  { intros a b N v (i & Hi & Hv). assert (i = 0) as -> by lia.
    change (0 < 0 + (0 + v 0%nat * cov_of 2 (two a b) 0 0 * v 0%nat))%R.
    assert (EC : cov_of 2 (two a b) 0 0 = ((a - b) * (a - b) / 4)%R) by (unfold cov_of, mean_of; cbn; field).
    rewrite EC. replace (0 + (0 + v 0%nat * ((a - b) * (a - b) / 4) * v 0%nat))%R with ((v 0%nat * v 0%nat) * (((a - b) * (a - b)) / 4))%R by field.
    apply Rmult_lt_0_compat; [now apply Rsqr_pos_lt|]. assert (0 < (a - b) * (a - b))%R by (apply Rsqr_pos_lt; lra). lra. }
  split; [repeat constructor; cbn; intuition discriminate|]. split.
  { repeat (constructor; [split; [cbn; lia|apply PD; lra]|]). constructor. }
  unfold cov_of, mean_of. cbn. split; intros E; lra.
Qed.
