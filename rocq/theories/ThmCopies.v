(** C190: giving every sample several times changes nothing. *)
From Coq Require Import String List ZArith QArith Bool Arith Lia Reals Lra FunctionalExtensionality.
From Verif Require Import Np NpFacts Labels Spec SpecFacts UtilsModel UtilsSpec UtilsProofs UtilsProofs2 SelectModel RVec RVecFacts ReweightModel
  MapModel MapSpec RMat SubProofs CovModel CovSpec MongeModel MetricsModel MetricsSpec MetricsProofs MetricsProofs2 ThmMetrics LossModel LossSpec LossProofs ThmLoss.
Import ListNotations.
Local Open Scope nat_scope.
Local Open Scope list_scope.

(** ** Specification *)
(** [k] copies of a list, and of the [m] rows of a matrix (as np.tile makes them): row i of the copies is row i mod m. *)
Definition copies {A} (k : nat) (l : list A) : list A := concat (repeat l k).
Definition tiled (m : nat) (X : mat) : mat := fun i => X (i mod m).
(** The rows of a domain given [k] times. *)
Definition tiled_domain (kd : nat * domain) : domain := (fst (snd kd), (fst kd * fst (snd (snd kd)), tiled (fst (snd (snd kd))) (snd (snd (snd kd))))).
(** A predictor that treats samples (with their domain labels) one by one. *)
Definition one_by_one {Row B} (f : list Row -> list Z -> res (list B)) (g : Row -> Z -> B) : Prop :=
  forall X sd P, f X sd = Ok P -> P = map (fun p => g (fst p) (snd p)) (combine X sd).

(** ** Proofs *)
Lemma msum_tiled k m f : 0 < m -> msum (k * m) (fun i => f (i mod m)) = (INR k * msum m f)%R.
Proof.
  intros Hm. induction k as [|k IH]; [cbn; lra|]. replace (S k * m) with (k * m + m) by lia. rewrite msum_split, IH, S_INR.
  rewrite (msum_ext m (fun i => f ((k * m + i) mod m)) f); [lra|]. intros i Hi. f_equal. rewrite Nat.add_comm, Nat.mod_add by lia. now apply Nat.mod_small.
Qed.
Lemma ratio k m a : 0 < k -> 0 < m -> (INR k * a / INR (k * m) = a / INR m)%R.
Proof. intros Hk Hm. rewrite mult_INR. field. split; apply not_0_INR; lia. Qed.
Lemma mean_tiled k m X : 0 < k -> 0 < m -> col_mean (k * m) (tiled m X) = col_mean m X.
Proof.
  intros Hk Hm. apply functional_extensionality. intros j. unfold col_mean, tiled. rewrite (msum_tiled k m (fun i => X i j)) by auto. now apply ratio.
Qed.
Lemma cov_tiled b k m X : 0 < k -> 0 < m -> emp_cov b (k * m) (tiled m X) = emp_cov b m X.
Proof.
  intros Hk Hm. unfold emp_cov. rewrite mean_tiled by auto. apply functional_extensionality. intros j. apply functional_extensionality. intros l. unfold tiled.
  set (c := if b then _ else _). rewrite (msum_tiled k m (fun i => (X i j - c j) * (X i l - c l))%R) by auto. now apply ratio.
Qed.
Lemma param_tiled b k m X : 0 < k -> 0 < m -> get_cov_mean b None (k * m) (tiled m X) = get_cov_mean b None m X.
Proof.
  intros Hk Hm. unfold get_cov_mean, tiled. rewrite !msum_const.
  assert (M : (fun j => msum (k * m) (fun i => 1 * X (i mod m) j) / (INR (k * m) * 1))%R = (fun j => msum m (fun i => 1 * X i j) / (INR m * 1))%R).
  { apply functional_extensionality. intros j. rewrite (msum_tiled k m (fun i => 1 * X i j)%R) by auto. rewrite !Rmult_1_r. now apply ratio. }
  rewrite M. set (c := if b then _ else _). f_equal. apply functional_extensionality. intros j. apply functional_extensionality. intros l.
  rewrite (msum_tiled k m (fun i => 1 * (X i j - c j) * (X i l - c l))%R) by auto. rewrite !Rmult_1_r. now apply ratio.
Qed.
Lemma estimate_tiled lw n k m X sh b : 0 < k -> 0 < m -> sh <> ShAuto ->
  estimate_covariance lw n (k * m) (tiled m X) sh b = estimate_covariance lw n m X sh b.
Proof. intros Hk Hm N. destruct sh; [| contradiction | |]; cbn [estimate_covariance]; now rewrite ?cov_tiled. Qed.

Lemma copies_length {A} k (l : list A) : length (copies k l) = k * length l.
Proof. unfold copies. induction k as [|k IH]; cbn; [auto|]. now rewrite app_length, IH. Qed.
Lemma copies_map {A B} (f : A -> B) k l : map f (copies k l) = copies k (map f l).
Proof. unfold copies. induction k as [|k IH]; cbn; [auto|]. now rewrite map_app, IH. Qed.
Lemma copies_combine {A B} k (l : list A) (l' : list B) : length l = length l' -> combine (copies k l) (copies k l') = copies k (combine l l').
Proof.
  intros L. assert (A2 : forall (l : list A) (l' : list B) u v, length l = length l' -> combine (l ++ u) (l' ++ v) = combine l l' ++ combine u v).
  { clear. induction l as [|a l IH]; intros [|b l'] u v L; try discriminate; auto. cbn. rewrite IH by (now injection L). reflexivity. }
  unfold copies. induction k as [|k IH]; [reflexivity|]. cbn [repeat concat]. now rewrite A2, IH.
Qed.
Lemma copies_concat {A} k (M : list (list A)) : concat (copies k M) = copies k (concat M).
Proof. unfold copies. induction k as [|k IH]; cbn; [auto|]. now rewrite concat_app, IH. Qed.
Lemma copies_vsum k l : vsum (copies k l) = (INR k * vsum l)%R.
Proof. unfold copies. induction k as [|k IH]; [cbn; lra|]. cbn [repeat concat]. rewrite RVecFacts.vsum_app, IH, S_INR. lra. Qed.
Lemma copies_mean k l : 0 < k -> mean (copies k l) = mean l.
Proof.
  intros Hk. unfold mean. rewrite copies_vsum, copies_length. destruct l as [|a l]; [cbn; rewrite Nat.mul_0_r; cbn; unfold Rdiv; ring|].
  apply ratio; cbn; lia.
Qed.
Lemma copies_rows {A} p k sd (xs : list A) : length sd = length xs -> rows_of p (copies k sd) (copies k xs) = copies k (rows_of p sd xs).
Proof.
  intros L. unfold copies. induction k as [|k IH]; [reflexivity|]. cbn [repeat concat]. rewrite rows_of_select, map_app, select_app, <- !rows_of_select, IH by (now rewrite map_length). reflexivity.
Qed.
Lemma copies_nil {A} k (l : list A) : copies k l <> [] -> l <> [].
Proof. intros H ->. apply H. unfold copies. induction k; auto. Qed.
Lemma map2_copies {A B C} (f : A -> B -> C) k a b : length a = length b -> map2 f (copies k a) (copies k b) = copies k (map2 f a b).
Proof.
  intros L. assert (M : forall u v, map2 f u v = map (fun p => f (fst p) (snd p)) (combine u v)).
  { induction u as [|x u IH]; intros [|y v]; auto. cbn. now rewrite IH. }
  rewrite !M, copies_combine, copies_map by auto. reflexivity.
Qed.

(** ** C190 *)

(** CORAL and the Gaussian densities, with the empirical or the shrunk covariance (a number): sources and targets may be repeated
    different numbers of times. *)
Theorem C190_coral : forall lw eigh n k l ms mt Xs Xt reg b, 0 < k -> 0 < l -> 0 < ms -> 0 < mt -> reg <> ShAuto ->
  coral_fit lw eigh n (k * ms) (l * mt) (tiled ms Xs) (tiled mt Xt) reg b = coral_fit lw eigh n ms mt Xs Xt reg b.
Proof. intros lw eigh n k l ms mt Xs Xt reg b Hk Hl Hms Hmt N. unfold coral_fit. now rewrite !estimate_tiled. Qed.
Theorem C190_coral_maps : forall eigh b n k l ms mt Xs Xt, 0 < k -> 0 < l -> 0 < ms -> 0 < mt ->
  coral_map_source eigh b n (k * ms) (l * mt) (tiled ms Xs) (tiled mt Xt) = coral_map_source eigh b n ms mt Xs Xt /\
  coral_map_target b (l * mt) (tiled mt Xt) = coral_map_target b mt Xt.
Proof.
  intros eigh b n k l ms mt Xs Xt Hk Hl Hms Hmt. unfold coral_map_source, coral_map_target. now rewrite !cov_tiled, !mean_tiled.
Qed.
Theorem C190_gaussian : forall lw n k l ms mt Xs Xt reg, 0 < k -> 0 < l -> 0 < ms -> 0 < mt -> reg <> ShAuto ->
  gauss_fit lw n (k * ms) (l * mt) (tiled ms Xs) (tiled mt Xt) reg = gauss_fit lw n ms mt Xs Xt reg.
Proof. intros lw n k l ms mt Xs Xt reg Hk Hl Hms Hmt N. unfold gauss_fit. now rewrite !estimate_tiled, !mean_tiled. Qed.

(** Multi-domain Monge alignment: every domain repeated its own number of times. *)
Theorem C190_monge : forall eigh bary n bias (sources targets : list (nat * domain)),
  (forall kd, In kd (sources ++ targets) -> 0 < fst kd /\ 0 < fst (snd (snd kd))) ->
  mlm_fit_num eigh bary n bias (map tiled_domain sources) (map tiled_domain targets) = mlm_fit_num eigh bary n bias (map snd sources) (map snd targets).
Proof.
  intros eigh bary n bias sources targets H.
  assert (E : forall ds, (forall kd, In kd ds -> 0 < fst kd /\ 0 < fst (snd (snd kd))) ->
    map (fun d : domain => (fst d, get_cov_mean bias None (fst (snd d)) (snd (snd d)))) (map tiled_domain ds) =
    map (fun d : domain => (fst d, get_cov_mean bias None (fst (snd d)) (snd (snd d)))) (map snd ds)).
  { intros ds Hd. rewrite !map_map. apply map_ext_in. intros [k [z [m X]]] I. destruct (Hd _ I) as [H1 H2]. cbn [fst snd] in *.
    unfold tiled_domain. cbn [fst snd]. now rewrite param_tiled. }
  unfold mlm_fit_num. rewrite !E; [reflexivity| |]; intros kd I; apply H, in_app_iff; auto.
Qed.

(** The entropy scorer (reduction "mean") and MaNo. *)
Theorem C190_entropy : forall Row pp plp gp gl k (X : list Row) y sd out out', 0 < k -> one_by_one pp gp -> one_by_one plp gl ->
  entropy_score Row 1 pp (Some plp) RMean X y (SDArr sd) = Ok out ->
  entropy_score Row 1 pp (Some plp) RMean (copies k X) (copies k y) (SDArr (copies k sd)) = Ok out' -> out' = out.
Proof.
  intros Row pp plp gp gl k X y sd out out' Hk HP HL E E'.
  assert (L : length sd = length X).
  { unfold entropy_score in E. apply bind_ok in E as [[[m Xt] sdt] [Htp _]]. apply target_part_ok in Htp as (sd' & Hc & Ne & Ls & _). apply check_xy_given in Hc as [-> _]. exact Ls. }
  apply entropy_score_ok in E as (P & Lp & E1 & E2 & ->). apply entropy_score_ok in E' as (P' & Lp' & E1' & E2' & ->). cbv zeta.
  apply HP in E1, E1'. apply HL in E2, E2'. rewrite <- !rows_of_self in *. rewrite !copies_rows in E1', E2' by auto.
  assert (LR : length (rows_of is_target sd X) = length (rows_of is_target sd sd)) by (rewrite !rows_of_length; auto).
  rewrite copies_combine in E1' by auto. rewrite copies_map in E1'. rewrite copies_combine in E2' by auto. rewrite copies_map in E2'. rewrite <- E1 in E1'. rewrite <- E2 in E2'. subst P' Lp'.
  rewrite map2_copies by (rewrite E1, E2, !map_length; reflexivity). rewrite copies_concat, copies_mean by auto. reflexivity.
Qed.
Lemma mano_copies threshold p k logits : 0 < k ->
  mano_aggregate p (mano_proba threshold (copies k logits)) = mano_aggregate p (mano_proba threshold logits).
Proof.
  intros Hk. assert (E : mano_proba threshold (copies k logits) = copies k (mano_proba threshold logits)).
  { unfold mano_proba, mano_criterion, stable_softmax, taylor_softmax. rewrite !copies_map, copies_concat, copies_mean by auto.
    destruct (Rltb _ _); cbn [fst]; now rewrite ?copies_map. }
  rewrite E. unfold mano_aggregate. rewrite copies_concat, copies_map, copies_mean by auto. reflexivity.
Qed.
Theorem C190_mano : forall Row sign p threshold est k (X : list Row) y sd out out', 0 < k ->
  match est with inl infer => exists g, forall A L, infer A = Ok L -> L = map g A | inr pp => exists g, one_by_one pp g end ->
  mano_score Row sign p threshold est X y (SDArr sd) = Ok out ->
  mano_score Row sign p threshold est (copies k X) (copies k y) (SDArr (copies k sd)) = Ok out' -> out' = out.
Proof.
  intros Row sign p th est k X y sd out out' Hk HE E E'. unfold mano_score in E, E'. destruct (Rleb p 0); [discriminate|].
  apply bind_ok in E as [[[m Xt] sdt] [T E]]. apply bind_ok in E as [ty [_ E]]. destruct ty; try discriminate.
  apply bind_ok in E as [P [EP E]]. injection E as <-.
  apply bind_ok in E' as [[[m' Xt'] sdt'] [T' E']]. apply bind_ok in E' as [ty' [_ E']]. destruct ty'; try discriminate.
  apply bind_ok in E' as [P' [EP' E']]. injection E' as <-.
  apply target_part_ok in T as (sd1 & Hc & _ & L & _ & -> & ->). apply check_xy_given in Hc as [-> _].
  apply target_part_ok in T' as (sd2 & Hc & _ & _ & _ & -> & ->). apply check_xy_given in Hc as [-> _].
  rewrite !copies_rows in EP' by auto. f_equal. destruct est as [infer|pp]; destruct HE as [g HE].
  - apply bind_ok in EP as [l [El EP]]. apply bind_ok in EP' as [l' [El' EP']]. injection EP as <-. injection EP' as <-.
    apply HE in El, El'. subst l l'. rewrite copies_map. now apply mano_copies.
  - apply HE in EP, EP'. rewrite copies_combine in EP' by (rewrite !rows_of_length; auto). rewrite copies_map, <- EP in EP'. subst P'.
    unfold mano_aggregate. rewrite copies_concat, copies_map, copies_mean by auto. reflexivity.
Qed.

(** The DAN loss with given bandwidths: the two batches may be repeated different numbers of times. *)
Lemma average_copies {A B} (K : A -> B -> R) k l xs ys : 0 < k -> 0 < l -> average K (copies k xs) (copies l ys) = average K xs ys.
Proof.
  intros Hk Hl. unfold average. rewrite copies_map, copies_vsum, !copies_length.
  rewrite (map_ext (fun x => vsum (map (K x) (copies l ys))) (fun x => INR l * vsum (map (K x) ys))%R) by (intros x; now rewrite copies_map, copies_vsum).
  assert (S : forall zs, vsum (map (fun x => INR l * vsum (map (K x) ys))%R zs) = (INR l * vsum (map (fun x => vsum (map (K x) ys)) zs))%R).
  { induction zs as [|z zs IH]; cbn [map vsum]; [lra|]. rewrite IH. lra. }
  rewrite S, !mult_INR. destruct xs as [|x xs]; [cbn [map vsum length INR]; unfold Rdiv; ring|]. destruct ys as [|y ys].
  { assert (Z : forall zs : list A, vsum (map (fun z => vsum (map (K z) [])) zs) = 0%R) by (induction zs as [|z zs IH]; cbn [map vsum] in *; lra). rewrite Z. unfold Rdiv. ring. }
  assert (N : forall m, 0 < m -> INR m <> 0%R) by (intros m Hm; apply not_0_INR; lia).
  field. repeat split; apply N; auto; cbn; lia.
Qed.
Theorem C190_dan : forall d k l xs ys sigmas eps, 0 < k -> 0 < l -> rect d xs -> rect d ys ->
  dan_loss (copies k xs) (copies l ys) (Some sigmas) eps = dan_loss xs ys (Some sigmas) eps.
Proof.
  intros d k l xs ys s eps Hk Hl Hx Hy.
  assert (RC : forall m zs, rect d zs -> rect d (copies m zs)).
  { intros m zs Hz r Hr. unfold copies in Hr. apply in_concat in Hr as (q & Hq & Hr). apply repeat_spec in Hq. subst q. now apply Hz. }
  rewrite !(C104_value d) by auto. unfold discrepancy_of. now rewrite !average_copies.
Qed.

Example C190_ex : copies 2 [1; 2] = [1; 2; 1; 2] /\ (forall i j, i < 4 -> tiled 2 (fun i j => INR (10 * i + j)) i j = INR (10 * nth i [0; 1; 0; 1] 0 + j)) /\
  one_by_one (fun (X : list R) (sd : list Z) => Ok (map (fun p => [fst p; (1 - fst p)%R]) (combine X sd))) (fun x _ => [x; (1 - x)%R]).
Proof.
  split; [reflexivity|]. split.
  - intros i j Hi. destruct i as [|[|[|[|i]]]]; try lia; reflexivity.
  - intros X sd P [= <-]. reflexivity.
Qed.
