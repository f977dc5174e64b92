(** C228: an estimated risk follows the loss it estimates. *)
From Coq Require Import List ZArith QArith Bool Arith Lia Reals Lra.
From Verif Require Import Np NpFacts Labels Spec SpecFacts UtilsModel UtilsSpec UtilsProofs UtilsProofs2 SelectModel
  RVec RVecFacts FWSpec FWProofs ThmFW ReweightModel ReweightSpec ReweightProofs ReweightProofs2
  MetricsModel MetricsSpec MetricsProofs MetricsProofs2 ThmMetrics.
Import ListNotations.
Local Open Scope nat_scope.
Local Open Scope list_scope.

(** ** Specification *)
(** A score that is the weighted average of a value per sample. *)
Definition weighted_average (w l : list R) : R := (vsum (map2 Rmult w l) / vsum w)%R.
Definition averages {Row} (ell : Row -> val -> R) (X : list Row) (y : list val) (_ : list Z) (w : list R) : res R := Ok (weighted_average w (map2 ell X y)).

(** ** Linearity *)
Lemma vsum_lin a b : forall u v, length u = length v -> vsum (map2 (fun x y => a * x + b * y)%R u v) = (a * vsum u + b * vsum v)%R.
Proof. induction u as [|x u IH]; intros [|y v] L; try discriminate L; cbn; [lra|]. rewrite IH by (now injection L). lra. Qed.
Lemma mean_lin a b u v : length u = length v -> 0 < length u -> mean (map2 (fun x y => a * x + b * y)%R u v) = (a * mean u + b * mean v)%R.
Proof. intros L P. unfold mean. rewrite map2_length, <- L, vsum_lin by auto. assert (0 < INR (length u))%R by now apply lt_0_INR. field. lra. Qed.
Lemma cov_num_lin a b mu mv : forall u v, length u = length v ->
  vsum (map2 (fun p q => (p - (a * mu + b * mv)) * (q - mv))%R (map2 (fun x y => a * x + b * y)%R u v) v) =
  (a * vsum (map2 (fun p q => (p - mu) * (q - mv))%R u v) + b * vsum (map2 (fun p q => (p - mv) * (q - mv))%R v v))%R.
Proof. induction u as [|x u IH]; intros [|y v] L; try discriminate L; cbn; [lra|]. rewrite IH by (now injection L). lra. Qed.
Lemma cov_lin a b u v : length u = length v -> 0 < length u -> sample_cov (map2 (fun x y => a * x + b * y)%R u v) v = (a * sample_cov u v + b * sample_cov v v)%R.
Proof.
  intros L P. unfold sample_cov. rewrite mean_lin, cov_num_lin by auto. rewrite map2_length, <- L by auto. unfold Rdiv. lra.
Qed.
Lemma times_affine a b : forall w l, length w = length l -> map2 Rmult w (map (fun t => a * t + b)%R l) = map2 (fun x y => a * x + b * y)%R (map2 Rmult w l) w.
Proof. induction w as [|x w IH]; intros [|y l] L; try discriminate L; cbn; auto. rewrite IH by (now injection L). f_equal. lra. Qed.

(** ** Deep embedded validation *)
(** With a loss of one column and weights that are not all equal, the estimate is affine in the loss; a constant loss has that risk. *)
Theorem C228_dev_column : forall w l a b, length w = length l -> sample_cov w w <> 0%R ->
  dev_value_col w (map (fun t => a * t + b)%R l) = (a * dev_value_col w l + b)%R /\ dev_value_col w (map (fun _ => b) l) = b.
Proof.
  intros w l a b L V.
  assert (P : 0 < length w). { destruct w; [|cbn; lia]. exfalso. apply V. unfold sample_cov. cbn. unfold Rdiv. ring. }
  assert (G : forall a b, dev_value_col w (map (fun t => a * t + b)%R l) = (a * dev_value_col w l + b)%R).
  { clear a b. intros a b. rewrite !C48_column_loss_partial by (rewrite ?map_length; auto). unfold control_variate. rewrite times_affine by auto.
    assert (LL : length (map2 Rmult w l) = length w) by (rewrite map2_length; auto).
    rewrite mean_lin, cov_lin by (rewrite ?LL; auto). destruct (Req_EM_T (sample_cov w w) 0) as [E|E]; [contradiction|]. field. exact E. }
  split; [apply G|]. replace (map (fun _ : R => b) l) with (map (fun t => 0 * t + b)%R l) by (apply map_ext; intros; lra). rewrite G. lra.
Qed.
(** All weights equal to 2: a loss that is always 1 is given the risk 2. *)
Theorem C228_dev_equal_weights_refuted : dev_value_col [2; 2]%R [1; 1]%R = 2%R /\ dev_value [2; 2]%R [1; 1]%R = 2%R.
Proof.
  assert (V : np_var [2; 2]%R = 0%R) by (unfold np_var, mean; cbn; field).
  unfold dev_value_col, dev_value. rewrite V. assert (Reqb 0 0 = true) as -> by (now apply Reqb_iff). split; unfold mean; cbn; field.
Qed.
(** The losses returned by the default loss function: a model whose loss is 2 on every sample is given the risk 0. *)
Theorem C228_dev_default_refuted :
  dev_score Z 1 [0] [1; 2] (fun A => Ok A) (fun _ _ => Ok dev_witness_probs)
    (fun A _ => Ok (map (fun _ => [1%R]) A)) (fun (_ : R) _ => 2%R) [10; 20; 30; 40]%Z (map VNum [1; 0; 1; -1]%Q) [0; 0; 1; 0]%R (SDArr [1; 1; 1; -2]%Z) = Ok 0%R.
Proof.
  unfold dev_score. cbn -[dev_value INR]. simpl INR.
  replace (1 / 1 * (1 / 2) / (1 / 2))%R with 1%R by field. replace (1 / 1 * (3 / 4) / (1 / 4))%R with 3%R by field.
  rewrite (C48_default_loss_value [1; 3]%R 2 2 []) by reflexivity. cbv zeta.
  destruct (Req_EM_T _ 0) as [E|E].
  - exfalso. revert E. unfold sample_cov, mean. cbn -[INR]. simpl INR.
    replace ((1 - (1 + (3 + 0)) / (1 + 1)) * (1 - (1 + (3 + 0)) / (1 + 1)) + ((3 - (1 + (3 + 0)) / (1 + 1)) * (3 - (1 + (3 + 0)) / (1 + 1)) + 0))%R with 2%R by field. lra.
  - f_equal. unfold mean. cbn -[INR]. simpl INR. field.
Qed.
(** A larger loss on one sample, the same on the others: a smaller risk, here a negative one. *)
Theorem C228_dev_larger_refuted : dev_value_col [1; 2; 6]%R [0; 0; 7]%R = (-4)%R /\ dev_value_col [1; 2; 6]%R [0; 0; 0]%R = 0%R.
Proof.
  assert (V : np_var [1; 2; 6]%R = 7%R) by (unfold np_var, mean; cbn; field).
  unfold dev_value_col. rewrite V. assert (Reqb 7 0 = false) as -> by (apply not_true_iff_false; rewrite Reqb_iff; lra).
  split; unfold np_cov, mean; cbn; field.
Qed.

(** ** Importance weighting *)
Lemma average_affine a b : forall w l, length w = length l -> vsum w <> 0%R -> weighted_average w (map (fun t => a * t + b)%R l) = (a * weighted_average w l + b)%R.
Proof. intros w l L V. unfold weighted_average. rewrite times_affine by auto. rewrite vsum_lin by (rewrite map2_length; auto). field. exact V. Qed.
Lemma average_mono : forall w l l', Forall (fun t => 0 <= t)%R w -> vsum w = 1%R -> Forall2 Rle l l' -> (weighted_average w l <= weighted_average w l')%R.
Proof.
  intros w l l' P S F. unfold weighted_average. rewrite S. unfold Rdiv. rewrite !Rinv_1, !Rmult_1_r. clear S. revert w P. induction F as [|x y l l' H F IH]; intros [|t w] P; cbn; try lra.
  inversion P as [|? ? P1 P2]; subst. specialize (IH w P2). nra.
Qed.
Section Importance.
  Variable Row : Type.
  Variable kde : list Row -> res (list Row -> res (list R)).
  Variable fexp : R -> R.
  Hypothesis fexp_pos : forall t, (0 <= fexp t)%R.
  Hypothesis kde_rows : forall A e, kde A = Ok e -> row_wise e.
  Lemma importance_weights sign ell (X : list Row) y sd r : 0 < how_many is_source sd -> importance_score Row sign kde fexp (averages ell) X y (SDArr sd) = Ok r ->
    exists w, distribution w /\ length w = length (rows_of is_source sd X) /\ length (rows_of is_source sd X) = length (rows_of is_source sd y) /\
      forall ell' sign', importance_score Row sign' kde fexp (averages ell') X y (SDArr sd) = Ok (sign' * weighted_average w (map2 ell' (rows_of is_source sd X) (rows_of is_source sd y)))%R.
  Proof.
    intros N H. unfold importance_score in *. apply bind_ok in H as [sd' [Hc H]]. rewrite Hc. cbn [bind]. 
    apply check_xy_given in Hc as (-> & Ne & Hn & Ly). rewrite extract_source_ok in H |- * by auto. cbn [bind] in H |- *.
    apply bind_ok in H as [Xs [HX H]]. pose proof (select_len _ _ _ HX) as LX. rewrite map_length in LX. rewrite HX. cbn [bind].
    rewrite select_source in HX by auto. injection HX as <-. rewrite select_target in H |- * by auto. cbn [bind] in H |- *.
    rewrite select_source in H |- * by lia. cbn [bind] in H |- *.
    apply bind_ok in H as [es [He H]]. rewrite He. apply bind_ok in H as [et [Ht H]]. cbn [bind]. rewrite Ht. apply bind_ok in H as [ls [Hls H]]. cbn [bind]. rewrite Hls. 
    apply bind_ok in H as [lt [Hlt H]]. cbn [bind]. rewrite Hlt. apply bind_ok in H as [d [Hd H]]. cbn [bind]. rewrite Hd. cbn [bind]. apply np_map2_ok in Hd as [Ld ->].
    rewrite select_source by auto. cbn [bind averages].
    assert (Lls : length ls = how_many is_source sd). { rewrite (kde_rows _ _ He _ _ Hls). now apply rows_of_length. }
    set (ratios := map fexp (map2 Rminus lt ls)) in *.
    assert (Lr : length ratios = how_many is_source sd) by (unfold ratios; rewrite map_length, map2_length; lia).
    assert (Nr : nonneg ratios) by (apply Forall_map, Forall_forall; intros; apply fexp_pos).
    assert (Rne : ratios <> []) by (intros E; rewrite E in Lr; simpl in Lr; lia).
    assert (LXs : length (rows_of is_source sd X) = how_many is_source sd) by (apply rows_of_length; lia).
    assert (Lys : length (rows_of is_source sd y) = how_many is_source sd) by (apply rows_of_length; lia).
    exists (normalise_sum_or_uniform ratios). split; [now apply normalise_distribution|]. split; [|split; [congruence|reflexivity]].
    rewrite LXs, <- Lr. unfold normalise_sum_or_uniform. destruct (negb _); apply map_length.
  Qed.
End Importance.
Lemma map2_affine {Row} (ell : Row -> val -> R) a b : forall X y, map2 (fun x v => a * ell x v + b)%R X y = map (fun t => a * t + b)%R (map2 ell X y).
Proof. induction X as [|x X IH]; intros [|v y]; cbn; auto. now rewrite IH. Qed.
(** The score is an average with weights that do not depend on what is averaged: affine, exact for a constant, and monotone. *)
Theorem C228_importance : forall Row sign kde fexp (X : list Row) y sd ell r,
  (forall t, 0 <= fexp t)%R -> (forall A e, kde A = Ok e -> row_wise e) -> 0 < how_many is_source sd ->
  importance_score Row sign kde fexp (averages ell) X y (SDArr sd) = Ok r ->
  (forall a b, importance_score Row sign kde fexp (averages (fun x v => a * ell x v + b)%R) X y (SDArr sd) = Ok (a * r + sign * b)%R) /\
  (forall c, importance_score Row sign kde fexp (averages (fun _ _ => c)) X y (SDArr sd) = Ok (sign * c)%R) /\
  (forall ell', (forall x v, ell x v <= ell' x v)%R -> sign = 1%R -> exists r', importance_score Row sign kde fexp (averages ell') X y (SDArr sd) = Ok r' /\ (r <= r')%R).
Proof.
  intros Row sign kde fexp X y sd ell r Hf Hr N H. destruct (importance_weights Row kde fexp Hf Hr sign ell X y sd r N H) as (w & [P S] & L & L' & G).
  pose proof (G ell sign) as G0. rewrite H in G0. injection G0 as ->.
  assert (LL : length w = length (map2 ell (rows_of is_source sd X) (rows_of is_source sd y))) by (rewrite map2_length; congruence).
  assert (W : vsum w <> 0%R) by (rewrite S; apply R1_neq_R0).
  assert (A : forall a b, importance_score Row sign kde fexp (averages (fun x v => a * ell x v + b)%R) X y (SDArr sd) = Ok (a * (sign * weighted_average w (map2 ell (rows_of is_source sd X) (rows_of is_source sd y))) + sign * b)%R).
  { intros a b. rewrite G, map2_affine, average_affine by auto. f_equal. ring. }
  split; [exact A|]. split.
  - intros c. rewrite G. replace (map2 (fun _ _ => c) (rows_of is_source sd X) (rows_of is_source sd y)) with (map2 (fun x v => 0 * ell x v + c)%R (rows_of is_source sd X) (rows_of is_source sd y)).
    + rewrite map2_affine, average_affine by auto. f_equal. ring.
    + clear. generalize (rows_of is_source sd y). induction (rows_of is_source sd X) as [|x l IH]; intros [|v l']; cbn; auto. apply (f_equal2 (@cons R)); [ring|apply IH].
  - intros ell' Hl ->. eexists. split; [apply G|]. rewrite !Rmult_1_l. apply average_mono; auto.
    clear -Hl. generalize (rows_of is_source sd y). induction (rows_of is_source sd X) as [|x l IH]; intros [|v l']; cbn; constructor; auto.
Qed.

(** ** The hypotheses are met *)
(** Three samples, weights 1, 2 and 6, losses 3, 5 and 0. *)
Example C228_ex : sample_cov [1; 2; 6]%R [1; 2; 6]%R = 7%R /\ dev_value_col [1; 2; 6]%R (map (fun t => 2 * t + 1)%R [3; 5; 0]%R) = (2 * dev_value_col [1; 2; 6]%R [3; 5; 0]%R + 1)%R /\
  (exists r, importance_score Z 1 (fun _ => Ok (fun l => Ok (map (fun _ => 0%R) l))) exp (averages (fun z _ => IZR z)) [10; 20; 30]%Z (map VNum [1; -1; 0]%Q) (SDArr [1; -2; 2]%Z) = Ok r /\ r = 20%R).
Proof.
  assert (V : sample_cov [1; 2; 6]%R [1; 2; 6]%R = 7%R) by (unfold sample_cov, mean; cbn; field). split; [exact V|]. split.
  - apply C228_dev_column; [reflexivity|rewrite V; lra].
  - unfold importance_score. cbn -[INR exp]. eexists. split; [reflexivity|]. unfold normalise_sum_or_uniform. cbn -[INR Reqb exp].
    replace (0 - 0)%R with 0%R by ring. rewrite exp_0. assert (Reqb (1 + (1 + 0)) 0 = false) as -> by (apply not_true_iff_false; rewrite Reqb_iff; lra).
    unfold weighted_average. cbn. field.
Qed.
