(** Theorems C44-C51, C82: the scorers. *)
From Coq Require Import String List ZArith QArith Bool Arith Lia Reals Lra Psatz.
From Verif Require Import Np NpFacts Labels Spec SpecFacts UtilsModel UtilsSpec UtilsProofs UtilsProofs2 SelectModel
  RVec RVecFacts FWSpec FWProofs ThmFW ReweightModel ReweightSpec ReweightProofs ReweightProofs2
  MetricsModel MetricsSpec MetricsProofs MetricsProofs2.
Import ListNotations.
Local Open Scope nat_scope.
Local Open Scope list_scope.

(** ** C44: the scoring function sees exactly the target rows, their labels and domains, in order. *)
Theorem C44_target_rows : forall Row L sign (score_func : list Row -> list L -> list Z -> res R) X y sd tl r,
  supervised_score Row sign score_func X y (SDArr sd) tl = Ok r ->
  length X = length sd /\ length tl = length sd /\
  exists s, score_func (rows_of is_target sd X) (rows_of is_target sd tl) (filter is_target sd) = Ok s /\ r = (sign * s)%R.
Proof.
  intros Row L sign sf X y sd tl r H. unfold supervised_score in H. apply bind_ok in H as [[[m Xt] sdt] [Htp H]].
  apply target_part_ok in Htp as (sd' & Hc & Ne & Ls & -> & -> & ->). apply check_xy_given in Hc as [-> _].
  apply bind_ok in H as [lt [Hl H]]. pose proof (select_len _ _ _ Hl) as Lt. rewrite !map_length in Lt.
  rewrite select_target in Hl by auto. injection Hl as <-. apply bind_ok in H as [s [Hs H]]. injection H as <-.
  rewrite rows_of_self in Hs. eauto 6.
Qed.

(** Conversely the score is defined whenever the scoring function is; source rows and the [y] argument, which the
    scorer never evaluates, do not matter. *)
Theorem C44_source_independent : forall Row L sign (score_func : list Row -> list L -> list Z -> res R) X y X' y' sd tl tl' r,
  length X' = length X -> length y' = length X -> length tl' = length tl ->
  rows_of is_target sd X' = rows_of is_target sd X -> rows_of is_target sd tl' = rows_of is_target sd tl ->
  supervised_score Row sign score_func X y (SDArr sd) tl = Ok r ->
  supervised_score Row sign score_func X' y' (SDArr sd) tl' = Ok r.
Proof.
  intros Row L sign sf X y X' y' sd tl tl' r LX Ly Lt EX Et H.
  pose proof H as H0. unfold supervised_score in H0. apply bind_ok in H0 as [[[m Xt] sdt] [Htp _]].
  apply target_part_ok in Htp as (sd' & Hc & Ne & _). apply check_xy_given in Hc as [-> _].
  apply C44_target_rows in H as (L1 & L2 & s & Hs & ->). unfold supervised_score.
  rewrite target_part_given by (auto; lia). cbn [bind]. rewrite select_target by lia. cbn [bind]. rewrite rows_of_self, EX, Et, Hs. reflexivity.
Qed.

Example C44_ex : forall score_func : list Z -> list Z -> list Z -> res R,
  score_func [20; 40]%Z [2; 4]%Z [-2; -3]%Z = Ok 5%R ->
  supervised_score Z (-1) score_func [10; 20; 30; 40]%Z (map VNum [1; -1; 1; -1]%Q) (SDArr [1; -2; 0; -3]%Z) [1; 2; 3; 4]%Z = Ok (-5)%R.
Proof. intros sf H. unfold supervised_score. cbn. rewrite H. cbn. f_equal. lra. Qed.

(** ** C45: the weights given to the scorer are a distribution over the sources. *)
Lemma map_const {A B} (b : B) (l : list A) : map (fun _ => b) l = repeat b (length l).
Proof. induction l; simpl; congruence. Qed.

Lemma normalise_distribution w : w <> [] -> nonneg w -> distribution (normalise_sum_or_uniform w).
Proof.
  intros Hw Hn. unfold normalise_sum_or_uniform. destruct (Reqb (vsum w) 0) eqn:E; cbn [negb].
  - assert (P : (0 < INR (length w))%R) by (apply lt_0_INR; destruct w; [easy|simpl; lia]). split.
    + apply Forall_map, Forall_forall. intros _ _. unfold Rdiv. pose proof (Rinv_0_lt_compat _ P). lra.
    + rewrite (map_const (1 / INR (length w))%R w), vsum_repeat. field. lra.
  - apply Reqb_false in E. split; [apply nonneg_div; auto; now apply vsum_nonneg|]. rewrite vsum_map_div. field. auto.
Qed.

Theorem C45_weights : forall Row sign kde fexp scorer (X : list Row) y sd r,
  (forall t, 0 <= fexp t)%R -> 0 < how_many is_source sd ->
  (forall A e, kde A = Ok e -> row_wise e) ->
  importance_score Row sign kde fexp scorer X y (SDArr sd) = Ok r ->
  exists es et ls lt weights s,
    kde (rows_of is_source sd X) = Ok es /\ kde (rows_of is_target sd X) = Ok et /\
    es (rows_of is_source sd X) = Ok ls /\ et (rows_of is_source sd X) = Ok lt /\
    length weights = how_many is_source sd /\ distribution weights /\
    (let ratios := map2 (fun t s => fexp (t - s)%R) lt ls in
     forall i, i < how_many is_source sd -> (nth i weights 0 * vsum ratios = nth i ratios 0)%R) /\
    scorer (rows_of is_source sd X) (rows_of is_source sd y) (filter is_source sd) weights = Ok s /\ r = (sign * s)%R.
Proof.
  intros Row sign kde fexp scorer X y sd r Hf Hs Hr H. unfold importance_score in H. apply bind_ok in H as [sd' [Hc H]].
  apply check_xy_given in Hc as (-> & Ne & Hn & Ly). rewrite extract_source_ok in H by auto. cbn [bind] in H.
  apply bind_ok in H as [Xs [HX H]]. pose proof (select_len _ _ _ HX) as LX. rewrite map_length in LX.
  rewrite select_source in HX by auto. injection HX as <-. rewrite select_target in H by auto. cbn [bind] in H.
  rewrite select_source in H by lia. cbn [bind] in H.
  apply bind_ok in H as [es [He H]]. apply bind_ok in H as [et [Ht H]]. apply bind_ok in H as [ls [Hls H]].
  apply bind_ok in H as [lt [Hlt H]]. apply bind_ok in H as [d [Hd H]]. apply np_map2_ok in Hd as [Ld ->].
  rewrite select_source in H by auto. cbn [bind] in H. apply bind_ok in H as [s [Hsc H]]. injection H as <-.
  rewrite rows_of_self in Hsc.
  assert (Lls : length ls = how_many is_source sd).
  { rewrite (Hr _ _ He _ _ Hls). now apply rows_of_length. }
  set (ratios := map fexp (map2 Rminus lt ls)) in *.
  assert (Er : ratios = map2 (fun t s => fexp (t - s)%R) lt ls).
  { unfold ratios. clear. revert ls. induction lt as [|a lt IH]; intros [|b ls]; simpl; auto. now rewrite IH. }
  assert (Lr : length ratios = how_many is_source sd) by (unfold ratios; rewrite map_length, map2_length; lia).
  assert (Nr : nonneg ratios) by (apply Forall_map, Forall_forall; intros; apply Hf).
  assert (Rne : ratios <> []) by (intros E; rewrite E in Lr; simpl in Lr; lia).
  exists es, et, ls, lt, (normalise_sum_or_uniform ratios), s. rewrite <- Er.
  split; [auto|]. split; [auto|]. split; [auto|]. split; [auto|]. split.
  { rewrite <- Lr. unfold normalise_sum_or_uniform. destruct (negb _); apply map_length. }
  split; [now apply normalise_distribution|]. split; [|auto].
  cbv zeta. intros i Hi. unfold normalise_sum_or_uniform. destruct (Reqb (vsum ratios) 0) eqn:E; cbn [negb].
  - apply Reqb_iff in E. rewrite E. pose proof (vsum_zero _ Nr E) as Z. rewrite Forall_nth_R in Z. rewrite Z by lia. lra.
  - apply Reqb_false in E. rewrite nth_map0 by lia. field. auto.
Qed.

(** Two sources, one target; both ratios underflow to 0: uniform weights. *)
Example C45_ex : forall scorer : list Z -> list val -> list Z -> list R -> res R,
  scorer [10; 30]%Z (map VNum [1; 0]%Q) [1; 2]%Z [1 / 2; 1 / 2]%R = Ok 7%R ->
  importance_score Z 1 (fun _ => Ok (fun l => Ok (map (fun _ => 0%R) l))) (fun _ => 0%R) scorer
    [10; 20; 30]%Z (map VNum [1; -1; 0]%Q) (SDArr [1; -2; 2]%Z) = Ok 7%R.
Proof.
  intros sc H. unfold importance_score. cbn -[INR]. unfold normalise_sum_or_uniform. cbn -[INR Reqb].
  rewrite (proj2 (Reqb_iff (0 + (0 + 0)) 0)) by lra. cbn -[INR]. simpl INR. replace (1 + 1)%R with 2%R by lra. cbn [map] in H. rewrite H. cbn. f_equal. lra.
Qed.

(** ** C46: prediction entropy. Estimators whose log-probabilities are the logarithms of their probabilities. *)
Definition log_matrix (P : list (list R)) (Lp : list (list logp)) : Prop := Forall2 (Forall2 log_of) P Lp.

Lemma entropy_entries p l : Forall2 log_of p l -> vsum (map2 entropy_entry p l) = entropy p.
Proof.
  unfold entropy. induction 1 as [|a b p l H F IH]; auto. cbn [map2 map vsum]. rewrite IH. f_equal.
  destruct H as [[-> ->]|[P ->]]; simpl; destruct (Req_EM_T _ 0); try lra; try easy.
Qed.

Lemma entropy_matrix P Lp : log_matrix P Lp -> map vsum (map2 (map2 entropy_entry) P Lp) = map entropy P.
Proof. induction 1 as [|a b P Lp H F IH]; simpl; auto. rewrite IH, entropy_entries by auto. reflexivity. Qed.

Lemma vsum_concat M : vsum (concat M) = vsum (map vsum M).
Proof. induction M as [|r M IH]; simpl; auto. now rewrite vsum_app, IH. Qed.

Lemma vsum_bounds l a b : Forall (fun t => a <= t <= b)%R l -> (INR (length l) * a <= vsum l <= INR (length l) * b)%R.
Proof. induction 1 as [|t l Ht Hl IH]; [simpl; lra|]. cbn [length vsum]. rewrite S_INR. lra. Qed.

Lemma entropy_score_ok Row sign pp plp red X y sd out :
  entropy_score Row sign pp (Some plp) red X y (SDArr sd) = Ok out ->
  exists P Lp, pp (rows_of is_target sd X) (filter is_target sd) = Ok P /\ plp (rows_of is_target sd X) (filter is_target sd) = Ok Lp /\
    let e := map2 (map2 entropy_entry) P Lp in
    out = match red with RNone => SMat (map (vscale sign) e) | RSum => SNum (sign * vsum (concat e))%R | RMean => SNum (sign * mean (concat e))%R end.
Proof.
  intros H. unfold entropy_score in H. apply bind_ok in H as [[[m Xt] sdt] [Htp H]].
  apply target_part_ok in Htp as (sd' & Hc & Ne & Ls & -> & -> & ->). apply check_xy_given in Hc as [-> _]. rewrite rows_of_self in H.
  apply bind_ok in H as [P [HP H]]. apply bind_ok in H as [Lp [HL H]]. apply bind_ok in H as [e [He H]].
  apply np_map2_rows_ok in He as (_ & _ & ->). exists P, Lp. split; [auto|]. split; [auto|]. destruct red; now injection H as <-.
Qed.

Theorem C46_sum : forall Row pp plp (X : list Row) y sd C out,
  (forall A d P, pp A d = Ok P -> row_stochastic P /\ Forall (fun r => length r = C) P /\ length P = length A) ->
  (forall A d P Lp, pp A d = Ok P -> plp A d = Ok Lp -> log_matrix P Lp) ->
  length X = length sd ->
  entropy_score Row 1 pp (Some plp) RSum X y (SDArr sd) = Ok out ->
  exists P s, pp (rows_of is_target sd X) (filter is_target sd) = Ok P /\ out = SNum s /\ s = vsum (map entropy P) /\
    (0 <= s <= INR (how_many is_target sd) * ln (INR C))%R.
Proof.
  intros Row pp plp X y sd C out Hp Hl LX H. apply entropy_score_ok in H as (P & Lp & HP & HL & ->).
  destruct (Hp _ _ _ HP) as (St & Cs & LP). specialize (Hl _ _ _ _ HP HL).
  exists P, (1 * vsum (concat (map2 (map2 entropy_entry) P Lp)))%R. split; [auto|]. split; [auto|].
  rewrite vsum_concat, entropy_matrix by auto. split; [lra|]. rewrite rows_of_length in LP by auto. rewrite Rmult_1_l, <- LP.
  rewrite <- (map_length entropy P). rewrite <- (Rmult_0_r (INR (length (map entropy P)))).
  apply vsum_bounds. apply Forall_map. unfold row_stochastic in St. rewrite Forall_forall in *. intros r Hr. rewrite <- (Cs r Hr). apply entropy_bounds. now apply St.
Qed.

(** What 'mean' and 'none' return: 'mean' divides by the number of entries, not of samples, so it is the average
    entropy divided by the number of classes; 'none' is a matrix whose rows sum to the entropies. *)
Theorem C46_mean_value : forall Row pp plp (X : list Row) y sd C out,
  (forall A d P, pp A d = Ok P -> Forall (fun r => length r = C) P) ->
  (forall A d P Lp, pp A d = Ok P -> plp A d = Ok Lp -> log_matrix P Lp) ->
  entropy_score Row 1 pp (Some plp) RMean X y (SDArr sd) = Ok out ->
  exists P, pp (rows_of is_target sd X) (filter is_target sd) = Ok P /\
    (P <> [] -> 0 < C -> out = SNum (mean (map entropy P) / INR C)%R).
Proof.
  intros Row pp plp X y sd C out Hp Hl H. apply entropy_score_ok in H as (P & Lp & HP & HL & ->).
  specialize (Hp _ _ _ HP). specialize (Hl _ _ _ _ HP HL). exists P. split; auto. intros Pne HC. f_equal.
  assert (Lc : length (concat (map2 (map2 entropy_entry) P Lp)) = length P * C).
  { revert Hl Hp. clear. unfold log_matrix. induction 1 as [|a b P Lp H F IH]; intros Hc; auto. apply Forall_cons_iff in Hc as [Ha Hc].
    cbn [map2 concat]. rewrite app_length, IH, map2_length_min by auto. apply F2_length in H. simpl. lia. }
  unfold mean. rewrite Lc, vsum_concat, entropy_matrix, map_length, mult_INR by auto.
  assert (0 < INR (length P))%R by (apply lt_0_INR; destruct P; [easy|simpl; lia]). assert (0 < INR C)%R by now apply lt_0_INR.
  field. lra.
Qed.

Theorem C46_none_value : forall Row pp plp (X : list Row) y sd out,
  (forall A d P Lp, pp A d = Ok P -> plp A d = Ok Lp -> log_matrix P Lp) ->
  entropy_score Row 1 pp (Some plp) RNone X y (SDArr sd) = Ok out ->
  exists P M, pp (rows_of is_target sd X) (filter is_target sd) = Ok P /\ out = SMat M /\ map vsum M = map entropy P /\
    map (@length R) M = map (@length R) P.
Proof.
  intros Row pp plp X y sd out Hl H. apply entropy_score_ok in H as (P & Lp & HP & HL & ->).
  specialize (Hl _ _ _ _ HP HL). exists P, (map (vscale 1) (map2 (map2 entropy_entry) P Lp)). split; [auto|]. split; [auto|]. split.
  - rewrite <- (entropy_matrix P Lp) by auto. rewrite map_map. apply map_ext. intros r. rewrite vsum_scale. lra.
  - rewrite map_map. rewrite (map_ext _ (@length R)) by (intros; apply vscale_length).
    revert Hl. clear. unfold log_matrix. induction 1 as [|a b P Lp H F IH]; simpl; auto. rewrite IH. f_equal.
    apply F2_length in H. rewrite map2_length_min. lia.
Qed.

Definition half_proba : list Z -> list Z -> res (list (list R)) := fun A _ => Ok (map (fun _ => [1 / 2; 1 / 2]%R) A).
Definition half_log : list Z -> list Z -> res (list (list logp)) := fun A _ => Ok (map (fun _ => [Fin (ln (1 / 2)); Fin (ln (1 / 2))]) A).

Lemma ln_half : ln (1 / 2) = (- ln 2)%R.
Proof. replace (1 / 2)%R with (/ 2)%R by lra. apply ln_Rinv. lra. Qed.
Lemma entropy_half : entropy [1 / 2; 1 / 2]%R = ln 2.
Proof. unfold entropy. cbn -[ln]. destruct (Req_EM_T (1 / 2) 0); [lra|]. rewrite ln_half. lra. Qed.

(** One target sample with probabilities (1/2, 1/2): 'mean' is (ln 2)/2, not the average entropy ln 2, and 'none' is a
    1 x 2 matrix, not one number per sample. *)
Theorem C46_mean_none_refuted :
  log_matrix [[1 / 2; 1 / 2]%R] [[Fin (ln (1 / 2)); Fin (ln (1 / 2))]] /\
  entropy_score Z 1 half_proba (Some half_log) RMean [10; 20]%Z (map VNum [1; -1]%Q) (SDArr [1; -2]%Z) = Ok (SNum (ln 2 / 2)) /\
  mean (map entropy [[1 / 2; 1 / 2]%R]) = ln 2 /\ (ln 2 / 2)%R <> ln 2 /\
  exists M, entropy_score Z 1 half_proba (Some half_log) RNone [10; 20]%Z (map VNum [1; -1]%Q) (SDArr [1; -2]%Z) = Ok (SMat M) /\
    map (@length R) M = [2].
Proof.
  split; [|split; [|split; [|split]]].
  - each; right; split; auto; lra.
  - unfold entropy_score. cbn -[ln INR]. unfold mean. cbn -[ln INR]. simpl INR. rewrite ln_half. do 2 f_equal. field.
  - unfold mean. cbn -[ln INR entropy]. rewrite entropy_half. simpl INR. field.
  - pose proof (ln_lt_2). lra.
  - eexists. split; [reflexivity|reflexivity].
Qed.

Example C46_sum_ex : entropy_score Z 1 half_proba (Some half_log) RSum [10; 20; 30]%Z (map VNum [1; -1; -1]%Q) (SDArr [1; -2; -2]%Z)
  = Ok (SNum (2 * ln 2)).
Proof. unfold entropy_score. cbn -[ln]. rewrite ln_half. do 2 f_equal. field. Qed.

(** ** C47: soft neighbourhood density. *)
Definition sim_entry (P : list (list R)) (T : R) (i j : nat) : R :=
  let c := (cosine (nth i P []) (nth j P []) / T)%R in if i =? j then (- c)%R else c.

Lemma sqrt_dot_pos u : dot u u <> 0%R -> (0 < dot u u)%R /\ (0 < sqrt (dot u u))%R.
Proof.
  intros H. assert (0 <= dot u u)%R.
  { clear. unfold dot. induction u as [|a u IH]; simpl; [lra|]. nra. }
  assert (P : (0 < dot u u)%R) by lra. split; auto. now apply sqrt_lt_R0.
Qed.

Lemma dot_zero u : dot u u = 0%R -> forall v, dot u v = 0%R.
Proof.
  assert (N : forall w, (0 <= dot w w)%R) by (intros w; unfold dot; induction w; simpl; [lra|nra]).
  induction u as [|a u IH]; intros H [|b v]; auto. rewrite dot_cons in *. specialize (N u).
  assert (a * a = 0)%R by nra. assert (a = 0)%R by nra. subst. rewrite IH by nra. lra.
Qed.

Lemma dot_l2 u v : dot u u <> 0%R -> dot v v <> 0%R -> dot (l2 u) (l2 v) = cosine u v.
Proof.
  intros Hu Hv. destruct (sqrt_dot_pos u Hu) as [_ Pu]. destruct (sqrt_dot_pos v Hv) as [_ Pv]. unfold l2, cosine.
  rewrite !(proj2 (Reqb_false _ _)) by auto. rewrite !map_div_scale, dot_scale_l, dot_scale_r. field. lra.
Qed.

Lemma negate_diag_spec S n : length S = n -> Forall (fun r => length r = n) S ->
  negate_diag S = map (fun i => map (fun j => let t := nth j (nth i S []) 0%R in if i =? j then (- t)%R else t) (seq 0 n)) (seq 0 n).
Proof.
  intros L F. unfold negate_diag.
  assert (C : forall A (d : A) l, combine (seq 0 (length l)) l = map (fun i => (i, nth i l d)) (seq 0 (length l))).
  { intros A d l. assert (G : forall k, combine (seq k (length l)) l = map (fun i => (i, nth (i - k) l d)) (seq k (length l))).
    { induction l as [|a l IH]; intros k; simpl; auto. rewrite Nat.sub_diag. f_equal. rewrite IH. apply map_ext_in. intros i Hi.
      apply in_seq in Hi. f_equal. replace (i - k) with (Datatypes.S (i - Datatypes.S k)) by lia. reflexivity. }
    rewrite G. apply map_ext. intros i. now rewrite Nat.sub_0_r. }
  rewrite (C _ []), map_map, L. apply map_ext_in. intros i Hi. apply in_seq in Hi. cbn [fst snd].
  assert (Li : length (nth i S []) = n) by (rewrite Forall_forall in F; apply F, nth_In; lia).
  rewrite (C _ 0%R), map_map, Li. apply map_ext. intros j. cbn [fst snd]. rewrite Nat.eqb_sym. reflexivity.
Qed.

Theorem C47_mean_of_entropies : forall Row sign pp T (X : list Row) y sd r,
  (forall A d P, pp A d = Ok P -> length P = length A /\ row_stochastic P) ->
  length X = length sd -> 0 < how_many is_target sd ->
  snd_score Row sign pp T X y (SDArr sd) = Ok r ->
  exists P D, pp (rows_of is_target sd X) (filter is_target sd) = Ok P /\
    let n := how_many is_target sd in
    length D = n /\ Forall (fun row => length row = n /\ distribution row) D /\
    (forall i j, i < n -> j < n ->
       nth j (nth i D []) 0%R = (exp (sim_entry P T i j) / vsum (map (fun k => exp (sim_entry P T i k)) (seq 0 n)))%R) /\
    r = (sign * mean (map entropy D))%R /\ (0 <= mean (map entropy D) <= ln (INR n))%R.
Proof.
  intros Row sign pp T X y sd r Hp LX Hn H. unfold snd_score in H. apply bind_ok in H as [[[m Xt] sdt] [Htp H]].
  apply target_part_ok in Htp as (sd' & Hc & Ne & Ls & -> & -> & ->). apply check_xy_given in Hc as [-> _]. rewrite rows_of_self in H.
  apply bind_ok in H as [P [HP H]]. injection H as <-. destruct (Hp _ _ _ HP) as [LP St]. rewrite rows_of_length in LP by auto.
  assert (Pd : forall i, i < length P -> dot (nth i P []) (nth i P []) <> 0%R).
  { intros i Hi E. unfold row_stochastic in St. rewrite Forall_forall in St. destruct (St _ (nth_In P [] Hi)) as [_ S1].
    rewrite <- (dot_ones _ _ eq_refl) in S1. rewrite dot_comm in S1. rewrite dot_zero in S1 by auto. lra. }
  set (n := how_many is_target sd) in *.
  set (S := map (fun r0 => map (fun r' => (dot r0 r' / T)%R) (map l2 P)) (map l2 P)).
  assert (ES : negate_diag S = map (fun i => map (fun j => sim_entry P T i j) (seq 0 n)) (seq 0 n)).
  { rewrite (negate_diag_spec S n).
    - apply map_ext_in. intros i Hi. apply in_seq in Hi. apply map_ext_in. intros j Hj. apply in_seq in Hj.
      assert (E : nth j (nth i S []) 0%R = (cosine (nth i P []) (nth j P []) / T)%R).
      { unfold S. rewrite map_map. rewrite (nth_indep _ [] (map (fun r' => (dot (l2 []) r' / T)%R) (map l2 P))) by (rewrite map_length; lia).
        rewrite (map_nth (fun x => map (fun r' => (dot (l2 x) r' / T)%R) (map l2 P))). rewrite map_map.
        rewrite (nth_indep _ 0%R (dot (l2 (nth i P [])) (l2 []) / T)%R) by (rewrite map_length; lia).
        rewrite (map_nth (fun x => (dot (l2 (nth i P [])) (l2 x) / T)%R)). now rewrite dot_l2 by (apply Pd; lia). }
      cbv zeta. rewrite E. reflexivity.
    - unfold S. now rewrite !map_length.
    - unfold S. apply Forall_map, Forall_forall. intros; now rewrite !map_length. }
  set (D := map softmax_row (negate_diag S)).
  assert (FD : Forall (fun row => length row = n /\ Forall (fun t => 0 < t)%R row /\ vsum row = 1%R) D).
  { unfold D. rewrite ES, map_map. apply Forall_map, Forall_forall. intros i _.
    assert (Nn : map (fun j => sim_entry P T i j) (seq 0 n) <> []) by (destruct n; [lia|discriminate]).
    destruct (softmax_row_spec _ Nn) as (E & Po & Su). split; [|auto]. rewrite E, !map_length, seq_length. reflexivity. }
  exists P, D. split; [auto|]. cbv zeta. assert (LD : length D = n) by (unfold D; now rewrite ES, !map_length, seq_length).
  split; [auto|]. split.
  { eapply Forall_impl; [|exact FD]. intros row (A & B & C). split; auto. now apply positive_distribution. }
  split.
  { intros i j Hi Hj. unfold D. rewrite ES, map_map.
    rewrite (nth_indep _ [] (softmax_row (map (fun j => sim_entry P T 0 j) (seq 0 n)))) by (rewrite map_length, seq_length; lia).
    rewrite (map_nth (fun x => softmax_row (map (fun j0 => sim_entry P T x j0) (seq 0 n)))). rewrite seq_nth by auto. simpl plus.
    assert (Nn : map (fun j => sim_entry P T i j) (seq 0 n) <> []) by (destruct n; [lia|discriminate]).
    destruct (softmax_row_spec _ Nn) as (E & _ & _). rewrite E, !map_map.
    set (den := vsum _). rewrite (nth_indep _ 0%R (exp (sim_entry P T i 0) / den)%R) by (rewrite map_length, seq_length; lia).
    rewrite (map_nth (fun x => (exp (sim_entry P T i x) / den)%R)). now rewrite seq_nth. }
  assert (EE : map row_entropy D = map entropy D).
  { apply map_ext_in. intros row Hr. rewrite Forall_forall in FD. now apply row_entropy_eq, FD. }
  fold S. fold D. rewrite EE. split; [reflexivity|]. apply mean_bounds.
  { destruct D; [simpl in LD; lia|discriminate]. }
  apply Forall_map. eapply Forall_impl; [|exact FD]. intros row (A & B & C). rewrite <- A. apply entropy_bounds. now apply positive_distribution.
Qed.

(** One target sample: the similarity row is (1), its entropy 0. *)
Example C47_ex : snd_score Z 1 half_proba 1 [10; 20]%Z (map VNum [1; -1]%Q) (SDArr [1; -2]%Z) = Ok 0%R.
Proof.
  unfold snd_score. cbn -[l2 softmax_row negate_diag INR]. unfold negate_diag. cbn -[l2 softmax_row INR].
  set (a := (- _)%R). destruct (softmax_row_spec [a] ltac:(easy)) as (E & _ & _). rewrite E. cbn -[INR]. unfold mean, row_entropy. cbn -[INR].
  replace (exp a / (exp a + 0))%R with 1%R by (pose proof (exp_pos a); field; lra). rewrite ln_1. simpl INR. f_equal. field.
Qed.

(** ** C48: deep embedded validation. With a loss of shape (n, 1) the value is the control-variate estimate ... *)
Theorem C48_column_loss_partial : forall w l, length w = length l -> dev_value_col w l = control_variate w l.
Proof.
  intros w l L. unfold dev_value_col, control_variate. rewrite np_var_cov. unfold np_cov. fold (sample_cov (map2 Rmult w l) w).
  unfold Reqb. destruct (Req_EM_T (sample_cov w w) 0); reflexivity.
Qed.

(** ... but with the one-dimensional losses of the default loss function, what is returned is this. *)
Theorem C48_default_loss_value : forall w e0 e1 e, length w = length (e0 :: e1 :: e) ->
  let l := e0 :: e1 :: e in
  let eta := if Req_EM_T (sample_cov w w) 0 then 0%R else (- (e0 * e1))%R in
  dev_value w l = (mean w * mean l + eta * mean w - eta)%R.
Proof.
  intros w e0 e1 e L l eta. unfold dev_value. fold l.
  assert (M : mean (concat (map (fun t => map (fun x => (t * x)%R) l) w)) = (mean w * mean l)%R).
  { unfold mean. rewrite vsum_outer, length_outer, mult_INR.
    assert (0 < INR (length l))%R by (apply lt_0_INR; simpl; lia). assert (0 < INR (length w))%R by (apply lt_0_INR; rewrite L; simpl; lia).
    field. lra. }
  rewrite M, (column_outer e0 l w l 0), (column_outer e1 l w l 1), cov_scaled by (auto; simpl; lia).
  rewrite np_var_cov. unfold eta, Reqb. destruct (Req_EM_T (sample_cov w w) 0) as [E|E]; [reflexivity|].
  replace (- (e0 * e1 * sample_cov w w) / sample_cov w w)%R with (- (e0 * e1))%R by (field; auto). reflexivity.
Qed.

(** How the weights and losses are obtained: the domain classifier is trained on the train sources (label 1) and the
    targets (label 0), and evaluated on the held-out sources. *)
Theorem C48_weights : forall Row F L sign tr va (tf : list Row -> res (list F)) clf pred (loss : L -> list R -> R) X y yl sd r,
  dev_score Row sign tr va tf clf pred loss X y yl (SDArr sd) = Ok r ->
  exists X_train X_val y_val sd_val f_train f_val f_target g p probs,
    np_take tr (rows_of is_source sd X) = Ok X_train /\ np_take va (rows_of is_source sd X) = Ok X_val /\
    np_take va (rows_of is_source sd yl) = Ok y_val /\ np_take va (filter is_source sd) = Ok sd_val /\
    tf X_train = Ok f_train /\ tf X_val = Ok f_val /\ tf (rows_of is_target sd X) = Ok f_target /\
    clf (f_train ++ f_target) (repeat 1%Z (length f_train) ++ repeat 0%Z (length f_target)) = Ok g /\
    g f_val = Ok p /\ pred X_val sd_val = Ok probs /\ length y_val = length probs /\ length p = length probs /\
    r = (sign * dev_value (map (fun q => INR (length f_train) / INR (length f_target) * fst q / snd q)%R p) (map2 loss y_val probs))%R.
Proof.
  intros Row F L sign tr va tf clf pred loss X y yl sd r H. unfold dev_score in H. apply bind_ok in H as [sd' [Hc H]].
  apply check_xy_given in Hc as (-> & Ne & Hn & Ly). rewrite extract_source_ok in H by auto. cbn [bind] in H.
  apply bind_ok in H as [Xs [HX H]]. pose proof (select_len _ _ _ HX) as LX. rewrite map_length in LX.
  rewrite select_source in HX by auto. injection HX as <-.
  apply bind_ok in H as [ys [Hy H]]. pose proof (select_len _ _ _ Hy) as Lyl. rewrite map_length in Lyl.
  rewrite select_source in Hy by auto. injection Hy as <-. rewrite select_source in H by auto. cbn [bind] in H. rewrite rows_of_self in H.
  apply bind_ok in H as [X_train [H1 H]]. apply bind_ok in H as [X_val [H2 H]]. apply bind_ok in H as [y_val [H3 H]].
  apply bind_ok in H as [sd_val [H4 H]]. rewrite select_target in H by auto. cbn [bind] in H.
  apply bind_ok in H as [f_train [H5 H]]. apply bind_ok in H as [f_val [H6 H]]. apply bind_ok in H as [f_target [H7 H]].
  apply bind_ok in H as [g [H8 H]]. apply bind_ok in H as [p [H9 H]]. apply bind_ok in H as [probs [H10 H]].
  apply bind_ok in H as [err [H11 H]]. apply np_map2_ok in H11 as [Lp ->].
  destruct (Nat.eqb_spec (length (map (fun p0 => (INR (length f_train) / INR (length f_target) * fst p0 / snd p0)%R) p)) (length (map2 loss y_val probs))) as [Lw|]; [|discriminate].
  injection H as <-. rewrite map_length, map2_length in Lw by auto.
  exists X_train, X_val, y_val, sd_val, f_train, f_val, f_target, g, p, probs. rewrite <- Lp. auto 15.
Qed.

(** Weights (1, 3), losses (0, 1): DEV returns 1, the control-variate estimate is 0. *)
Definition dev_witness_probs : list Z -> res (list (R * R)) := fun A => Ok (map (fun z => if (z =? 30)%Z then (3 / 4, 1 / 4)%R else (1 / 2, 1 / 2)%R) A).
Theorem C48_default_loss_refuted :
  dev_score Z 1 [0] [1; 2] (fun A => Ok A) (fun _ _ => Ok dev_witness_probs)
    (fun A _ => Ok (map (fun _ => [1%R]) A)) (fun (t : R) _ => t) [10; 20; 30; 40]%Z (map VNum [1; 0; 1; -1]%Q) [0; 0; 1; 0]%R (SDArr [1; 1; 1; -2]%Z) = Ok 1%R /\
  control_variate [1; 3]%R [0; 1]%R = 0%R.
Proof.
  split.
  - unfold dev_score. cbn -[dev_value INR]. simpl INR.
    replace (1 / 1 * (1 / 2) / (1 / 2))%R with 1%R by field. replace (1 / 1 * (3 / 4) / (1 / 4))%R with 3%R by field.
    rewrite (C48_default_loss_value [1; 3]%R 0 1 []) by reflexivity. cbv zeta. unfold mean. cbn -[INR sample_cov]. simpl INR.
    f_equal. destruct (Req_EM_T _ 0); field.
  - unfold control_variate, sample_cov, mean. cbn -[INR]. simpl INR. destruct (Req_EM_T _ 0) as [E|E]; [exfalso; revert E|].
    + replace ((1 - (1 + (3 + 0)) / (1 + 1)) * (1 - (1 + (3 + 0)) / (1 + 1)) + ((3 - (1 + (3 + 0)) / (1 + 1)) * (3 - (1 + (3 + 0)) / (1 + 1)) + 0))%R with 2%R by field. lra.
    + field.
Qed.

(** ** C49: circular validation. *)
Definition mask_of (t : y_type) : val := match t with DISCRETE => mask_cls | CONTINUOUS => mask_reg end.
Definition number (v : val) : Prop := exists q, v = VNum q.
(** [c] codes the numeric labels [l]: non-negative integers, equal exactly when the labels are. *)
Definition codes (l c : list val) : Prop :=
  length c = length l /\
  (forall i, i < length l -> exists k, nth i c VNan = VNum (inject_Z (Z.of_nat k))) /\
  (forall i j p q, nth i l VNan = VNum p -> nth j l VNan = VNum q -> (nth i c VNan = nth j c VNan <-> (p == q)%Q)).

Lemma nth_VNum_lt l i p : nth i l VNan = VNum p -> i < length l.
Proof. intros H. destruct (lt_dec i (length l)); auto. rewrite nth_overflow in H by lia. discriminate. Qed.

Lemma le_transform_codes l : codes l (le_transform l).
Proof.
  unfold le_transform. split; [now rewrite map_length|].
  assert (N : forall i, i < length l -> nth i (map (fun v => VNum (inject_Z (le_rank l v))) l) VNan = VNum (inject_Z (le_rank l (nth i l VNan)))).
  { intros i Hi. rewrite (nth_indep _ VNan (VNum (inject_Z (le_rank l VNan)))) by now rewrite map_length.
    now rewrite (map_nth (fun v => VNum (inject_Z (le_rank l v)))). }
  split.
  - intros i Hi. rewrite N by auto. unfold le_rank. eauto.
  - intros i j p q Hp Hq. pose proof (nth_VNum_lt _ _ _ Hp). pose proof (nth_VNum_lt _ _ _ Hq). rewrite !N, Hp, Hq by auto.
    rewrite <- (le_rank_inj l p q); [|rewrite <- Hp; now apply nth_In|rewrite <- Hq; now apply nth_In].
    split; [|congruence]. intros E. now injection E as E.
Qed.

Lemma cast_code dt z : cast dt (VNum (inject_Z z)) = VNum (inject_Z z).
Proof. destruct dt; auto. simpl. now rewrite Z.quot_1_r. Qed.

Theorem C49_roles_swapped : forall Row predict dt (X : list Row) y sd Xb yb sdb,
  circular_backward Row predict dt X y (SDArr sd) = Ok (Some (Xb, yb, sdb)) ->
  exists ty yp,
    find_y_type1 (rows_of is_source sd y) = Ok ty /\ predict (rows_of is_target sd X) (filter is_target sd) = Ok yp /\
    length yp = how_many is_target sd /\
    Xb = X /\ length yb = length sd /\ sdb = map Z.opp sd /\
    Forall (fun v => v = mask_of ty) (rows_of is_source sd yb) /\
    (ty = DISCRETE -> codes yp (rows_of is_target sd yb)) /\
    (ty = CONTINUOUS -> dt = DFloat -> rows_of is_target sd yb = yp) /\
    (~ In 0%Z sd -> map is_target sdb = map is_source sd).
Proof.
  intros Row predict dt X y sd Xb yb sdb H. unfold circular_backward in H. apply bind_ok in H as [[[m Xt] sdt] [Htp H]].
  apply target_part_ok in Htp as (sd' & Hc & Ne & Ls & -> & -> & ->). rewrite Hc in H. cbn [bind] in H.
  apply check_xy_given in Hc as (-> & _ & Hn & Ly). rewrite rows_of_self in H. apply bind_ok in H as [t0 [_ H]].
  apply bind_ok in H as [yp [Hp H]]. destruct (Nat.eqb_spec (length (dedup yp)) 1) as [|Nd]; [discriminate|].
  rewrite select_source in H by lia. cbn [bind] in H. apply bind_ok in H as [ty [Hty H]].
  set (v := map (cast dt) _) in H. apply bind_ok in H as [b0 [H0 H]]. apply bind_ok in H as [b1 [H1 H]]. injection H as <- <- <-.

  assert (Lv : length v = length yp) by (unfold v; rewrite map_length; destruct ty; auto; unfold le_transform; now rewrite map_length).
  assert (Em : map negb (map is_source sd) = map is_target sd) by (rewrite map_map; apply map_ext; intros; symmetry; apply is_target_negb).
  unfold np_setmask in H0. rewrite Em, map_length, repeat_length, Ly, <- Ls, Nat.eqb_refl, count_map in H0.
  assert (H0' : length yp = how_many is_target sd /\ b0 = place (map is_target sd) v (repeat (VNum 0) (length sd))).
  { destruct (Nat.eqb_spec (length v) (how_many is_target sd)) as [E|E].
    - injection H0 as <-. split; [lia|reflexivity].
    - exfalso. assert (N1 : length yp <> 1) by (intros G; apply Nd; destruct yp as [|u [|]]; try discriminate; reflexivity).
      rewrite <- Lv in N1. destruct v as [|v0 [|]]; simpl in N1; try discriminate; lia. }
  clear H0. destruct H0' as [Lt ->].
  assert (L0 : length (place (map is_target sd) v (repeat (VNum 0) (length sd))) = length sd) by (now rewrite place_length, repeat_length).
  rewrite np_setmask_scalar_ok, <- place_repeat in H1 by (rewrite map_length; lia). injection H1 as <-.
  set (mv := match ty with DISCRETE => mask_cls | CONTINUOUS => mask_reg end).
  set (yb := place (map is_source sd) _ _).
  assert (Ls' : rows_of is_source sd yb = repeat mv (how_many is_source sd)).
  { rewrite rows_of_select. unfold yb. rewrite place_select; rewrite ?count_map, ?map_length, ?repeat_length; auto. }
  assert (Lt' : rows_of is_target sd yb = v).
  { rewrite rows_of_select. unfold yb. rewrite <- Em, place_select_neg, Em. apply place_select; rewrite ?map_length, ?repeat_length, ?count_map; lia. }
  exists ty, yp. split; [auto|]. split; [auto|]. split; [auto|]. split; [auto|].
  split; [unfold yb; now rewrite place_length|]. split; [auto|]. rewrite Ls', Lt'. split.
  { apply Forall_forall. intros u Hu. now apply repeat_spec in Hu. }
  split.
  { intros ->. unfold v. replace (map (cast dt) (le_transform yp)) with (le_transform yp); [apply le_transform_codes|].
    unfold le_transform. rewrite map_map. apply map_ext. intros u. symmetry. apply cast_code. }
  split.
  { intros -> ->. unfold v. rewrite <- (map_id yp) at 2. reflexivity. }
  intros N0. rewrite map_map. apply map_ext_in. intros d Hd. unfold is_target, is_source.
  assert (d <> 0%Z) by (intros ->; auto). destruct (Z.ltb_spec (- d) 0), (Z.leb_spec 0 d); auto; lia.
Qed.

Lemma backward_codes Row predict dt (X : list Row) y sd Xb yb sdb ty yp : circular_backward Row predict dt X y (SDArr sd) = Ok (Some (Xb, yb, sdb)) ->
  find_y_type1 (rows_of is_source sd y) = Ok ty -> predict (rows_of is_target sd X) (filter is_target sd) = Ok yp -> ty = DISCRETE -> rows_of is_target sd yb = le_transform yp.
Proof.
  intros H HT HP ->. unfold circular_backward in H. apply bind_ok in H as [[[m Xt] sdt] [Htp H]].
  apply target_part_ok in Htp as (sd' & Hc & Ne & Ls & -> & -> & ->). rewrite Hc in H. cbn [bind] in H.
  apply check_xy_given in Hc as (-> & _ & Hn & Ly). rewrite rows_of_self in H. apply bind_ok in H as [t0 [_ H]].
  rewrite HP in H. cbn [bind] in H. destruct (Nat.eqb_spec (length (dedup yp)) 1) as [|Nd]; [discriminate|].
  rewrite select_source in H by lia. cbn [bind] in H. rewrite HT in H. cbn [bind] in H.
  set (v := map (cast dt) _) in H. apply bind_ok in H as [b0 [H0 H]]. apply bind_ok in H as [b1 [H1 H]]. injection H as <- <- <-.
  assert (Lv : length v = length yp) by (unfold v, le_transform; now rewrite !map_length).
  assert (Em : map negb (map is_source sd) = map is_target sd) by (rewrite map_map; apply map_ext; intros; symmetry; apply is_target_negb).
  unfold np_setmask in H0. rewrite Em, map_length, repeat_length, Ly, <- Ls, Nat.eqb_refl, count_map in H0.
  assert (H0' : length yp = how_many is_target sd /\ b0 = place (map is_target sd) v (repeat (VNum 0) (length sd))).
  { destruct (Nat.eqb_spec (length v) (how_many is_target sd)) as [E|E].
    - injection H0 as <-. split; [lia|reflexivity].
    - exfalso. assert (N1 : length yp <> 1) by (intros G; apply Nd; destruct yp as [|u [|]]; try discriminate; reflexivity).
      rewrite <- Lv in N1. destruct v as [|v0 [|]]; simpl in N1; try discriminate; lia. }
  clear H0. destruct H0' as [Lt ->].
  assert (L0 : length (place (map is_target sd) v (repeat (VNum 0) (length sd))) = length sd) by (now rewrite place_length, repeat_length).
  rewrite np_setmask_scalar_ok, <- place_repeat in H1 by (rewrite map_length; lia). injection H1 as <-.
  rewrite rows_of_select. rewrite <- Em, place_select_neg, Em. rewrite place_select; rewrite ?map_length, ?repeat_length, ?count_map; try lia.
  unfold v, le_transform. rewrite map_map. apply map_ext. intros u. apply cast_code.
Qed.
(** Two labels that are the same number. *)
Definition same_number (a b : val) : Prop := exists p q, a = VNum p /\ b = VNum q /\ (p == q)%Q.
Lemma le_inverse_spec yp v u : le_inverse yp v = Ok u -> exists j, j < length yp /\ u = nth j yp VNan /\ same_number v (nth j (le_transform yp) VNan).
Proof.
  unfold le_inverse. destruct (find _ yp) as [w|] eqn:E; [|discriminate]. intros H. injection H as <-. apply find_some in E as [I V]. apply (In_nth _ _ VNan) in I as (j & Hj & Ej). exists j. split; [auto|]. split; [auto|].
  unfold le_transform. rewrite (nth_indep _ VNan (VNum (inject_Z (le_rank yp VNan)))) by now rewrite map_length. rewrite (map_nth (fun v => VNum (inject_Z (le_rank yp v)))), Ej.
  destruct v as [q| |]; try discriminate. exists q, (inject_Z (le_rank yp w)). split; [auto|]. split; [auto|]. now apply Qeq_bool_iff.
Qed.
(** The score compares the true source labels with the labels the backward estimator predicts for the sources; for classes its
    predictions, which are codes, are turned back into the labels the codes stand for. If the forward predictions are all the
    same, they are compared with this one label. *)
Theorem C49_score : forall Row sign predict fit_backward scorer dt (X : list Row) y sd v,
  circular_score Row sign predict fit_backward scorer dt X y (SDArr sd) = Ok v ->
  exists yp final s, predict (rows_of is_target sd X) (filter is_target sd) = Ok yp /\ scorer (rows_of is_source sd y) final = Ok s /\ v = (sign * s)%R /\
    ((exists v0 rest, yp = v0 :: rest /\ final = repeat v0 (how_many is_source sd)) \/
     (exists yb sdb g r ty, circular_backward Row predict dt X y (SDArr sd) = Ok (Some (X, yb, sdb)) /\ fit_backward (X, yb, sdb) = Ok g /\
        g (rows_of is_source sd X) (rows_of is_source sd sdb) = Ok r /\ find_y_type1 (rows_of is_source sd y) = Ok ty /\ length final = length r /\
        (ty = CONTINUOUS -> final = r) /\
        (ty = DISCRETE -> forall i, i < length r -> exists j, j < length yp /\ nth i final VNan = nth j yp VNan /\ same_number (nth i r VNan) (nth j (rows_of is_target sd yb) VNan)))).
Proof.
  intros Row sign predict fitb scorer dt X y sd v H. unfold circular_score in H. apply bind_ok in H as [[[m Xt] sdt] [Htp H]].
  apply target_part_ok in Htp as (sd' & Hc & Ne & Ls & -> & -> & ->). apply check_xy_given in Hc as (-> & _ & Hn & Ly). rewrite rows_of_self in H.
  apply bind_ok in H as [b [Hb H]]. rewrite select_source in H by lia. cbn [bind] in H. apply bind_ok in H as [yp [Hp H]]. destruct b as [[[Xb yb] sdb]|].
  - pose proof (C49_roles_swapped _ _ _ _ _ _ _ _ _ Hb) as (ty0 & yp0 & HT0 & HP0 & Lyp & -> & Lyb & Esdb & _). assert (yp0 = yp) as -> by congruence.
    apply bind_ok in H as [g [Hg H]]. rewrite select_source in H by lia. cbn [bind] in H. rewrite select_source in H by (subst sdb; rewrite map_length; lia). cbn [bind] in H.
    apply bind_ok in H as [r [Hr H]]. rewrite HT0 in H. cbn [bind] in H. apply bind_ok in H as [final [Hf H]]. apply bind_ok in H as [s [Hs H]]. injection H as <-.
    exists yp, final, s. split; [auto|]. split; [auto|]. split; [auto|]. right. exists yb, sdb, g, r, ty0. split; [auto|]. split; [auto|]. split; [auto|]. split; [auto|]. destruct ty0.
    + injection Hf as <-. split; [auto|]. split; [auto|discriminate].
    + pose proof (backward_codes _ _ _ _ _ _ _ _ _ _ _ Hb HT0 HP0 eq_refl) as EC. rewrite EC. assert (F2 : Forall2 (fun a u => le_inverse yp a = Ok u) r final).
      { clear -Hf. revert final Hf. induction r as [|a r IH]; intros final Hf; cbn in Hf; [injection Hf as <-; constructor|]. apply bind_ok in Hf as [u [Hu Hf]]. apply bind_ok in Hf as [q [Hq Hf]]. injection Hf as <-. constructor; auto. }
      assert (LF : length final = length r) by (clear -F2; induction F2; cbn; congruence). split; [auto|]. split; [discriminate|]. intros _ i Hi.
      assert (NF : le_inverse yp (nth i r VNan) = Ok (nth i final VNan)). { clear -F2 Hi. revert i Hi. induction F2 as [|a u r f A _ IH]; intros [|i] Hi; cbn in *; try lia; auto. apply IH. lia. }
      apply le_inverse_spec in NF as (j & A & B & D). eauto.
  - destruct yp as [|v0 rest]; [discriminate|]. apply bind_ok in H as [s [Hs H]]. injection H as <-. exists (v0 :: rest), (repeat v0 (how_many is_source sd)), s. split; [auto|].
    assert (LQ : length (rows_of is_source sd y) = how_many is_source sd) by (apply rows_of_length; lia). rewrite LQ in Hs. split; [auto|]. split; [auto|]. left. eauto.
Qed.
(** Forward predictions 5, 4 coded 1, 0; a backward estimator that predicts code 1 is scored on label 5. *)
Example C49_score_example : exists r, circular_score Z 1 (fun _ _ => Ok [VNum 5; VNum 4]) (fun _ => Ok (fun _ _ => Ok [VNum 1])) (fun a b => if val_eqb (nth 0 a VNan) (nth 0 b VNan) then Ok 1%R else Ok 0%R) DInt
  [10; 20; 30]%Z (map VNum [5; -1; -1]%Q) (SDArr [1; -3; -3]%Z) = Ok r /\ r = (1 * 1)%R.
Proof. eexists. split; reflexivity. Qed.

(** No source label reaches the backward estimator: only their type (classes or real values) matters. *)
Theorem C49_source_labels_unused : forall Row predict dt (X : list Row) y y' sd b b',
  circular_backward Row predict dt X y (SDArr sd) = Ok b ->
  circular_backward Row predict dt X y' (SDArr sd) = Ok b' ->
  find_y_type1 (rows_of is_source sd y) = find_y_type1 (rows_of is_source sd y') -> b = b'.
Proof.
  intros Row predict dt X y y' sd b b' H H' Ety. unfold circular_backward in H, H'.
  apply bind_ok in H as [[[m Xt] sdt] [Htp H]]. apply bind_ok in H' as [[[m' Xt'] sdt'] [Htp' H']].
  apply target_part_ok in Htp as (sd1 & Hc & Ne & Ls & -> & -> & ->). apply target_part_ok in Htp' as (sd2 & Hc' & _ & _ & -> & -> & ->).
  rewrite Hc in H. rewrite Hc' in H'. cbn [bind] in H, H'. apply check_xy_given in Hc as (-> & _ & _ & Ly). apply check_xy_given in Hc' as (-> & _ & _ & Ly').
  apply bind_ok in H as [t0 [_ H]]. apply bind_ok in H' as [t0' [_ H']].
  apply bind_ok in H as [yp [Hp H]]. rewrite Hp in H'. cbn [bind] in H'. destruct (length (dedup yp) =? 1); [congruence|].
  rewrite select_source in H by lia. rewrite select_source in H' by lia. cbn [bind] in H, H'.
  rewrite <- Ety, Ly' in H'. rewrite Ly in H. rewrite H in H'. congruence.
Qed.

(** Sources 1 and 2, two targets of domain -3 predicted 5 and 4: coded 1 and 0. *)
Example C49_ex : circular_backward Z (fun _ _ => Ok [VNum 5; VNum 4]) DInt [10; 20; 30; 40]%Z (map VNum [7; -1; 8; -1]%Q) (SDArr [1; -3; 2; -3]%Z)
  = Ok (Some ([10; 20; 30; 40]%Z, [mask_cls; VNum 1; mask_cls; VNum 0], [-1; 3; -2; 3]%Z)).
Proof. reflexivity. Qed.

(** A source domain labelled 0 keeps its role: the backward estimator is given a source sample (label 0 >= 0) whose
    label is the mask. *)
Theorem C49_source_zero_refuted :
  circular_backward Z (fun _ _ => Ok [VNum 5; VNum 4]) DInt [10; 20; 30]%Z (map VNum [7; -1; -1]%Q) (SDArr [0; -3; -3]%Z)
  = Ok (Some ([10; 20; 30]%Z, [mask_cls; VNum 1; VNum 0], [0; 3; 3]%Z)) /\ is_source 0 = true.
Proof. split; reflexivity. Qed.

(** ** C50: MixVal. *)
Theorem C50_mixval : forall sign predict scorer alpha ice perm X y sd out,
  mixval_score sign predict scorer alpha ice perm X y (SDArr sd) = Ok out ->
  length X = length sd /\
  exists la, predict (rows_of is_target sd X) (filter is_target sd) = Ok la /\
    let n := how_many is_target sd in
    let Xt := rows_of is_target sd X in
    let pi := fun i => nth i perm 0 in
    let same := fun i => (nth i la 0 =? nth (pi i) la 0)%Z in
    let input := fun i => mixed alpha (nth i Xt []) (nth (pi i) Xt []) in
    let label := fun i => if Rle_dec (1 / 2) alpha then nth i la 0%Z else nth (pi i) la 0%Z in
    length la = n /\ length perm = n /\ Forall (fun i => i < n) perm /\
    exists s1 s2 m,
      (ice <> IceInter -> part_score scorer n same input label s1) /\
      (ice <> IceIntra -> part_score scorer n (fun i => negb (same i)) input label s2) /\
      available_mean (match ice with IceBoth => [s1; s2] | IceIntra => [s1] | IceInter => [s2] end) m /\
      out = option_map (fun t => (sign * t)%R) m.
Proof.
  intros sign predict scorer alpha ice perm X y sd out H. unfold mixval_score in H. apply bind_ok in H as [[[mm Xt] sdt] [Htp H]].
  apply target_part_ok in Htp as (sd' & Hc & Ne & Ls & -> & -> & ->). apply check_xy_given in Hc as (-> & _). rewrite rows_of_self in H.
  apply bind_ok in H as [ty [_ H]]. destruct ty; [discriminate|]. apply bind_ok in H as [la [Hla H]].
  apply bind_ok in H as [lb [Hlb H]]. apply bind_ok in H as [eqs [He H]]. apply np_map2_ok in He as [Le ->].
  apply bind_ok in H as [Xp [HXp H]]. apply bind_ok in H as [mi [Hmi H]]. apply np_map2_rows_ok in Hmi as (LXp & _ & ->).
  apply bind_ok in H as [s1 [H1 H]]. apply bind_ok in H as [s2 [H2 H]]. injection H as <-.
  split; [auto|]. exists la. split; [auto|]. cbv zeta. set (n := how_many is_target sd) in *. set (Xt := rows_of is_target sd X) in *.
  assert (LXt : length Xt = n) by now apply rows_of_length.
  pose proof (np_take_length _ _ _ HXp) as LXp'. pose proof (np_take_length _ _ _ Hlb) as Llb.
  assert (Lperm : length perm = n) by lia. assert (Lla : length la = n) by lia.
  assert (Fp : Forall (fun i => i < n) perm).
  { apply np_take_ok_iff in Hlb. rewrite <- Lla. clear - Hlb. induction Hlb; constructor; auto. apply nth_error_Some. congruence. }
  rewrite (np_take_ok perm la 0%Z) in Hlb by (rewrite Lla; auto). rewrite (np_take_ok perm Xt []) in HXp by (rewrite LXt; auto).
  injection Hlb as <-. injection HXp as <-.
  assert (Pm : forall B (f : nat -> B), map f perm = map (fun i => f (nth i perm 0)) (seq 0 n)).
  { intros B f. rewrite <- Lperm. clear. induction perm as [|x perm IH]; auto. cbn [map length seq]. f_equal. rewrite <- seq_shift, map_map, IH. reflexivity. }
  assert (Lm : la = map (fun i => nth i la 0%Z) (seq 0 n)).
  { rewrite <- Lla. clear. induction la as [|x la IH]; auto. cbn [map length seq]. f_equal. rewrite <- seq_shift, map_map. exact IH. }
  assert (Eq : map2 Z.eqb la (map (fun i => nth i la 0%Z) perm) = map (fun i => (nth i la 0 =? nth (nth i perm 0%nat) la 0)%Z) (seq 0 n)).
  { rewrite Pm. rewrite Lm at 1. generalize (seq 0 n). clear. intros l. induction l; simpl; congruence. }
  assert (Ein : map2 (map2 (fun a b => (alpha * a + (1 - alpha) * b)%R)) Xt (map (fun i => nth i Xt []) perm)
              = map (fun i => mixed alpha (nth i Xt []) (nth (nth i perm 0) Xt [])) (seq 0 n)).
  { rewrite Pm. rewrite (map2_as_map _ [] [] Xt) by (rewrite map_length, seq_length; lia). rewrite LXt. apply map_ext_in. intros i Hi.
    apply in_seq in Hi. unfold mixed. f_equal.
    rewrite (nth_indep _ [] (nth (nth 0 perm 0) Xt [])) by (rewrite map_length, seq_length; lia).
    rewrite (map_nth (fun i => nth (nth i perm 0) Xt [])). now rewrite seq_nth by lia. }
  assert (El : (if Rleb (1 / 2) alpha then la else map (fun i => nth i la 0%Z) perm)
               = map (fun i => if Rle_dec (1 / 2) alpha then nth i la 0%Z else nth (nth i perm 0) la 0%Z) (seq 0 n)).
  { unfold Rleb. destruct (Rle_dec (1 / 2) alpha); [exact Lm|apply Pm]. }
  rewrite Eq, map_map, !flatnonzero_filter in *.
  split; [auto|]. split; [auto|]. split; [auto|].
  exists s1, s2, (match ice with IceBoth => nanmean2 s1 s2 | IceIntra => s1 | IceInter => s2 end).
  split; [intros Hi; destruct ice; try easy; eapply mix_part_spec; eauto|].
  split; [intros Hi; destruct ice; try easy; eapply mix_part_spec; eauto|].
  split; [|reflexivity].
  unfold available_mean. destruct ice, s1, s2; cbn -[mean]; auto; right; (split; [easy|]); unfold mean; cbn -[INR]; simpl INR; f_equal; field.
Qed.

(** Three targets predicted (0, 1, 0), permuted by (1, 0, 2), alpha = 1/2: sample 2 is intra, 0 and 1 are inter. *)
Example C50_ex : forall scorer : list (list R) -> list Z -> list Z -> res R,
  (forall M, scorer M [0]%Z [-1]%Z = Ok 4%R) -> (forall M, scorer M [0; 1]%Z [-1; -1]%Z = Ok 8%R) ->
  mixval_score 1 (fun _ _ => Ok [0; 1; 0]%Z) scorer (1 / 2) IceBoth [1; 0; 2] [[5]; [1]; [2]; [3]]%R (map VNum [1; -1; -1; -1]%Q)
    (SDArr [1; -2; -2; -2]%Z) = Ok (Some 6%R).
Proof.
  intros sc H1 H2. unfold mixval_score. cbn -[Rleb]. rewrite (proj2 (Rleb_iff (1 / 2) (1 / 2))) by lra. cbn.
  rewrite H1. cbn. rewrite H2. cbn. do 2 f_equal. lra.
Qed.

(** ** C51: MaNo. *)
Lemma aggregate_01 p P : (0 < p)%R -> row_stochastic P -> (0 <= mano_aggregate p P <= 1)%R.
Proof.
  intros Hp St. unfold mano_aggregate. apply np_pow_01; [|apply Rdiv_lt_0_compat; lra].
  assert (F : Forall (fun t => 0 <= t <= 1)%R (map (fun t => np_pow t p) (concat P))).
  { apply Forall_map. apply Forall_concat. unfold row_stochastic in St. eapply Forall_impl; [|exact St]. intros r D.
    pose proof (distribution_le1 r D) as H1. destruct D as [H0 _]. rewrite Forall_forall in *. intros t Ht. apply np_pow_01; auto. }
  destruct (concat P) as [|x l] eqn:E; [unfold mean; simpl; lra|]. apply mean_bounds; auto. easy.
Qed.

Theorem C51_probabilities : forall Row sign p threshold pp (X : list Row) y sd r,
  (forall A d P, pp A d = Ok P -> row_stochastic P) ->
  mano_score Row sign p threshold (inr pp) X y (SDArr sd) = Ok r ->
  exists P s, pp (rows_of is_target sd X) (filter is_target sd) = Ok P /\ s = mano_aggregate p P /\ r = (sign * s)%R /\ (0 <= s <= 1)%R.
Proof.
  intros Row sign p th pp X y sd r Hp H. unfold mano_score in H. destruct (Rleb p 0) eqn:Ep; [discriminate|]. apply Rleb_false in Ep.
  apply bind_ok in H as [[[mm Xt] sdt] [Htp H]]. apply target_part_ok in Htp as (sd' & Hc & Ne & Ls & -> & -> & ->).
  apply check_xy_given in Hc as (-> & _). rewrite rows_of_self in H. apply bind_ok in H as [ty [_ H]]. destruct ty; [discriminate|].
  apply bind_ok in H as [P [HP H]]. injection H as <-. exists P, (mano_aggregate p P). split; [auto|]. split; [auto|]. split; [auto|].
  apply aggregate_01; auto. eauto.
Qed.

(** The stable softmax is row-stochastic on every non-empty row ... *)
Theorem C51_softmax : forall logits, Forall (fun r => r <> []) logits ->
  fst (stable_softmax logits) = map (fun r => map (fun t => exp t / vsum (map exp r))%R r) logits /\ row_stochastic (fst (stable_softmax logits)).
Proof.
  intros l H. unfold stable_softmax, row_stochastic. cbn [fst]. rewrite map_map. split.
  - apply map_ext_in. intros r Hr. rewrite Forall_forall in H. exact (proj1 (softmax_row_spec r (H r Hr))).
  - apply Forall_map. eapply Forall_impl; [|exact H]. intros r Hr. destruct (softmax_row_spec r Hr) as (_ & A & B). now apply positive_distribution.
Qed.

(** ... and the Taylor normalisation on every row whose second-order Taylor values are not all equal. *)
Definition taylor2 (x : R) : R := (1 + x + x * x / 2)%R.
Lemma taylor_row_distribution r a b : In a r -> In b r -> taylor2 a <> taylor2 b -> distribution (taylor_row r).
Proof.
  intros Ha Hb Hab. unfold taylor_row. change (fun x => (1 + x + x * x / 2)%R) with taylor2. set (t := map taylor2 r).
  pose proof (row_min_le t) as Hm. assert (Hn : Forall (fun x => 0 <= x)%R (map (fun x => x - row_min t)%R t)).
  { apply Forall_map. eapply Forall_impl; [|exact Hm]. simpl. intros; lra. }
  apply div_sum_distribution; auto. intros E. pose proof (vsum_zero _ Hn E) as Z. rewrite Forall_map, Forall_forall in Z.
  apply Hab. pose proof (Z (taylor2 a) (in_map _ _ _ Ha)). pose proof (Z (taylor2 b) (in_map _ _ _ Hb)). simpl in *. lra.
Qed.

Theorem C51_taylor : forall logits, Forall (fun r => exists a b, In a r /\ In b r /\ taylor2 a <> taylor2 b) logits ->
  row_stochastic (taylor_softmax logits).
Proof.
  intros l H. unfold taylor_softmax, row_stochastic. apply Forall_map. eapply Forall_impl; [|exact H].
  intros r (a & b & Ha & Hb & Hab). now apply (taylor_row_distribution r a b).
Qed.

(** The score of a deep model: in [0, 1] whenever the normalisation that is used is defined. *)
Theorem C51_deep : forall Row sign p threshold infer (X : list Row) y sd r,
  (forall A l, infer A = Ok l -> Forall (fun row => exists a b, In a row /\ In b row /\
      taylor2 (a - row_max row) <> taylor2 (b - row_max row)) l) ->
  mano_score Row sign p threshold (inl infer) X y (SDArr sd) = Ok r ->
  exists l s, infer (rows_of is_target sd X) = Ok l /\ row_stochastic (mano_proba threshold l) /\
    s = mano_aggregate p (mano_proba threshold l) /\ r = (sign * s)%R /\ (0 <= s <= 1)%R.
Proof.
  intros Row sign p th infer X y sd r Hi H. unfold mano_score in H. destruct (Rleb p 0) eqn:Ep; [discriminate|]. apply Rleb_false in Ep.
  apply bind_ok in H as [[[mm Xt] sdt] [Htp H]]. apply target_part_ok in Htp as (sd' & Hc & Ne & Ls & -> & -> & ->).
  apply check_xy_given in Hc as (-> & _). apply bind_ok in H as [ty [_ H]]. destruct ty; [discriminate|].
  apply bind_ok in H as [P [HP H]]. apply bind_ok in HP as [l [Hl HP]]. injection HP as <-. injection H as <-.
  specialize (Hi _ _ Hl). exists l, (mano_aggregate p (mano_proba th l)). split; [auto|].
  assert (St : row_stochastic (mano_proba th l)).
  { unfold mano_proba, mano_criterion. cbn [stable_softmax]. destruct (Rltb _ _).
    - apply C51_softmax. apply Forall_map. eapply Forall_impl; [|exact Hi]. intros row (a & _ & Ha & _). destruct row; [easy|discriminate].
    - apply C51_taylor. apply Forall_map. eapply Forall_impl; [|exact Hi]. intros row (a & b & Ha & Hb & Hab).
      exists (a - row_max row)%R, (b - row_max row)%R. split; [now apply (in_map (fun t => (t - row_max row)%R))|].
      split; [now apply (in_map (fun t => (t - row_max row)%R))|auto]. }
  split; [auto|]. split; [auto|]. split; [auto|]. now apply aggregate_01.
Qed.

Example C51_ex : mano_aggregate 1 [[1 / 2; 1 / 2]; [0; 1]]%R = (1 / 2)%R.
Proof.
  unfold mano_aggregate. cbn -[np_pow mean]. unfold np_pow at 2 3 4 5.
  rewrite !(proj2 (Reqb_false (1 / 2) 0)), (proj2 (Reqb_iff 0 0)), (proj2 (Reqb_false 1 0)) by lra.
  rewrite !Rpower_1 by lra. unfold mean. cbn -[INR np_pow]. simpl INR.
  match goal with |- np_pow ?a _ = _ => replace a with (1 / 2)%R by field end. unfold np_pow.
  rewrite (proj2 (Reqb_false (1 / 2) 0)) by lra. replace (1 / 1)%R with 1%R by field. rewrite Rpower_1; lra.
Qed.

(** ** C82: the normalisation is applied to the logits the model returned. It is not: computing the criterion first
    shifts them in place. The softmax does not depend on the shift, ... *)
Theorem C82_softmax_unaffected_partial : forall threshold logits, 
  (threshold < fst (mano_criterion logits))%R -> mano_proba threshold logits = fst (stable_softmax logits).
Proof.
  intros th l H. unfold mano_proba. destruct (mano_criterion l) as [c l'] eqn:E. cbn [fst] in H. rewrite (proj2 (Rltb_iff _ _)) by auto.
  unfold mano_criterion, stable_softmax in E. injection E as _ <-. unfold stable_softmax. cbn [fst]. rewrite !map_map.
  apply map_ext. intros r. exact (softmax_shift r).
Qed.

Lemma shift_012 : shift_max [0; 1; 2]%R = [-2; -1; 0]%R.
Proof.
  unfold shift_max, row_max, vmax. rewrite (Rmax_right 0 1), (Rmax_right 1 2) by lra. cbn [map]. repeat apply (f_equal2 (@cons R)); auto; lra.
Qed.
Lemma taylor_shifted : taylor_row [-2; -1; 0]%R = [1 / 2; 0; 1 / 2]%R.
Proof.
  unfold taylor_row. cbn [map row_min vmin].
  replace (1 + -2 + -2 * -2 / 2)%R with 1%R by field. replace (1 + -1 + -1 * -1 / 2)%R with (1 / 2)%R by field. replace (1 + 0 + 0 * 0 / 2)%R with 1%R by field.
  rewrite (Rmin_right 1 (1 / 2)), (Rmin_left (1 / 2) 1) by lra. unfold div_sum. cbn [map vsum]. repeat apply (f_equal2 (@cons R)); auto; field.
Qed.
Lemma taylor_plain : taylor_row [0; 1; 2]%R = [0; 3 / 11; 8 / 11]%R.
Proof.
  unfold taylor_row. cbn [map row_min vmin].
  replace (1 + 0 + 0 * 0 / 2)%R with 1%R by field. replace (1 + 1 + 1 * 1 / 2)%R with (5 / 2)%R by field. replace (1 + 2 + 2 * 2 / 2)%R with 5%R by field.
  rewrite (Rmin_left 1 (5 / 2)), (Rmin_left 1 5) by lra. unfold div_sum. cbn [map vsum]. repeat apply (f_equal2 (@cons R)); auto; field.
Qed.

(** ... but the Taylor normalisation does: on logits (0, 1, 2), with the default threshold 5, the class with the
    smallest logit gets probability 1/2, like the class with the largest; on the logits themselves it would get 0. *)
Theorem C82_taylor_refuted :
  mano_proba 5 [[0; 1; 2]]%R = [[1 / 2; 0; 1 / 2]]%R /\ taylor_softmax [[0; 1; 2]]%R = [[0; 3 / 11; 8 / 11]]%R.
Proof.
  split; [|unfold taylor_softmax; cbn [map]; now rewrite taylor_plain].
  assert (C : (fst (mano_criterion [[0; 1; 2]]%R) <= 5)%R).
  { unfold mano_criterion, stable_softmax. cbn [map fst]. rewrite shift_012. cbn [map div_sum]. unfold div_sum. cbn [map vsum concat app].
    set (S := (exp (-2) + (exp (-1) + (exp 0 + 0)))%R).
    pose proof (exp_pos (-2)). pose proof (exp_pos (-1)). assert (E0 : exp 0 = 1%R) by apply exp_0.
    assert (exp (-2) < 1)%R by (rewrite <- exp_0; apply exp_increasing; lra). assert (exp (-1) < 1)%R by (rewrite <- exp_0; apply exp_increasing; lra).
    assert (PS : (0 < S)%R) by (unfold S; lra). assert (S3 : (S <= 3)%R) by (unfold S; lra).
    assert (Ld : forall t, ln (exp t / S) = (t - ln S)%R).
    { intros t. unfold Rdiv. rewrite ln_mult, ln_exp, ln_Rinv by (auto; try apply exp_pos; now apply Rinv_0_lt_compat). lra. }
    rewrite !Ld. pose proof (ln_le_sub S PS). unfold mean. cbn [vsum length]. simpl INR.
    match goal with |- (- ?q <= 5)%R => replace q with (- 1 - ln S)%R by field end. lra. }
  unfold mano_proba. destruct (mano_criterion [[0; 1; 2]]%R) as [c l'] eqn:E. cbn [fst] in C. rewrite (proj2 (Rltb_false _ _)) by auto.
  unfold mano_criterion, stable_softmax in E. injection E as _ <-. unfold taylor_softmax. cbn [map]. now rewrite shift_012, taylor_shifted.
Qed.

(** ** C83: no division by zero in the normalisation. It divides by zero on confident two-class logits (2, 0): after the
    shift, (0, -2), both Taylor values are 1, so every entry is 0/0. *)
Theorem C83_taylor_zero_refuted :
  map (fun t => t - row_max [2; 0])%R [2; 0]%R = [0; -2]%R /\ taylor2 0 = taylor2 (-2) /\
  (let t := map taylor2 [0; -2]%R in vsum (map (fun x => x - row_min t)%R t) = 0%R) /\
  mano_proba 5 [[2; 0]]%R = [taylor_row [0; -2]%R].
Proof.
  assert (Sh : shift_max [2; 0]%R = [0; -2]%R).
  { unfold shift_max, row_max, vmax. rewrite (Rmax_left 2 0) by lra. cbn [map]. repeat apply (f_equal2 (@cons R)); auto; lra. }
  split; [exact Sh|]. split; [unfold taylor2; field|]. split.
  { cbn [map row_min vmin]. replace (taylor2 0) with 1%R by (unfold taylor2; field). replace (taylor2 (-2)) with 1%R by (unfold taylor2; field).
    rewrite Rmin_left by lra. cbn [vsum]. lra. }
  assert (C : (fst (mano_criterion [[2; 0]]%R) <= 5)%R).
  { unfold mano_criterion, stable_softmax. cbn [map fst]. rewrite Sh. unfold div_sum. cbn [map vsum concat app].
    set (S := (exp 0 + (exp (-2) + 0))%R). pose proof (exp_pos (-2)). assert (E0 : exp 0 = 1%R) by apply exp_0.
    assert (exp (-2) < 1)%R by (rewrite <- exp_0; apply exp_increasing; lra).
    assert (PS : (0 < S)%R) by (unfold S; lra). assert (S3 : (S <= 2)%R) by (unfold S; lra).
    assert (Ld : forall t, ln (exp t / S) = (t - ln S)%R).
    { intros t. unfold Rdiv. rewrite ln_mult, ln_exp, ln_Rinv by (auto; try apply exp_pos; now apply Rinv_0_lt_compat). lra. }
    rewrite !Ld. pose proof (ln_le_sub S PS). unfold mean. cbn [vsum length]. simpl INR.
    match goal with |- (- ?q <= 5)%R => replace q with (- 1 - ln S)%R by field end. lra. }
  unfold mano_proba. destruct (mano_criterion [[2; 0]]%R) as [c l'] eqn:E. cbn [fst] in C. rewrite (proj2 (Rltb_false _ _)) by auto.
  unfold mano_criterion, stable_softmax in E. injection E as _ <-. unfold taylor_softmax. cbn [map]. now rewrite Sh.
Qed.
