(** Theorems C34-C39, C80, C81: the reweighting adapters. *)
From Coq Require Import String List ZArith QArith Bool Arith Lia Reals Lra Permutation Psatz.
From Verif Require Import Np NpFacts Labels Spec SpecFacts UtilsModel UtilsSpec UtilsProofs UtilsProofs2 SelectModel
  RVec RVecFacts FWModel FWSpec FWProofs ThmFW ReweightModel ReweightSpec ReweightProofs ReweightProofs2.
Import ListNotations.
Local Open Scope nat_scope.
Local Open Scope list_scope.

(** ** C34: zero on every target sample, the k-th source row's weight at the k-th source position. *)
Lemma map2_map {A} (f : R -> R -> R) (g h : A -> R) l : map2 f (map g l) (map h l) = map (fun x => f (g x) (h x)) l.
Proof. induction l; simpl; congruence. Qed.

Lemma map2_len (f : R -> R -> R) : forall x y, length x = length y -> length (map2 f x y) = length x.
Proof. induction x as [|a x IH]; intros [|b y] L; simpl in *; auto; discriminate. Qed.

Theorem C34_gaussian : forall Row pdf_s pdf_t (X : list Row) sda w,
  gaussian_weights Row pdf_s pdf_t X sda = Ok w ->
  let sd := eff_domain (length X) sda in
  weights_at sd w (map (fun x => pdf_t x / pdf_s x)%R (rows_of is_source sd X)).
Proof.
  intros Row ps pt X sda w H. unfold gaussian_weights in H.
  apply (skeleton X sda (fun Xs => np_map2 Rdiv (map pt Xs) (map ps Xs))) in H as (L & N & sw & Hs & Hw).
  intros sd. unfold np_map2 in Hs. rewrite !map_length, Nat.eqb_refl in Hs. injection Hs as Hs.
  rewrite map2_map in Hs. fold sd in Hs. rewrite Hs. apply Hw. rewrite <- Hs, map_length. reflexivity.
Qed.

Theorem C34_density : forall Row kde fexp (Xfit : list Row) sda_fit es et X sda w,
  density_fit Row kde Xfit sda_fit = Ok (es, et) -> row_wise es ->
  density_weights Row fexp (es, et) X sda = Ok w ->
  let sd := eff_domain (length X) sda in
  kde (rows_of is_source (eff_domain (length Xfit) sda_fit) Xfit) = Ok es /\
  kde (rows_of is_target (eff_domain (length Xfit) sda_fit) Xfit) = Ok et /\
  exists ls lt, es (rows_of is_source sd X) = Ok ls /\ et (rows_of is_source sd X) = Ok lt /\ length lt = length ls /\
    let ratios := map2 (fun t s => fexp (t - s)%R) lt ls in
    weights_at sd w (map (fun r => if Req_EM_T (mean ratios) 0 then 1 / INR (length ratios) else r / mean ratios)%R ratios).
Proof.
  intros Row kde fexp Xf sdf es et X sda w Hf Hr H sd.
  unfold density_fit in Hf. apply bind_ok in Hf as [[s t] [Hsp Hf]]. apply rw_split_ok in Hsp as (_ & _ & -> & ->).
  apply bind_ok in Hf as [e1 [H1 Hf]]. apply bind_ok in Hf as [e2 [H2 Hf]]. injection Hf as -> ->.
  split; [exact H1|]. split; [exact H2|].
  unfold density_weights in H. cbn [fst snd] in H.
  assert (H' : (sd <- rw_check Row X sda ;; si <- source_positions sd ;; Xs <- np_take si X ;;
     sw <- (ws <- es Xs ;; wt <- et Xs ;; d <- np_map2 Rminus wt ws ;; Ok (normalise_or_uniform (map fexp d))) ;; place_weights (length X) si sw) = Ok w).
  { rewrite <- H. destruct (rw_check Row X sda) as [sd'|]; [|reflexivity]. cbn [bind]. destruct (source_positions sd') as [si|]; [|reflexivity].
    cbn [bind]. destruct (np_take si X) as [Xs|]; [|reflexivity]. cbn [bind]. destruct (es Xs); [|reflexivity]. cbn [bind]. destruct (et Xs); [|reflexivity].
    cbn [bind]. destruct (np_map2 Rminus _ _); reflexivity. }
  apply (skeleton X sda) in H' as (L & N & sw & Hs & Hw). fold sd in Hs, Hw.
  apply bind_ok in Hs as [ls [E1 Hs]]. apply bind_ok in Hs as [lt [E2 Hs]]. apply bind_ok in Hs as [d [E3 Hs]].
  injection Hs as Hs. exists ls, lt. unfold np_map2 in E3. destruct (Nat.eqb_spec (length lt) (length ls)) as [El|El]; [|discriminate].
  injection E3 as E3. split; [auto|]. split; [auto|]. split; [auto|].
  assert (Er : map2 (fun t s => fexp (t - s)%R) lt ls = map fexp d).
  { subst d. clear. revert ls. induction lt as [|a lt IH]; intros [|b ls]; simpl; auto. f_equal. apply IH. }
  cbn zeta. rewrite Er. unfold normalise_or_uniform in Hs.
  assert (Es : sw = map (fun r => if Req_EM_T (mean (map fexp d)) 0 then (1 / INR (length (map fexp d)))%R else (r / mean (map fexp d))%R) (map fexp d)).
  { rewrite <- Hs. unfold Reqb. destruct (Req_EM_T (mean (map fexp d)) 0); simpl; reflexivity. }
  rewrite <- Es. apply Hw. rewrite Es, !map_length. apply Hr in E1. rewrite <- E1, <- E3, <- El. now apply map2_len.
Qed.

(** What the discriminator is fitted on: label 0 for sources, 1 for targets. *)
Theorem C34_discriminator_labels : forall Row clf (X : list Row) sda p,
  disc_fit Row clf X sda = Ok p ->
  clf X (map (fun d => if is_source d then 0%Z else 1%Z) (eff_domain (length X) sda)) = Ok p.
Proof.
  intros Row clf X sda p H. unfold disc_fit in H. apply bind_ok in H as [sd [Hc H]]. apply rw_check_ok in Hc as (-> & L & N).
  set (sd := eff_domain (length X) sda) in *. apply bind_ok in H as [y [Hy H]]. rewrite <- H. f_equal.
  unfold disc_labels in Hy. rewrite source_positions_ok in Hy by auto. cbn [bind] in Hy.
  rewrite np_setidx_flatnonzero in Hy.
  - injection Hy as <-. clear. rewrite flatnonzero_length. induction sd as [|d sd IH]; auto.
    simpl. unfold count in *. simpl. destruct (is_source d); simpl; rewrite IH; reflexivity.
  - now rewrite map_length, repeat_length.
  - rewrite repeat_length. apply flatnonzero_length.
Qed.

Theorem C34_discriminator : forall Row (proba1 : list Row -> res (list R)) X sda w,
  row_wise proba1 -> disc_weights Row proba1 X sda = Ok w ->
  let sd := eff_domain (length X) sda in
  exists p, proba1 (rows_of is_source sd X) = Ok p /\
  let raw := map (fun t => (1 - Rmin (Rmax t EPS) 1) / Rmin (Rmax t EPS) 1)%R p in
  weights_at sd w (map (fun t => t / mean raw)%R raw).
Proof.
  intros Row pr X sda w Hr H sd. unfold disc_weights in H.
  assert (H' : (sd <- rw_check Row X sda ;; si <- source_positions sd ;; Xs <- np_take si X ;;
     sw <- (p <- pr Xs ;; let w := map (fun t => (1 - t) / t)%R (map (clip EPS 1) p) in Ok (map (fun t => t / mean w)%R w)) ;; place_weights (length X) si sw) = Ok w).
  { rewrite <- H. destruct (rw_check Row X sda) as [sd'|]; [|reflexivity]. cbn [bind]. destruct (source_positions sd') as [si|]; [|reflexivity].
    cbn [bind]. destruct (np_take si X) as [Xs|]; [|reflexivity]. cbn [bind]. destruct (pr Xs); reflexivity. }
  apply (skeleton X sda) in H' as (L & N & sw & Hs & Hw). fold sd in Hs, Hw.
  apply bind_ok in Hs as [p [E1 Hs]]. cbn zeta in Hs. injection Hs as Hs. exists p. split; [auto|].
  cbn zeta. rewrite (map_map (clip EPS 1)) in Hs. unfold clip in Hs. rewrite Hs. apply Hw. rewrite <- Hs, !map_length. now apply Hr.
Qed.

Theorem C34_kliep : forall Row kern alpha centers (X : list Row) sda w,
  kliep_weights Row kern (alpha, centers) X sda = Ok w ->
  let sd := eff_domain (length X) sda in
  weights_at sd w (map (kernel_sum kern alpha centers) (rows_of is_source sd X)).
Proof.
  intros Row kern al ce X sda w H sd. unfold kliep_weights in H.
  apply (skeleton X sda (fun Xs => np_matvec (kernel_matrix Row kern Xs ce) al)) in H as (L & N & sw & Hs & Hw).
  fold sd in Hs, Hw. apply np_matvec_ok in Hs as [_ Hs]. rewrite kernel_matvec in Hs. rewrite <- Hs. apply Hw.
  rewrite Hs. apply map_length.
Qed.

Theorem C34_kmm : forall Row rows_eqb kern smooth ws (Xs : list Row) X sda w,
  (forall A B : list Row, rows_eqb A B = true -> A = B) -> length ws = length Xs ->
  kmm_weights Row rows_eqb kern smooth (ws, Xs) X sda = Ok w ->
  let sd := eff_domain (length X) sda in
  (rows_eqb Xs (rows_of is_source sd X) = true -> smooth = false -> weights_at sd w ws) /\
  (rows_eqb Xs (rows_of is_source sd X) = false \/ smooth = true ->
     weights_at sd w (map (kernel_sum kern ws Xs) (rows_of is_source sd X))).
Proof.
  intros Row reb kern smooth ws Xs X sda w Heq Hl H sd. unfold kmm_weights in H.
  apply bind_ok in H as [sd' [Hc H]]. apply rw_check_ok in Hc as (-> & L & N). fold sd in H, L, N.
  rewrite extract_source_ok in H by auto. cbn [bind] in H.
  assert (Esel : np_select (map is_source sd) X = Ok (rows_of is_source sd X)).
  { rewrite np_select_ok by (rewrite map_length; auto). now rewrite rows_of_select. }
  rewrite Esel in H. cbn [bind fst snd] in H. apply bind_ok in H as [sw [Hs H]].
  pose proof (rows_of_length is_source sd X L) as Hrl.
  rewrite <- L in H. split.
  - intros E ->. rewrite E in Hs. simpl in Hs. injection Hs as <-. apply place_weights_spec in H; auto.
    apply Heq in E. rewrite Hl, E. auto.
  - intros E. assert (Ef : reb Xs (rows_of is_source sd X) && negb smooth = false).
    { destruct E as [->| ->]; [reflexivity|]. simpl. apply andb_false_r. }
    rewrite Ef in Hs. apply np_matvec_ok in Hs as [_ Hs]. rewrite kernel_matvec in Hs. subst sw.
    apply place_weights_spec in H; auto. now rewrite map_length.
Qed.

(** fit_transform never changes X; the weights are those of compute_weights on the fitted state. *)
Theorem C34_fit_transform : forall Row S fit weights (X : list Row) sda X' w,
  @rw_fit_transform Row S fit weights X sda = Ok (X', w) ->
  X' = X /\ exists st, fit X sda = Ok st /\ weights st X sda = Ok w.
Proof.
  intros Row S fit weights X sda X' w H. unfold rw_fit_transform in H. apply bind_ok in H as [st [H1 H]].
  apply bind_ok in H as [w' [H2 H]]. injection H as <- <-. eauto.
Qed.

Example C34_ex : gaussian_weights R (fun x => x) (fun x => x * x)%R [2; 9; 4; 9]%R (SDArr [1; -2; 3; -2]%Z) = Ok [2; 0; 4; 0]%R.
Proof. unfold gaussian_weights. cbn. list_eq. Qed.

(** ** C35: density weights are non-negative, with mean one over the sources. *)
Lemma exp_mean_pos d : d <> [] -> (0 < mean (map exp d))%R.
Proof.
  intros H. unfold mean. apply Rmult_lt_0_compat.
  - destruct d as [|x d]; [easy|]. simpl. pose proof (exp_pos x).
    assert (0 <= vsum (map exp d))%R by (apply vsum_nonneg, Forall_map, Forall_forall; intros; left; apply exp_pos). lra.
  - apply Rinv_0_lt_compat, lt_0_INR. rewrite map_length. destruct d; [easy|simpl; lia].
Qed.

Theorem C35_density_mean_one : forall Row kde (Xfit : list Row) sda_fit es et X sda w,
  density_fit Row kde Xfit sda_fit = Ok (es, et) -> row_wise es ->
  density_weights Row exp (es, et) X sda = Ok w ->
  let sd := eff_domain (length X) sda in
  0 < how_many is_source sd ->
  nonneg w /\ mean (rows_of is_source sd w) = 1%R.
Proof.
  intros Row kde Xf sdf es et X sda w Hf Hr H sd Hs.
  destruct (C34_density _ _ _ _ _ _ _ _ _ _ Hf Hr H) as (_ & _ & ls & lt & E1 & _ & El & Hw). fold sd in E1, Hw. cbn zeta in Hw.
  assert (Er : exists d, map2 (fun t s => exp (t - s)%R) lt ls = map exp d /\ length d = length ls).
  { clear -El. revert ls El. induction lt as [|a lt IH]; intros [|b ls] El; simpl in El; try discriminate.
    - exists []. auto.
    - destruct (IH ls) as (d & E & L); [lia|]. exists ((a - b)%R :: d). simpl. rewrite E, L. auto. }
  destruct Er as (d & Er & Ld). rewrite Er in Hw.
  assert (Hd : d <> []).
  { intros ->. simpl in Ld. apply Hr in E1. rewrite <- Ld in E1.
    destruct Hw as (L & Hw & _). simpl in Hw. pose proof (rows_of_length is_source sd w (eq_sym L)) as Q. rewrite Hw in Q. simpl in Q. lia. }
  pose proof (exp_mean_pos d Hd) as Hp. destruct Hw as (L & Hsw & Ht).
  assert (E : rows_of is_source sd w = map (fun t => t / mean (map exp d))%R (map exp d)).
  { rewrite Hsw. apply map_ext. intros t. destruct (Req_EM_T _ 0); [lra|reflexivity]. }
  split.
  - unfold nonneg. rewrite (Forall_rows_of sd w (fun t => 0 <= t)%R (eq_sym L)). rewrite E. split.
    + apply nonneg_div; [|lra]. apply Forall_map, Forall_forall. intros. left. apply exp_pos.
    + eapply Forall_impl; [|exact Ht]. simpl. intros; lra.
  - rewrite E. apply mean_normalised; [now destruct d|lra].
Qed.

(** When numpy's exp underflows on every source sample the weights become 1/n, whose mean is not 1. *)
Theorem C35_underflow_refuted : exists fexp es et w,
  (forall t, (-700 <= t)%R -> fexp t = exp t) /\ (forall t, (0 <= fexp t)%R) /\
  @row_wise R es /\ density_fit R (fun Xs => match Xs with [_] => Ok et | _ => Ok es end) [1; 2; 3]%R (SDArr [1; 1; -2]%Z) = Ok (es, et) /\
  density_weights R fexp (es, et) [1; 2; 3]%R (SDArr [1; 1; -2]%Z) = Ok w /\
  mean (rows_of is_source [1; 1; -2]%Z w) = (1 / 2)%R.
Proof.
  exists (fun t => if Rltb t (-700) then 0%R else exp t), (fun X => Ok (map (fun _ => 0%R) X)), (fun X => Ok (map (fun _ => (-1000)%R) X)), [1/2; 1/2; 0]%R.
  split; [|split; [|split; [|split; [|split]]]].
  - intros t Ht. rewrite (proj2 (Rltb_false _ _)); auto.
  - intros t. destruct (Rltb t (-700)); [lra|left; apply exp_pos].
  - intros X r [= <-]. apply map_length.
  - reflexivity.
  - unfold density_weights. cbn -[Rltb exp normalise_or_uniform place_weights]. decide_R. unfold normalise_or_uniform.
    replace (mean [0; 0]%R) with 0%R by (unfold mean; simpl; lra).
    unfold Reqb. destruct (Req_EM_T 0 0); [|lra]. cbn. list_eq.
  - unfold mean. cbn. lra.
Qed.

Example C35_ex : exists es et w,
  @row_wise R es /\ density_fit R (fun Xs => match Xs with [_] => Ok et | _ => Ok es end) [1; 2; 3]%R (SDArr [1; 1; -2]%Z) = Ok (es, et) /\
  density_weights R exp (es, et) [1; 2; 3]%R (SDArr [1; 1; -2]%Z) = Ok w /\ 0 < how_many is_source [1; 1; -2]%Z.
Proof.
  exists (fun X => Ok X), (fun X => Ok (map (fun t => 2 * t)%R X)). eexists. split; [intros X r [= <-]; auto|]. split; [reflexivity|].
  split; [unfold density_weights; cbn -[normalise_or_uniform exp]|cbn; lia].
  unfold place_weights, np_setidx, normalise_or_uniform. unfold Reqb.
  destruct (Req_EM_T _ 0) as [E|_]; [|cbn -[exp mean]; reflexivity].
  pose proof (exp_mean_pos [2 * 1 - 1; 2 * 2 - 2]%R ltac:(easy)) as Q. cbn [map] in Q. lra.
Qed.

(** ** C36: the discriminator's weights. *)
Lemma raw_decreasing p q : (p <= q)%R -> 
  ((1 - Rmin (Rmax q EPS) 1) / Rmin (Rmax q EPS) 1 <= (1 - Rmin (Rmax p EPS) 1) / Rmin (Rmax p EPS) 1)%R.
Proof.
  intros H. set (a := Rmin (Rmax p EPS) 1). set (b := Rmin (Rmax q EPS) 1).
  assert (HE : (0 < EPS <= 1)%R) by (unfold EPS; lra).
  assert (Hab : (a <= b)%R). { unfold a, b, Rmin, Rmax. repeat destruct (Rle_dec _ _); lra. }
  assert (Ha : (EPS <= a <= 1)%R). { unfold a, Rmin, Rmax. repeat destruct (Rle_dec _ _); lra. }
  assert (Hi : (/ b <= / a)%R) by (apply Rinv_le_contravar; lra).
  replace ((1 - b) / b)%R with (/ b - 1)%R by (field; lra). replace ((1 - a) / a)%R with (/ a - 1)%R by (field; lra). lra.
Qed.

Lemma raw_nonneg p : (0 <= (1 - Rmin (Rmax p EPS) 1) / Rmin (Rmax p EPS) 1)%R.
Proof.
  assert (HE : (0 < EPS <= 1)%R) by (unfold EPS; lra).
  assert (Ha : (EPS <= Rmin (Rmax p EPS) 1 <= 1)%R). { unfold Rmin, Rmax. repeat destruct (Rle_dec _ _); lra. }
  apply Rmult_le_pos; [lra|]. left. apply Rinv_0_lt_compat. lra.
Qed.

(** The weights decrease in the estimated probability of being a target (column 1 of the classifier, label 1 = target
    by [C34_discriminator_labels]); non-negative, mean one. *)
Theorem C36_reversed_order : forall Row (proba1 : list Row -> res (list R)) X sda w p,
  row_wise proba1 -> disc_weights Row proba1 X sda = Ok w ->
  let sd := eff_domain (length X) sda in
  proba1 (rows_of is_source sd X) = Ok p -> Exists (fun t => t < 1)%R p ->
  nonneg w /\ mean (rows_of is_source sd w) = 1%R /\
  forall i j, i < length p -> j < length p -> (nth i p 0 <= nth j p 0)%R ->
    (nth j (rows_of is_source sd w) 0 <= nth i (rows_of is_source sd w) 0)%R.
Proof.
  intros Row pr X sda w p Hr H sd Hp Hex. destruct (C34_discriminator _ _ _ _ _ Hr H) as (p' & Hp' & Hw).
  fold sd in Hp', Hw. rewrite Hp in Hp'. injection Hp' as <-. cbn zeta in Hw.
  set (raw := map _ p) in Hw. destruct Hw as (L & Hsw & Ht).
  assert (Nr : nonneg raw) by (apply Forall_map, Forall_forall; intros; apply raw_nonneg).
  assert (Hm : (0 < mean raw)%R).
  { destruct (mean_nonneg raw Nr) as [|E]; auto. exfalso. symmetry in E. apply mean_zero in E; auto.
    - apply Exists_exists in Hex as (t & Ht1 & Ht2). unfold raw in E. rewrite Forall_map in E. rewrite Forall_forall in E. specialize (E t Ht1). simpl in E.
      assert (HE : (0 < EPS < 1)%R) by (unfold EPS; lra).
      assert (Ha : (EPS <= Rmin (Rmax t EPS) 1 < 1)%R). { unfold Rmin, Rmax. repeat destruct (Rle_dec _ _); lra. }
      apply Rmult_integral in E as [E|E]; [lra|]. pose proof (Rinv_neq_0_compat (Rmin (Rmax t EPS) 1) ltac:(lra)). lra.
    - destruct p; [inversion Hex|easy]. }
  split; [|split].
  - unfold nonneg. rewrite (Forall_rows_of sd w (fun t => 0 <= t)%R (eq_sym L)). rewrite Hsw. split.
    + apply nonneg_div; auto. lra.
    + eapply Forall_impl; [|exact Ht]. simpl. intros; lra.
  - rewrite Hsw. apply mean_normalised; [|lra]. unfold raw. destruct p; [inversion Hex|easy].
  - intros i j Hi Hj Hij. rewrite Hsw. unfold raw. rewrite map_map.
    rewrite !(nth_map0 (fun t => ((1 - Rmin (Rmax t EPS) 1) / Rmin (Rmax t EPS) 1 / _)%R)) by auto. fold raw.
    apply Rmult_le_compat_r; [left; now apply Rinv_0_lt_compat|]. now apply raw_decreasing.
Qed.

Lemma clip_id t : (EPS <= t <= 1)%R -> Rmin (Rmax t EPS) 1 = t.
Proof. intros [H1 H2]. unfold Rmin, Rmax. repeat destruct (Rle_dec _ _); lra. Qed.

(** Two sources; the second looks more like a target and gets the smaller weight. *)
Theorem C36_grows_with_target_likeness_refuted : exists proba1 w,
  @row_wise R proba1 /\ proba1 [1; 2]%R = Ok [1/4; 1/2]%R /\
  disc_weights R proba1 [1; 2; 3]%R (SDArr [1; 1; -2]%Z) = Ok w /\
  rows_of is_source [1; 1; -2]%Z w = [3/2; 1/2]%R.
Proof.
  exists (fun X => Ok (map (fun t => t / 4)%R X)), [3/2; 1/2; 0]%R. split; [intros X r [= <-]; apply map_length|]. split; [cbn; list_eq|].
  split; [|reflexivity]. unfold disc_weights. cbn -[clip place_weights]. unfold clip. rewrite !clip_id by (unfold EPS; lra).
  unfold mean. cbn. list_eq.
Qed.

(** ** C37: KLIEP coefficients are non-negative and the weights of the fitted sources average to one. *)
Theorem C37_kliep_mean_one : forall Row kern choice n_centers tol max_iter (X : list Row) sda alpha centers w,
  (forall x y, 0 <= kern x y)%R -> 1 <= max_iter ->
  kliep_fit Row kern choice n_centers tol max_iter X sda = Ok (alpha, centers) ->
  kliep_weights Row kern (alpha, centers) X sda = Ok w ->
  let sd := eff_domain (length X) sda in
  (exists x c, In x (rows_of is_source sd X) /\ In c centers /\ (0 < kern x c)%R) ->
  incl centers (rows_of is_target sd X) /\ length alpha = length centers /\ nonneg alpha /\
  nonneg w /\ mean (rows_of is_source sd w) = 1%R.
Proof.
  intros Row kern ch nc tol n X sda al ce w Hk Hn Hf Hw sd (x & c & Hx & Hc & Hp).
  apply C34_kliep in Hw. fold sd in Hw. destruct Hw as (L & Hsw & Ht).
  unfold kliep_fit in Hf. apply bind_ok in Hf as [[s t] [Hsp Hf]]. apply rw_split_ok in Hsp as (_ & _ & -> & ->). fold sd in Hf.
  cbn [fst snd] in Hf. unfold kliep_optim in Hf. apply bind_ok in Hf as [ce' [Hce Hf]].
  apply bind_ok in Hf as [m [_ Hf]]. apply bind_ok in Hf as [al' [Hl Hf]]. injection Hf as -> ->.
  destruct (kernel_means_pos kern (rows_of is_source sd X) ce x c Hk Hx Hc Hp) as [Nb Bb].
  apply kliep_loop_spec in Hl as (Na & Da & La); auto.
  assert (Lc : length al = length ce) by (rewrite La; unfold col_means; now rewrite map_length, seq_length).
  split; [|split; [|split; [|split]]]; auto.
  - intros z Hz. apply np_take_ok_iff in Hce. clear -Hz Hce. induction Hce as [|i y is ys Hi Hce IH]; [easy|].
    destruct Hz as [->|Hz]; auto. now apply nth_error_In in Hi.
  - unfold nonneg. rewrite (Forall_rows_of sd w (fun t => 0 <= t)%R (eq_sym L)). rewrite Hsw. split.
    + apply Forall_map, Forall_forall. intros z _. rewrite <- kernel_row. apply dot_nonneg; auto.
      apply Forall_map, Forall_forall. auto.
    + eapply Forall_impl; [|exact Ht]. simpl. intros; lra.
  - rewrite Hsw. rewrite <- kernel_matvec. rewrite <- (dot_col_means (length ce)); auto. apply kernel_rows.
Qed.

Example C37_ex : exists alpha centers w,
  kliep_fit R (fun x y => Rabs (x * y)) [0] 100 1 1 [3; 2; 5]%R (SDArr [1; -1; 1]%Z) = Ok (alpha, centers) /\ centers = [2]%R /\
  kliep_weights R (fun x y => Rabs (x * y)) (alpha, centers) [3; 2; 5]%R (SDArr [1; -1; 1]%Z) = Ok w.
Proof.
  do 3 eexists. split; [|split].
  - unfold kliep_fit. cbn -[kliep_optim]. unfold kliep_optim. cbn -[kliep_loop kernel_matrix col_means vsum].
    unfold kliep_loop. cbn -[EPS Rltb kliep_obj mean dot]. destruct (Rltb (Rabs _) _); reflexivity.
  - reflexivity.
  - reflexivity.
Qed.

(** ** C38: nearest-neighbour weights. *)
(** What is computed: source k gets the number of source positions i such that the nearest source of row n-1-i is k,
    target samples get weight one, and the source weights sum to the number of *sources*. *)
Theorem C38_exact_counts : forall Row nn near laplace (X : list Row) sda d w,
  neighbour_rule nn near -> nn_weights Row nn laplace X sda = Ok w ->
  let sd := eff_domain (length X) sda in
  let Xs := rows_of is_source sd X in
  let queried := map (fun i => nth (length X - 1 - i) X d) (positions is_source sd) in
  Xs <> [] ->
  Forall (fun t => t = 1%R) (rows_of is_target sd w) /\
  rows_of is_source sd w =
    map (fun k => laplace_term laplace + INR (how_many (fun x => k =? near Xs x) queried))%R (seq 0 (length Xs)) /\
  vsum (rows_of is_source sd w) = (INR (how_many is_source sd) + laplace_term laplace * INR (how_many is_source sd))%R.
Proof.
  intros Row nn near laplace X sda d w Hnn H sd Xs q Hne. unfold nn_weights in H.
  apply bind_ok in H as [sd' [Hc H]]. apply rw_check_ok in Hc as (-> & L & N). fold sd in H, L, N.
  rewrite source_positions_ok in H by auto. cbn [bind] in H. rewrite take_sources in H by auto. cbn [bind] in H. fold Xs in H.
  rewrite (mirror_take X _ d) in H.
  2:{ apply Forall_forall. intros i Hi. apply flatnonzero_lt in Hi. rewrite map_length in Hi. lia. }
  cbn [bind] in H. rewrite <- positions_flatnonzero in H. fold q in H.
  destruct (Hnn Xs q Hne) as [E1 E2]. unfold nn_get_weights in H. rewrite E1 in H. cbn [bind] in H.
  assert (F : forallb (fun i => i <? length Xs) (map (near Xs) q) = true).
  { apply forallb_forall. intros i Hi. apply in_map_iff in Hi as (x & <- & _). now apply Nat.ltb_lt. }
  rewrite F in H. cbn [bind] in H. rewrite <- L in H. rewrite positions_flatnonzero in H.
  pose proof (rows_of_length is_source sd X L) as Hl. fold Xs in Hl.
  apply nn_placed in H as (_ & Hsw & Ht); [|rewrite map_length, seq_length; auto].
  split; [auto|].
  assert (E : rows_of is_source sd w = map (fun k => laplace_term laplace + INR (how_many (fun x => k =? near Xs x) q))%R (seq 0 (length Xs))).
  { rewrite Hsw. apply map_ext. intros k. rewrite count_occ_how_many, how_many_map'. reflexivity. }
  split; [exact E|]. rewrite E.
  assert (G : forall (f : nat -> R) a l, vsum (map (fun k => a + f k)%R l) = (INR (length l) * a + vsum (map f l))%R).
  { intros f a l. induction l as [|y l IH]; [simpl; lra|]. cbn [map vsum length]. rewrite IH, S_INR. lra. }
  rewrite G, seq_length, <- Hl.
  replace (vsum (map (fun k => INR (how_many (fun x => k =? near Xs x) q)) (seq 0 (length Xs)))) with (INR (length (map (near Xs) q))).
  - unfold q. rewrite !map_length. rewrite positions_flatnonzero, flatnonzero_length, count_map, <- Hl. lra.
  - rewrite <- (sum_counts (map (near Xs) q) (length Xs)).
    + f_equal. apply map_ext. intros k. now rewrite how_many_map'.
    + apply Forall_map, Forall_forall. auto.
Qed.

(** In layouts in which sources and targets mirror each other the documented count is obtained. *)
Theorem C38_mirrored_partial : forall Row nn near laplace (X : list Row) sda w,
  neighbour_rule nn near -> nn_weights Row nn laplace X sda = Ok w ->
  let sd := eff_domain (length X) sda in
  let Xs := rows_of is_source sd X in
  Xs <> [] -> mirrored sd ->
  rows_of is_source sd w =
    map (fun k => laplace_term laplace + INR (how_many (fun x => k =? near Xs x) (rows_of is_target sd X)))%R (seq 0 (length Xs)) /\
  vsum (rows_of is_source sd w) = (INR (how_many is_target sd) + laplace_term laplace * INR (how_many is_source sd))%R.
Proof.
  intros Row nn near laplace X sda w Hnn H sd Xs Hne HM.
  destruct Xs as [|d Xs'] eqn:EX; [easy|]. rewrite <- EX in *.
  destruct (C38_exact_counts Row nn near laplace X sda d w Hnn H Hne) as (_ & E & S). fold sd in E, S. fold Xs in E.
  assert (L : length sd = length X).
  { unfold nn_weights in H. apply bind_ok in H as [sd' [Hc H]]. apply rw_check_ok in Hc as (-> & L & _). auto. }
  pose proof (mirrored_rows sd X d L HM) as P. split.
  - rewrite E. apply map_ext. intros k. do 2 f_equal. now apply how_many_Permutation.
  - rewrite S. do 2 f_equal. pose proof (Permutation_length P) as PL. rewrite map_length in PL.
    rewrite positions_flatnonzero, flatnonzero_length, count_map in PL. rewrite PL. now apply rows_of_length.
Qed.

(** One-dimensional nearest neighbour (first of the closest), as a concrete rule. *)
Fixpoint nearest_from (best bi k : nat) (x : Z) (l : list Z) : nat :=
  match l with
  | [] => bi
  | y :: l' => let dist := Z.to_nat (Z.abs (x - y)) in
               if dist <? best then nearest_from dist k (S k) x l' else nearest_from best bi (S k) x l'
  end.
Definition nearest (l : list Z) (x : Z) : nat :=
  match l with [] => 0 | y :: l' => nearest_from (Z.to_nat (Z.abs (x - y))) 0 1 x l' end.

Lemma nearest_rule : neighbour_rule (fun Xs Xt => Ok (map (nearest Xs) Xt)) nearest.
Proof.
  intros Xs Xt H. split; [auto|]. intros x. destruct Xs as [|y l]; [easy|]. simpl.
  assert (G : forall l best bi k, bi < k -> nearest_from best bi k x l < k + length l).
  { induction l0 as [|z l0 IH]; intros best bi k Hk; simpl; [lia|].
    destruct (_ <? _); (eapply Nat.lt_le_trans; [apply IH|]; lia). }
  apply (G l _ 0 1). lia.
Qed.

(** Sources 0 and 10, one target 9: source 10 should get 1; it gets 2 (it counts itself). *)
Theorem C38_counts_targets_refuted :
  neighbour_rule (fun Xs Xt => Ok (map (nearest Xs) Xt)) nearest /\
  exists w, nn_weights Z (fun Xs Xt => Ok (map (nearest Xs) Xt)) false [0; 10; 9]%Z (SDArr [1; 1; -2]%Z) = Ok w /\
  rows_of is_source [1; 1; -2]%Z w = [0; 2]%R /\ how_many (fun x => 1 =? nearest [0; 10]%Z x) [9]%Z = 1.
Proof.
  split; [apply nearest_rule|]. exists [0; 2; 1]%R. split; [|split; reflexivity].
  unfold nn_weights. cbn. list_eq.
  all: match goal with |- context [INR ?k] => let v := eval vm_compute in k in change k with v end; simpl; lra.
Qed.

Example C38_mirrored_ex : mirrored [1; 3; -2; -2]%Z /\
  nn_weights Z (fun Xs Xt => Ok (map (nearest Xs) Xt)) true [0; 10; 9; 8]%Z (SDArr [1; 3; -2; -2]%Z) = Ok [1; 3; 1; 1]%R.
Proof.
  split.
  - intros i d e H1 H2. do 4 (destruct i as [|i]; [injection H1 as <-; injection H2 as <-; reflexivity|]). destruct i; discriminate.
  - unfold nn_weights. cbn. list_eq.
  all: match goal with |- context [INR ?k] => let v := eval vm_compute in k in change k with v end; simpl; lra.
Qed.

(** ** C39: KMM with the frank-wolfe solver. *)
Lemma dot_ones x : dot (repeat 1%R (length x)) x = vsum x.
Proof. induction x as [|t x IH]; [reflexivity|]. simpl length. cbn [repeat]. rewrite dot_cons, IH. simpl. lra. Qed.

Lemma default_eps_le n : (kmm_eps None n <= 1)%R.
Proof.
  unfold kmm_eps. destruct n as [|n]; [unfold Rdiv; simpl INR; rewrite sqrt_0, Rinv_0; lra|].
  assert (0 < sqrt (INR (S n)))%R by (apply sqrt_lt_R0, lt_0_INR; lia).
  replace ((sqrt (INR (S n)) - 1) / sqrt (INR (S n)))%R with (1 - / sqrt (INR (S n)))%R by (field; lra).
  pose proof (Rinv_0_lt_compat _ H). lra.
Qed.

Theorem C39_kmm_mean_bounds : forall Row slsqp kern B eps max_iter (X : list Row) sda w Xs,
  (forall e, eps = Some e -> e <= 1)%R -> 1 <= max_iter ->
  kmm_fit Row slsqp kern B eps max_iter "frank-wolfe" X sda = Ok (w, Xs) ->
  let sd := eff_domain (length X) sda in
  let n := INR (how_many is_source sd) in
  let e := match eps with Some e => e | None => ((sqrt n - 1) / sqrt n)%R end in
  Xs = rows_of is_source sd X /\ length w = length Xs /\ nonneg w /\ (n * (1 - e) <= vsum w <= n * (1 + e))%R.
Proof.
  intros Row slsqp kern B eps n X sda w Xs He Hn H sd ns e. unfold kmm_fit in H.
  apply bind_ok in H as [[s t] [Hsp H]]. apply rw_split_ok in Hsp as (L & _ & -> & ->). fold sd in H, L. cbn [fst snd] in H.
  apply bind_ok in H as [w' [Hw H]]. injection H as -> <-.
  unfold kmm_optim in Hw. apply bind_ok in Hw as [[x f] [Hq Hw]]. injection Hw as Hw. cbn [fst] in Hw. subst x.
  assert (Lk : length (kernel_matrix Row kern (rows_of is_source sd X) (rows_of is_source sd X)) = how_many is_source sd).
  { unfold kernel_matrix. rewrite map_length. now apply rows_of_length. }
  rewrite Lk in Hq. fold ns in Hq.
  assert (Ee : kmm_eps eps (how_many is_source sd) = e) by reflexivity.
  assert (Hle : (e <= 1)%R). { unfold e. destruct eps; [now apply He|]. apply default_eps_le. }
  rewrite Ee in Hq. apply C10_two_sided in Hq as (Lx & Nx & Sx & _); auto.
  - rewrite repeat_length in Lx. split; [auto|]. split; [rewrite Lx; symmetry; now apply rows_of_length|]. split; [auto|].
    inversion Sx as [|a b l1 l2 S1 S2]; subst. inversion S2 as [|a' b' l1' l2' S3 S4]; subst.
    rewrite <- Lx in S1, S3. rewrite dot_ones in S1.
    assert (E : dot (map Ropp (repeat 1%R (length w))) w = (- vsum w)%R).
    { rewrite <- dot_ones. clear. generalize (repeat 1%R (length w)) as a. intros a. revert w. induction a as [|t a IH]; intros [|u w]; try (unfold dot; simpl; lra).
      cbn [map]. rewrite !dot_cons, IH. lra. }
    rewrite E in S3. lra.
  - clear. induction (how_many is_source sd); simpl; constructor; auto. lra.
  - assert (0 <= ns)%R by (apply pos_INR). nra.
Qed.

(** A negative eps is rejected. *)
Theorem C39_negative_eps : forall Row slsqp kern B e max_iter (X : list Row) sda,
  (e < 0)%R -> 0 < how_many is_source (eff_domain (length X) sda) ->
  kmm_fit Row slsqp kern B (Some e) max_iter "frank-wolfe" X sda = Err ValueError \/
  exists x, rw_split Row X sda = Err x.
Proof.
  intros Row slsqp kern B e n X sda He Hs. unfold kmm_fit. destruct (rw_split Row X sda) as [[s t]|x] eqn:E; [|right; eauto].
  left. apply rw_split_ok in E as (L & _ & -> & ->). cbn [bind fst snd]. unfold kmm_optim. cbn zeta.
  match goal with |- context [qp_solve _ ?Q ?c ?A ?b ?Ae ?be ?l ?u ?x ?m ?sv] =>
    destruct (C10_rejects slsqp Q c A b Ae be l u x m) as (_ & _ & _ & _ & R) end.
  erewrite R; [reflexivity|reflexivity|reflexivity|].
  unfold kmm_eps, kernel_matrix. rewrite map_length, rows_of_length by auto.
  assert (0 < INR (how_many is_source (eff_domain (length X) sda)))%R by now apply lt_0_INR. nra.
Qed.

(** The documented bound B is not enforced: linear kernel, sources 1 and 0, target 10, eps 0, B 3/2. *)
Theorem C39_upper_bound_refuted : forall slsqp, exists w,
  kmm_fit R slsqp Rmult (3/2) (Some 0%R) 1 "frank-wolfe" [1; 0; 10]%R (SDArr [1; 1; -2]%Z) = Ok (w, [1; 0]%R) /\
  w = [2; 0]%R.
Proof.
  intros slsqp. exists [2; 0]%R. split; [|reflexivity]. unfold kmm_fit. cbn -[kmm_optim]. unfold kmm_optim.
  assert (G : forall lb ub, exists f, qp_solve slsqp [[1; 0]; [0; 0]]%R (Some [-20; 0]%R) (Some [[1; 1]; [-1; -1]]%R) (Some [2; -2]%R)
            None None lb ub None 1 "frank-wolfe" = Ok ([2; 0]%R, f)).
  { intros lb ub. eexists. unfold qp_solve.
    change (String.eqb "frank-wolfe" "scipy") with false. change (String.eqb "frank-wolfe" "frank-wolfe") with true. cbv iota.
    unfold qp_solve_fw, fw_validate. cbn -[frank_wolfe allclose Rltb].
    replace (allclose [1; 1]%R [(- -1); (- -1)]%R) with (Ok true).
    2:{ unfold allclose, np_map2. cbn -[Rleb]. rewrite (proj2 (Rleb_iff _ _)); auto.
        replace (1 - - -1)%R with 0%R by ring. rewrite Rabs_R0. pose proof (Rabs_pos (- -1)). lra. }
    cbn -[frank_wolfe Rltb]. decide_R. cbn -[frank_wolfe].
    unfold frank_wolfe, fw_loop, fw_step, fw_vertex, qp_jac, np_map2. cbn -[Rltb Rleb INR]. rewrite ?Rinv_1.
    decide_R. cbn -[Rltb Rleb INR]. decide_R. cbn -[INR]. simpl INR.
    match goal with |- Ok ([?a; ?b], _) = _ => replace a with 2%R by field; replace b with 0%R by field end. reflexivity. }
  assert (G' : forall Q c A b lb ub, Q = [[1; 0]; [0; 0]]%R -> c = [-20; 0]%R -> A = [[1; 1]; [-1; -1]]%R -> b = [2; -2]%R ->
    exists f, qp_solve slsqp Q (Some c) (Some A) (Some b) None None lb ub None 1 "frank-wolfe" = Ok ([2; 0]%R, f)).
  { intros Q c A b lb ub -> -> -> ->. apply G. }
  cbn zeta. match goal with |- context [qp_solve slsqp ?Q (Some ?c) (Some ?A) (Some ?b) _ _ ?lb ?ub] =>
    destruct (G' Q c A b lb ub) as [f E]; [| | | |rewrite E; reflexivity] end.
  - unfold kernel_matrix. cbn. repeat apply (f_equal2 (@cons (list R))); try reflexivity; repeat apply (f_equal2 (@cons R)); try reflexivity; ring.
  - unfold mean. cbn. repeat apply (f_equal2 (@cons R)); try reflexivity; field.
  - cbn. repeat (apply f_equal2); try reflexivity; lra.
  - unfold kmm_eps. cbn. repeat apply (f_equal2 (@cons R)); try reflexivity; lra.
Qed.

Example C39_ex : forall slsqp, exists w, kmm_fit R slsqp Rmult 1000 None 1 "frank-wolfe" [1; 10]%R (SDArr [1; -2]%Z) = Ok (w, [1]%R).
Proof.
  intros slsqp. unfold kmm_fit. cbn -[kmm_optim]. unfold kmm_optim, kmm_eps. cbn -[qp_solve sqrt].
  rewrite sqrt_1. unfold qp_solve.
  change (String.eqb "frank-wolfe" "scipy") with false. change (String.eqb "frank-wolfe" "frank-wolfe") with true. cbv iota.
  unfold qp_solve_fw, fw_validate. cbn -[frank_wolfe allclose Rltb].
  replace (allclose [1]%R [(- - (1))]%R) with (Ok true).
  2:{ unfold allclose, np_map2. cbn -[Rleb]. rewrite (proj2 (Rleb_iff _ _)); auto.
      replace (1 - - - (1))%R with 0%R by ring. rewrite Rabs_R0. pose proof (Rabs_pos (- - (1))). lra. }
  cbn -[frank_wolfe Rltb]. rewrite (proj2 (Rltb_false _ _)) by lra. cbn -[frank_wolfe].
  unfold frank_wolfe, fw_loop, fw_step, fw_vertex, qp_jac, np_map2. cbn -[Rltb Rleb INR mean].
  unfold mean. cbn -[Rleb].
  match goal with |- context [Rleb 0 ?b] => replace b with (-10)%R by field end. decide_R. cbn. eexists. reflexivity.
Qed.

(** ** C80: bandwidth selection of KLIEP, and refitting the same adapter. *)
(** What a bandwidth given by the user stands for (as in sklearn's SVC): a number for itself, "auto" for 1 / number of features, "scale"
    for 1 / (number of features * variance), and 1 when there is no variance. *)
Inductive stands_for (n_features : nat) (var : R) : gamma -> R -> Prop :=
| sf_num r : stands_for n_features var (GNum r) r
| sf_auto : stands_for n_features var GAuto (1 / INR n_features)
| sf_scale : var <> 0%R -> stands_for n_features var GScale (1 / (INR n_features * var))
| sf_flat : var = 0%R -> stands_for n_features var GScale 1.
Lemma auto_scale_stands nf var b r : stands_for nf var b r <-> r = auto_scale nf var b.
Proof.
  unfold auto_scale. split.
  - intros H. inversion H as [r'| |N|E]; subst; auto.
    + now rewrite (proj2 (Reqb_false _ _) N).
    + now rewrite (proj2 (Reqb_iff _ _) eq_refl).
  - intros ->. destruct b; [constructor| |constructor]. destruct (Reqb var 0) eqn:E; [apply Reqb_iff in E|apply Reqb_false in E]; now constructor.
Qed.

(** A single bandwidth is used; of several one whose likelihood is largest. *)
Theorem C80_single_bandwidth : forall lik n_features var b g a, kliep_select lik n_features var (GOne b) = Ok (a, g) -> stands_for n_features var b g.
Proof. intros lik nf var b g a H. injection H as _ <-. now apply auto_scale_stands. Qed.
Theorem C80_selects_best_bandwidth : forall lik n_features var l g a,
  kliep_select lik n_features var (GList l) = Ok (a, g) ->
  (exists b, In b l /\ stands_for n_features var b g) /\ forall b' g', In b' l -> stands_for n_features var b' g' -> (lik g' <= lik g)%R.
Proof.
  intros lik nf var l g a H. unfold kliep_select in H. apply bind_ok in H as [i [Hi H]]. injection H as _ <-.
  apply np_argmax_spec in Hi as (H1 & H2 & _). rewrite !map_length in *.
  assert (E : forall j, j < length l -> nth j (map (auto_scale nf var) l) 0%R = auto_scale nf var (nth j l GAuto)).
  { intros j Hj. rewrite nth_indep with (d' := auto_scale nf var GAuto) by now rewrite map_length. apply map_nth. }
  split; [exists (nth i l GAuto); split; [now apply nth_In|]; apply auto_scale_stands; auto|]. intros b' g' Hb' Hg'. apply auto_scale_stands in Hg' as ->.
  apply In_nth with (d := GAuto) in Hb' as (j & Hj & <-). specialize (H2 j Hj). rewrite !nth_map0 in H2 by (rewrite map_length; auto).
  rewrite !E in H2 by auto. rewrite E by auto. auto.
Qed.

(** With a single bandwidth, a refit selects what a fresh adapter would. *)
Theorem C80_refit_single_partial : forall lik1 lik2 nf1 nf2 var1 var2 g a r,
  kliep_select lik1 nf1 var1 (GOne g) = Ok (a, r) ->
  kliep_select lik2 nf2 var2 a = kliep_select lik2 nf2 var2 (GOne g).
Proof. intros. injection H as <- <-. reflexivity. Qed.

(** So it does with a list of numbers. *)
Theorem C80_refit_numbers_partial : forall lik1 lik2 nf1 nf2 var1 var2 l a r,
  kliep_select lik1 nf1 var1 (GList (map GNum l)) = Ok (a, r) ->
  kliep_select lik2 nf2 var2 a = kliep_select lik2 nf2 var2 (GList (map GNum l)).
Proof.
  intros lik1 lik2 nf1 nf2 var1 var2 l a r H. unfold kliep_select in H. apply bind_ok in H as [i [_ H]]. injection H as <- _.
  replace (map (auto_scale nf1 var1) (map GNum l)) with l; [reflexivity|]. rewrite map_map. cbn [auto_scale]. now rewrite map_id.
Qed.

(** With a list containing "scale" it does not: the first fit overwrites the list by numbers. *)
Theorem C80_refit_equals_fresh_fit_refuted : forall lik1 lik2, exists a r r2 fresh,
  kliep_select lik1 1 1 (GList [GScale]) = Ok (a, r) /\
  kliep_select lik2 1 2 a = Ok r2 /\ kliep_select lik2 1 2 (GList [GScale]) = Ok fresh /\
  snd r2 = 1%R /\ snd fresh = (1 / 2)%R.
Proof.
  intros lik1 lik2. do 4 eexists. split; [reflexivity|]. split; [reflexivity|]. split; [reflexivity|].
  cbn. unfold Reqb. destruct (Req_EM_T 1 0); [lra|]. destruct (Req_EM_T 2 0); [lra|]. cbn. split; field.
Qed.

Example C80_ex : exists a, kliep_select (fun g => - (g - 3) * (g - 3))%R 1 1 (GList [GNum 1; GNum 3; GNum 4]%R) = Ok (a, 3%R).
Proof.
  eexists. unfold kliep_select, np_argmax. cbn -[Rltb]. decide_R. cbn -[Rltb]. decide_R. reflexivity.
Qed.

(** ** C81: MMDTarS gives every sample a weight that depends only on its class. *)
Lemma class_weight_other classes : forall alpha c, ~ In c classes -> class_weight classes alpha c = 0%R.
Proof.
  induction classes as [|d cl IH]; intros [|a al] c H; auto. simpl. destruct (Z.eqb_spec c d) as [->|N].
  - exfalso. apply H. now left.
  - apply IH. intros Hi. apply H. now right.
Qed.

Lemma indicator_row classes : NoDup classes -> forall alpha c, length alpha = length classes ->
  dot (map (fun d => if Z.eqb c d then 1%R else 0%R) classes) alpha = class_weight classes alpha c.
Proof.
  induction 1 as [|d cl Hd N IH]; intros [|a al] c L; simpl in L; try discriminate; auto.
  cbn [map class_weight]. rewrite dot_cons, IH by lia. destruct (Z.eqb_spec c d) as [->|Hne]; [|lra].
  rewrite class_weight_other by auto. lra.
Qed.

Lemma indicator_matvec classes ys alpha : NoDup classes -> length alpha = length classes ->
  matvec (indicator ys classes) alpha = map (class_weight classes alpha) ys.
Proof. intros N L. unfold matvec, indicator. rewrite map_map. apply map_ext. intros y. now apply indicator_row. Qed.

Lemma indicator_len classes ys alpha r : np_matvec (indicator ys classes) alpha = Ok r -> ys <> [] -> length alpha = length classes.
Proof.
  intros H Hy. apply np_matvec_ok in H as [H _]. destruct ys as [|y ys]; [easy|]. cbn in H. apply Forall_cons_iff in H as [H _].
  rewrite map_length in H. auto.
Qed.

Lemma rows_of_nonempty {A} sd (X : list A) : length sd = length X -> 0 < how_many is_source sd -> rows_of is_source sd X <> [].
Proof. intros L H E. pose proof (rows_of_length is_source sd X L) as Q. rewrite E in Q. simpl in Q. lia. Qed.

Theorem C81_tars_fit : forall Row solve (X : list Row) y sda st,
  tars_fit Row solve X y sda = Ok st ->
  let sd := eff_domain (length X) sda in
  let ys := rows_of is_source sd y in
  0 < how_many is_source sd ->
  ts_X Row st = rows_of is_source sd X /\ ts_classes Row st = unique ys /\
  length (ts_alpha Row st) = length (unique ys) /\
  ts_weights Row st = map (class_weight (unique ys) (ts_alpha Row st)) ys /\
  ((forall Xs Xt l p a, solve Xs Xt l p = Ok a -> meets_problem p a) ->
   let m := INR (length ys) in
   Forall (fun t => 0 <= t <= 10)%R (ts_weights Row st) /\
   (m * (1 - 10 / (4 * sqrt m)) <= vsum (ts_weights Row st) <= m * (1 + 10 / (4 * sqrt m)))%R).
Proof.
  intros Row solve X y sda st H sd ys Hs. unfold tars_fit in H. apply bind_ok in H as [sd' [Hc H]].
  apply rw_check_ok in Hc as (-> & L & N). fold sd in H, L, N.
  apply bind_ok in H as [p1 [Hp1 H]]. rewrite split_ok in Hp1; auto; [|easy|intros xs [[= <-]|[]]; auto]. injection Hp1 as <-.
  apply bind_ok in H as [p2 [Hp2 H]].
  assert (Ly : length sd = length y).
  { destruct (Nat.eq_dec (length y) (length sd)) as [|Hne]; auto. exfalso.
    pose proof (split_bad_length [] y [] sd N Hne) as Q. cbn [app] in Q. rewrite Q in Hp2. discriminate. }
  rewrite split_ok in Hp2; auto; [|easy|intros xs [[= <-]|[]]; auto]. injection Hp2 as <-. cbn in H.
  fold ys in H. apply bind_ok in H as [al [Ha H]]. apply bind_ok in H as [w [Hw H]]. injection H as <-. cbn.
  assert (Hy : ys <> []) by now apply rows_of_nonempty.
  pose proof (indicator_len _ _ _ _ Hw Hy) as La. apply np_matvec_ok in Hw as [Hrows Hw].
  pose proof (unique_NoDup ys) as ND.
  rewrite indicator_matvec in Hw by auto.
  split; [auto|]. split; [auto|]. split; [auto|]. split; [exact Hw|]. intros Hsol. apply Hsol in Ha.
  unfold tars_problem in Ha.
  match type of Ha with meets_problem (scipy_build (Some ?A) (Some ?b) _ _ _ _) _ =>
    apply (C79_scipy_problem (Some (A, b)) None None None) in Ha; [|intros; discriminate] end.
  destruct Ha as (Ha & _). specialize (Ha _ _ eq_refl). unfold satisfies_le in Ha.
  assert (Li : length (indicator ys (unique ys)) = length ys) by (unfold indicator; apply map_length).
  apply Forall2_app_inv_l in Ha as (b1 & b2 & F1 & F2 & E).
  assert (E' : b1 = repeat 0%R (length (indicator ys (unique ys))) /\
     b2 = [(- (INR (length (indicator ys (unique ys))) * (1 - 10 / (4 * sqrt (INR (length (indicator ys (unique ys))))))))%R] ++
       map (fun t => (10 * t)%R) (repeat 1%R (length (indicator ys (unique ys)))) ++
       [(INR (length (indicator ys (unique ys))) * (1 + 10 / (4 * sqrt (INR (length (indicator ys (unique ys)))))))%R]).
  { apply F2_length in F1. rewrite map_length in F1. apply app_eq_len; auto. rewrite repeat_length. auto. }
  destruct E' as [-> ->]. clear E. cbn [app] in F2. inversion F2 as [|r v l1 l2 S1 F3]; subst r v l1 l2.
  apply Forall2_app_inv_l in F3 as (b3 & b4 & F3 & F4 & E).
  assert (E' : b3 = map (fun t => (10 * t)%R) (repeat 1%R (length (indicator ys (unique ys)))) /\
     b4 = [(INR (length (indicator ys (unique ys))) * (1 + 10 / (4 * sqrt (INR (length (indicator ys (unique ys)))))))%R]).
  { apply F2_length in F3. apply app_eq_len; auto. rewrite map_length, repeat_length. auto. }
  destruct E' as [-> ->]. inversion F4 as [|r v l1 l2 S2 _]; subst r v l1 l2.
  assert (Hr : Forall (fun r => length r = length (unique ys)) (indicator ys (unique ys))).
  { unfold indicator. apply Forall_map, Forall_forall. intros. apply map_length. }
  rewrite Li in *. rewrite dot_col_sums in S2 by auto.
  assert (Eo : forall (a x : list R), dot (map Ropp a) x = (- dot a x)%R).
  { induction a as [|t a IH]; intros [|u x]; try (unfold dot; simpl; lra). cbn [map]. rewrite !dot_cons, IH. lra. }
  rewrite Eo, dot_col_sums in S1 by auto. rewrite indicator_matvec in S1 by auto. rewrite indicator_matvec in S2 by auto. rewrite <- Hw in S1. rewrite <- Hw in S2.
  split; [|lra].
  clear -F1 F3 Hw Eo ND La Li. rewrite Hw, <- indicator_matvec by auto. clear Hw. revert F1 F3. rewrite <- Li. generalize (indicator ys (unique ys)) as M.
  intros M. induction M as [|r M IH]; intros F1 F3; [constructor|]. cbn in F1, F3. inversion F1; inversion F3; subst. constructor; auto.
  rewrite Eo in *. lra.
Qed.

(** On new data the source weights depend on the class only, plus 1e-13 everywhere; targets and unseen classes get
    exactly 1e-13. On the data used in [fit] the stored weights are used. *)
Theorem C81_tars_weights : forall Row rows_eqb st (X : list Row) y sd w,
  (forall A B : list Row, rows_eqb A B = true -> A = B) ->
  length (ts_weights Row st) = length (ts_X Row st) -> NoDup (ts_classes Row st) ->
  0 < how_many is_source sd ->
  tars_weights Row rows_eqb st X y (SDArr sd) = Ok w ->
  length w = length sd /\
  Forall (fun t => t = (/ 10000000000000)%R) (rows_of is_target sd w) /\
  (rows_eqb (ts_X Row st) (rows_of is_source sd X) = true ->
     rows_of is_source sd w = map (fun t => t + / 10000000000000)%R (ts_weights Row st)) /\
  (rows_eqb (ts_X Row st) (rows_of is_source sd X) = false ->
     rows_of is_source sd w = map (fun c => class_weight (ts_classes Row st) (ts_alpha Row st) c + / 10000000000000)%R (rows_of is_source sd y)).
Proof.
  intros Row reb st X y sd w Heq Hlw ND Hs H. unfold tars_weights in H. apply bind_ok in H as [sd' [Hc H]].
  assert (sd' = sd).
  { unfold check_X_y_domain in Hc. repeat match type of Hc with (if ?b then _ else _) = _ => destruct b; [discriminate|] end.
    cbn [bind] in Hc. apply bind_ok in Hc as [? [_ Hc]]. unfold check_flags in Hc.
    repeat match type of Hc with raise_if ?b _ _ = _ => destruct b; [discriminate|]; cbn [raise_if] in Hc end. congruence. }
  subst sd'. clear Hc. apply bind_ok in H as [m [Hm H]].
  assert (Hne : sd <> []) by (intros ->; cbv in Hs; lia).
  rewrite extract_source_ok in Hm by auto. injection Hm as <-.
  apply bind_ok in H as [Xs [HX H]].
  assert (L : length sd = length X). { unfold np_select in HX. rewrite map_length in HX. destruct (Nat.eqb_spec (length sd) (length X)); [auto|discriminate]. }
  rewrite np_select_ok in HX by (rewrite map_length; auto). injection HX as HX. rewrite <- rows_of_select in HX. subst Xs.
  apply bind_ok in H as [sw [Hsw H]]. apply bind_ok in H as [w' [Hw H]]. injection H as <-. rewrite <- L in Hw.
  assert (Rm : forall p (f : R -> R), rows_of p sd (map f w') = map f (rows_of p sd w')).
  { intros p f. unfold rows_of. clear. revert w'. induction sd as [|d sd IH]; intros [|x w']; simpl; auto.
    destruct (p d); simpl; now rewrite IH. }
  assert (G : length sw = how_many is_source sd -> length (map (fun t => (t + / 10000000000000)%R) w') = length sd /\
     Forall (fun t => t = (/ 10000000000000)%R) (rows_of is_target sd (map (fun t => (t + / 10000000000000)%R) w')) /\
     rows_of is_source sd (map (fun t => (t + / 10000000000000)%R) w') = map (fun t => (t + / 10000000000000)%R) sw).
  { intros Hl. apply place_weights_spec in Hw as (L1 & L2 & L3); auto. rewrite map_length, !Rm, L2. split; [auto|]. split; [|auto].
    apply Forall_map. eapply Forall_impl; [|exact L3]. simpl. intros t ->. lra. }
  destruct (reb (ts_X Row st) (rows_of is_source sd X)) eqn:E.
  - injection Hsw as <-. apply Heq in E. destruct G as (G1 & G2 & G3).
    { rewrite Hlw, E. now apply rows_of_length. }
    split; [auto|]. split; [auto|]. split; [auto|]. discriminate.
  - apply bind_ok in Hsw as [ys [Hy Hsw]].
    assert (Ly : length sd = length y). { unfold np_select in Hy. rewrite map_length in Hy. destruct (Nat.eqb_spec (length sd) (length y)); [auto|discriminate]. }
    rewrite np_select_ok in Hy by (rewrite map_length; auto). injection Hy as Hy. rewrite <- rows_of_select in Hy. subst ys.
    pose proof (indicator_len _ _ _ _ Hsw (rows_of_nonempty sd y Ly Hs)) as La.
    apply np_matvec_ok in Hsw as [_ Hsw]. rewrite indicator_matvec in Hsw by auto.
    destruct G as (G1 & G2 & G3). { rewrite Hsw, map_length. now apply rows_of_length. }
    split; [auto|]. split; [auto|]. split; [discriminate|]. intros _. rewrite G3, Hsw, map_map. auto.
Qed.

Example C81_ex : exists st w,
  tars_fit R (fun _ _ _ _ => Ok [1/2; 5/2]%R) [1; 2; 3; 4]%R [7; 3; 3; 7]%Z (SDArr [1; 1; 1; -2]%Z) = Ok st /\
  ts_weights R st = [5/2; 1/2; 1/2]%R /\
  tars_weights R (fun _ _ => false) st [5; 6; 8]%R [3; 9; 7]%Z (SDArr [1; 1; -2]%Z) = Ok w /\
  w = [1/2 + / 10000000000000; 0 + / 10000000000000; 0 + / 10000000000000]%R.
Proof.
  do 2 eexists. split; [reflexivity|]. split; [|split; [reflexivity|]].
  - cbn. unfold dot. cbn. repeat apply (f_equal2 (@cons R)); try reflexivity; lra.
  - cbn. unfold dot. cbn. repeat apply (f_equal2 (@cons R)); try reflexivity; lra.
Qed.
