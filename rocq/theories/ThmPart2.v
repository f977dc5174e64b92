(** Theorem C170, continued: weights and per-domain estimators. *)
From Coq Require Import String List ZArith QArith Bool Arith Lia Reals Lra.
From Verif Require Import Np NpFacts Labels Spec SpecFacts UtilsModel UtilsSpec UtilsProofs UtilsProofs2 SelectModel SelectSpec SelectProofs ThmSelect
  RVec RVecFacts FWModel FWProofs ThmFW ReweightModel ReweightSpec ReweightProofs ReweightProofs2 ThmReweight ThmUtils MapProofs OrderSpec ThmOrder PartSpec ThmPart.
Import ListNotations.
Local Open Scope nat_scope.
Local Open Scope list_scope.

Lemma skeleton_part Row (X : list Row) sd (f : list Row -> res (list R)) (g : list Row -> Row -> R) w keep : part keep sd <> [] ->
  (forall A, f A = Ok (map (g A) A)) ->
  (sd <- rw_check Row X (SDArr sd) ;; si <- source_positions sd ;; Xs <- np_take si X ;; sw <- f Xs ;; place_weights (length X) si sw) = Ok w ->
  length sd = length X /\ w = map (fun t => if is_source (fst t) then g (rows_of is_source sd X) (snd t) else 0%R) (combine sd X) /\
  (sd <- rw_check Row (part keep X) (SDArr (part keep sd)) ;; si <- source_positions sd ;; Xs <- np_take si (part keep X) ;; sw <- f Xs ;; place_weights (length (part keep X)) si sw) =
    Ok (map (fun t => if is_source (fst t) then g (rows_of is_source (part keep sd) (part keep X)) (snd t) else 0%R) (combine (part keep sd) (part keep X))).
Proof.
  intros N F H. apply (skeleton X (SDArr sd) f) in H as (L & _ & sw & Hs & Hw). cbn [eff_domain] in *. rewrite F in Hs. injection Hs as <-. specialize (Hw (map_length _ _)).
  split; [exact L|]. split; [now apply placed_weights|].
  destruct (skeleton_total (part keep X) (SDArr (part keep sd)) f (map (g (rows_of is_source (part keep sd) (part keep X))) (rows_of is_source (part keep sd) (part keep X)))) as [w' Hw'].
  - now apply (part_pos keep sd).
  - now apply part_length.
  - apply F.
  - apply map_length.
  - rewrite Hw'. apply (skeleton _ (SDArr (part keep sd)) f) in Hw' as (L' & _ & sw' & Hs' & H'). cbn [eff_domain] in *. rewrite F in Hs'. injection Hs' as <-. specialize (H' (map_length _ _)).
    f_equal. now apply placed_weights.
Qed.
Theorem C170_gaussian : forall Row pdf_s pdf_t (X : list Row) sd keep w, part keep sd <> [] ->
  gaussian_weights Row pdf_s pdf_t X (SDArr sd) = Ok w -> gaussian_weights Row pdf_s pdf_t (part keep X) (SDArr (part keep sd)) = Ok (part keep w).
Proof.
  intros Row ps pt X sd keep w N H. unfold gaussian_weights in *.
  apply (skeleton_part Row X sd (fun Xs => np_map2 Rdiv (map pt Xs) (map ps Xs)) (fun _ x => pt x / ps x)%R w keep N) in H as (L & -> & H).
  - rewrite H. f_equal. now apply part_pointwise.
  - intros A. unfold np_map2. rewrite !map_length, Nat.eqb_refl. f_equal. apply map2_map.
Qed.
Theorem C170_kliep : forall Row kern alpha centers (X : list Row) sd keep w, part keep sd <> [] -> length alpha = length centers ->
  kliep_weights Row kern (alpha, centers) X (SDArr sd) = Ok w -> kliep_weights Row kern (alpha, centers) (part keep X) (SDArr (part keep sd)) = Ok (part keep w).
Proof.
  intros Row kern al ce X sd keep w N La H. unfold kliep_weights in *. cbn [fst snd] in *.
  apply (skeleton_part Row X sd (fun Xs => np_matvec (kernel_matrix Row kern Xs ce) al) (fun _ => kernel_sum kern al ce) w keep N) in H as (L & -> & H).
  - rewrite H. f_equal. now apply part_pointwise.
  - intros A. now apply matvec_kernel.
Qed.
(** Weights normalised over the samples of the call agree up to the factor of the normalisation. *)
Lemma mean_pos_in {A} (h : A -> R) l x : (forall a, In a l -> 0 <= h a)%R -> In x l -> (0 < h x)%R -> (0 < mean (map h l))%R.
Proof.
  intros P I0 H. unfold mean. apply Rmult_lt_0_compat.
  - induction l as [|y l IH]; [easy|]. cbn [map vsum]. assert (0 <= vsum (map h l))%R.
    { apply vsum_nonneg. apply Forall_map, Forall_forall. intros a Ha. apply P. now right. }
    assert (0 <= h y)%R by (apply P; now left). destruct I0 as [->|I0]; [lra|]. assert (0 < vsum (map h l))%R; [|lra]. apply IH; auto. intros a Ha. apply P. now right.
  - apply Rinv_0_lt_compat, lt_0_INR. rewrite map_length. destruct l; [easy|cbn; lia].
Qed.
Lemma scaled_part {A} (h : A -> R) (m m' : R) (keep : list bool) sd (X : list A) : (0 < m)%R -> (0 < m')%R -> length sd = length X ->
  proportional (part keep (map (fun t => if is_source (fst t) then (h (snd t) / m)%R else 0%R) (combine sd X)))
    (map (fun t => if is_source (fst t) then (h (snd t) / m')%R else 0%R) (combine (part keep sd) (part keep X))).
Proof.
  intros Hm Hm' L. exists (m' / m)%R. split; [now apply Rdiv_lt_0_compat|].
  rewrite <- part_pointwise by exact L. rewrite map_map. apply map_ext. intros t. destruct (is_source (fst t)); [field; lra|lra].
Qed.
Theorem C170_density : forall Row fexp fs ft es et (X : list Row) sd keep w, (forall A, es A = Ok (map fs A)) -> (forall A, et A = Ok (map ft A)) ->
  (forall t, 0 <= fexp t)%R -> (exists x, In x (rows_of is_source (part keep sd) (part keep X)) /\ 0 < fexp (ft x - fs x))%R ->
  density_weights Row fexp (es, et) X (SDArr sd) = Ok w ->
  exists w', density_weights Row fexp (es, et) (part keep X) (SDArr (part keep sd)) = Ok w' /\ proportional (part keep w) w'.
Proof.
  intros Row fexp a b es et X sd keep w Ha Hb Hp (x0 & Hx & Hx0) H.
  assert (N : part keep sd <> []) by (intros E; rewrite E in Hx; destruct Hx).
  set (f := fun Xs : list Row => ws <- es Xs ;; wt <- et Xs ;; d <- np_map2 Rminus wt ws ;; Ok (normalise_or_uniform (map fexp d))).
  assert (EQ : forall X sd, density_weights Row fexp (es, et) X (SDArr sd) =
    (sd <- rw_check Row X (SDArr sd) ;; si <- source_positions sd ;; Xs <- np_take si X ;; sw <- f Xs ;; place_weights (length X) si sw)).
  { clear. intros X sda. unfold density_weights, f. cbn [fst snd]. destruct (rw_check Row X (SDArr sda)) as [sd'|]; [|reflexivity]. cbn [bind].
    destruct (source_positions sd') as [si|]; [|reflexivity]. cbn [bind]. destruct (np_take si X) as [Xs|]; [|reflexivity]. cbn [bind].
    destruct (es Xs); [|reflexivity]. cbn [bind]. destruct (et Xs); [|reflexivity]. cbn [bind]. destruct (np_map2 Rminus _ _); reflexivity. }
  rewrite EQ in H. rewrite EQ. set (h := fun x => fexp (b x - a x)%R).
  apply (skeleton_part Row X sd f (fun A x => if Req_EM_T (mean (map h A)) 0 then (1 / INR (length A))%R else (h x / mean (map h A))%R) w keep N) in H as (L & -> & H).
  - rewrite H. eexists. split; [reflexivity|].
    assert (P' : (0 < mean (map h (rows_of is_source (part keep sd) (part keep X))))%R) by (apply (mean_pos_in h _ x0); auto; intros; apply Hp).
    assert (P : (0 < mean (map h (rows_of is_source sd X)))%R) by (apply (mean_pos_in h _ x0); [intros; apply Hp|now apply part_rows in Hx|exact Hx0]).
    destruct (Req_EM_T (mean (map h (rows_of is_source sd X))) 0) as [E|_]; [lra|].
    destruct (Req_EM_T (mean (map h (rows_of is_source (part keep sd) (part keep X)))) 0) as [E|_]; [lra|].
    now apply scaled_part.
  - intros A. unfold f. rewrite Ha, Hb. cbn [bind]. unfold np_map2. rewrite !map_length, Nat.eqb_refl. cbn [bind].
    rewrite map2_map, map_map. f_equal. unfold normalise_or_uniform, Reqb. fold h. change (fun x => fexp (b x - a x)%R) with h.
    destruct (Req_EM_T (mean (map h A)) 0); cbn [negb]; rewrite map_map; apply map_ext; intros; rewrite ?map_length; reflexivity.
Qed.
Theorem C170_discriminator : forall Row proba1 p (X : list Row) sd keep w, (forall A, proba1 A = Ok (map p A)) ->
  (exists x, In x (rows_of is_source (part keep sd) (part keep X)) /\ p x < 1)%R ->
  disc_weights Row proba1 X (SDArr sd) = Ok w ->
  exists w', disc_weights Row proba1 (part keep X) (SDArr (part keep sd)) = Ok w' /\ proportional (part keep w) w'.
Proof.
  intros Row pr a X sd keep w Ha (x0 & Hx & Hx0) H.
  assert (N : part keep sd <> []) by (intros E; rewrite E in Hx; destruct Hx).
  set (f := fun Xs : list Row => p <- pr Xs ;; let w := map (fun t => (1 - t) / t)%R (map (clip EPS 1) p) in Ok (map (fun t => t / mean w)%R w)).
  assert (EQ : forall X sd, disc_weights Row pr X (SDArr sd) =
    (sd <- rw_check Row X (SDArr sd) ;; si <- source_positions sd ;; Xs <- np_take si X ;; sw <- f Xs ;; place_weights (length X) si sw)).
  { clear. intros X sda. unfold disc_weights, f. destruct (rw_check Row X (SDArr sda)) as [sd'|]; [|reflexivity]. cbn [bind].
    destruct (source_positions sd') as [si|]; [|reflexivity]. cbn [bind]. destruct (np_take si X) as [Xs|]; [|reflexivity]. cbn [bind].
    destruct (pr Xs); reflexivity. }
  rewrite EQ in H. rewrite EQ. set (h := fun x => ((1 - clip EPS 1 (a x)) / clip EPS 1 (a x))%R).
  assert (E1 : (0 < EPS < 1)%R) by (unfold EPS; lra).
  assert (C : forall t, (EPS <= clip EPS 1 t <= 1)%R).
  { intros t. unfold clip. split; [apply Rmin_glb; [apply Rmax_r|lra]|apply Rmin_r]. }
  assert (Hp : forall x, (0 <= h x)%R).
  { intros x. unfold h. destruct (C (a x)). apply Rmult_le_pos; [lra|]. left. apply Rinv_0_lt_compat. lra. }
  assert (Hpos : (0 < h x0)%R).
  { unfold h. destruct (C (a x0)). apply Rmult_lt_0_compat; [|apply Rinv_0_lt_compat; lra]. assert (clip EPS 1 (a x0) < 1)%R; [|lra].
    unfold clip. eapply Rle_lt_trans; [apply Rmin_l|]. apply Rmax_lub_lt; lra. }
  apply (skeleton_part Row X sd f (fun A x => (h x / mean (map h A))%R) w keep N) in H as (L & -> & H).
  - rewrite H. eexists. split; [reflexivity|]. apply scaled_part; auto.
    + apply (mean_pos_in h _ x0); auto. now apply part_rows in Hx.
    + apply (mean_pos_in h _ x0); auto.
  - intros A. unfold f. rewrite Ha. cbn [bind]. cbv zeta. f_equal. rewrite !map_map. reflexivity.
Qed.
(** Weights placed at the sources, from any values [v] that come with the samples. *)
Lemma place_values {A} (g : A -> R) sd (X : list A) : length sd = length X ->
  place_weights (length X) (flatnonzero (map is_source sd)) (map g (rows_of is_source sd X)) = Ok (map (fun t => if is_source (fst t) then g (snd t) else 0%R) (combine sd X)).
Proof.
  intros L. pose proof (rows_of_length is_source sd X L) as Q.
  destruct (place_weights_total sd (map g (rows_of is_source sd X))) as [w H]; [now rewrite map_length|]. rewrite <- L, H. f_equal.
  apply placed_weights; [exact L|]. apply place_weights_spec; [now rewrite map_length|exact H].
Qed.
(** KMM, for smoothed weights or sources other than the training sources. *)
Theorem C170_kmm : forall Row (eqb : list Row -> list Row -> bool) kern smooth ws Xs (X : list Row) sd keep,
  (forall a b, eqb a b = true <-> a = b) -> length ws = length Xs -> length sd = length X -> part keep sd <> [] ->
  (smooth = true \/ rows_of is_source sd X <> Xs /\ rows_of is_source (part keep sd) (part keep X) <> Xs) ->
  exists w, kmm_weights Row eqb kern smooth (ws, Xs) X (SDArr sd) = Ok w /\
    kmm_weights Row eqb kern smooth (ws, Xs) (part keep X) (SDArr (part keep sd)) = Ok (part keep w).
Proof.
  intros Row eqb kern smooth ws Xs X sd keep He Lw L N H.
  assert (G : forall (Y : list Row) s, length s = length Y -> s <> [] -> (smooth = true \/ rows_of is_source s Y <> Xs) ->
    kmm_weights Row eqb kern smooth (ws, Xs) Y (SDArr s) = Ok (map (fun t => if is_source (fst t) then kernel_sum kern ws Xs (snd t) else 0%R) (combine s Y))).
  { clear - He Lw. intros Y s L N H. unfold kmm_weights. rewrite rw_check_total by (cbn; rewrite <- ?L; destruct s; cbn; easy || lia). cbn [bind eff_domain fst snd].
    rewrite extract_source_ok by exact N. cbn [bind]. rewrite np_select_ok by (rewrite map_length; exact L). cbn [bind]. rewrite <- rows_of_select.
    assert (E : eqb Xs (rows_of is_source s Y) && negb smooth = false).
    { destruct H as [->|H]; [apply andb_false_r|]. destruct (eqb Xs _) eqn:E; [|reflexivity]. apply He in E. congruence. }
    rewrite E, matvec_kernel by exact Lw. cbn [bind]. now apply place_values. }
  assert (N' : sd <> []) by (intros ->; apply N; unfold part; now destruct keep).
  eexists. split; [apply G; auto; tauto|]. rewrite G; [|now apply part_length|exact N|tauto]. f_equal. now apply part_pointwise.
Qed.
(** MMDTarS, fitted on class labels: on any data, provided that the training sources come with their training labels. *)
Theorem C170_mmdtars : forall Row solve (eqb : list Row -> list Row -> bool) (X0 : list Row) y0 sd0 st (X : list Row) y sd keep,
  (forall a b, eqb a b = true <-> a = b) -> tars_fit Row solve X0 y0 (SDArr sd0) = Ok st -> 0 < how_many is_source sd0 ->
  length sd = length X -> length y = length X -> part keep sd <> [] ->
  (rows_of is_source sd X = rows_of is_source sd0 X0 -> rows_of is_source sd y = rows_of is_source sd0 y0) ->
  (rows_of is_source (part keep sd) (part keep X) = rows_of is_source sd0 X0 -> rows_of is_source (part keep sd) (part keep y) = rows_of is_source sd0 y0) ->
  exists w, tars_weights Row eqb st X y (SDArr sd) = Ok w /\ tars_weights Row eqb st (part keep X) (part keep y) (SDArr (part keep sd)) = Ok (part keep w).
Proof.
  intros Row solve eqb X0 y0 sd0 st X y sd keep He Hf Hs L Ly N H1 H2.
  apply C81_tars_fit in Hf as (EX & EC & EA & EW & _); [|exact Hs]. cbn [eff_domain] in *. rewrite <- EC in EA, EW.
  assert (ND : NoDup (ts_classes Row st)) by (rewrite EC; apply unique_NoDup).
  assert (M : forall ys, np_matvec (indicator ys (ts_classes Row st)) (ts_alpha Row st) = Ok (map (class_weight (ts_classes Row st) (ts_alpha Row st)) ys)).
  { clear - ND EA. intros ys. rewrite <- indicator_matvec by auto. unfold np_matvec, matvec. induction ys as [|c ys IH]; [reflexivity|].
    cbn [indicator map mapM]. fold (indicator ys (ts_classes Row st)). rewrite IH. unfold np_dot. rewrite map_length, EA, Nat.eqb_refl. reflexivity. }
  assert (G : forall (Y : list Row) z s, length s = length Y -> length z = length Y -> s <> [] ->
    (rows_of is_source s Y = rows_of is_source sd0 X0 -> rows_of is_source s z = rows_of is_source sd0 y0) ->
    tars_weights Row eqb st Y z (SDArr s) = Ok (map (fun t => (t + / 10000000000000)%R) (map (fun t => if is_source (fst t) then class_weight (ts_classes Row st) (ts_alpha Row st) (snd t) else 0%R) (combine s z)))).
  { clear - He EX EW M. intros Y z s L Lz N H. unfold tars_weights.
    assert (C : check_X_y_domain (length Y) (map (fun z => VNum (QArith_base.inject_Z z)) z) (SDArr s) true all_flags = Ok s).
    { apply C05_check_X_y_domain_accepts_partial; [rewrite <- L; destruct s; [easy|cbn; lia]|now rewrite map_length|exact N|]. split; [reflexivity|].
      unfold flags_accept, all_flags; simpl. intuition discriminate. }
    rewrite C. cbn [bind]. rewrite extract_source_ok by exact N. cbn [bind]. rewrite np_select_ok by (rewrite map_length; exact L). cbn [bind]. rewrite <- rows_of_select.
    assert (Q : (if eqb (ts_X Row st) (rows_of is_source s Y) then Ok (ts_weights Row st)
      else ys <- np_select (map is_source s) z ;; np_matvec (indicator ys (ts_classes Row st)) (ts_alpha Row st)) = Ok (map (class_weight (ts_classes Row st) (ts_alpha Row st)) (rows_of is_source s z))).
    { destruct (eqb (ts_X Row st) (rows_of is_source s Y)) eqn:E.
      - apply He in E. rewrite EX in E. rewrite H by now symmetry. now rewrite EW.
      - rewrite np_select_ok by (rewrite map_length; lia). cbn [bind]. rewrite <- rows_of_select. apply M. }
    rewrite Q. cbn [bind]. rewrite <- Lz. rewrite place_values by lia. reflexivity. }
  assert (N' : sd <> []) by (intros ->; apply N; unfold part; now destruct keep).
  eexists. split; [now apply G|]. rewrite G; [|now apply part_length|now apply part_length|exact N|exact H2]. f_equal. rewrite part_map. f_equal. apply part_pointwise. lia.
Qed.
(** ** Estimators per domain and per side. *)
Theorem C170_per_domain : forall Row Est A route (zero : A) (meth : Est -> list Row -> params -> res (list A)) (ests : dict Z Est) (pred : Est -> Row -> A) X ps ps' sd keep,
  length sd = length X -> part keep sd <> [] -> route ps = Ok [] -> route ps' = Ok [] -> get_sd ps = Some sd -> get_sd ps' = Some (part keep sd) ->
  (forall e A, meth e A [] = Ok (map (pred e) A)) -> (forall d, In d sd -> exists e, dict_get Z.eqb d ests = Some e) ->
  exists r, per_domain_route route zero meth ests X ps = Ok r /\ per_domain_route route zero meth ests (part keep X) ps' = Ok (part keep r).
Proof.
  intros Row Est A route zero meth ests pred X ps ps' sd keep L N R R' G G' HM HE.
  set (g := fun t : Z * Row => match dict_get Z.eqb (fst t) ests with Some e => pred e (snd t) | None => zero end).
  assert (Q : forall X sd ps, length sd = length X -> sd <> [] -> route ps = Ok [] -> get_sd ps = Some sd -> (forall d, In d sd -> exists e, dict_get Z.eqb d ests = Some e) ->
    per_domain_route route zero meth ests X ps = Ok (map g (combine sd X))).
  { clear - HM. intros X sd ps L Ne R G HE.
    destruct (per_domain_route_ok route zero meth ests X ps [] sd (fun d => map (fun x => g (d, x)) (rows_of (Z.eqb d) sd X))) as (r & Er & Lr & Hr); auto.
    - intros k v [].
    - intros d Hd. destruct (HE d Hd) as [e He]. exists e. split; [exact He|]. split; [|rewrite map_length; now apply rows_of_length].
      replace (params_rows d sd []) with (@nil (string * pval)) by reflexivity. rewrite HM. f_equal. apply map_ext. intros x. unfold g. cbn [fst snd]. now rewrite He.
    - rewrite Er. f_equal. apply (rows_determine sd); [lia|rewrite map_length, combine_length; lia|]. intros d Hd. rewrite (Hr d Hd).
      clear. unfold rows_of. revert X. induction sd as [|e sd IH]; intros [|x X]; try reflexivity. cbn [combine filter fst snd map].
      destruct (Z.eqb_spec d e) as [->|]; cbn [map snd]; [f_equal|]; apply IH. }
  assert (N' : sd <> []) by (intros ->; apply N; unfold part; now destruct keep).
  eexists. split; [apply (Q X sd ps); auto|]. rewrite (Q (part keep X) (part keep sd) ps'); auto.
  - f_equal. now apply part_pointwise.
  - now apply part_length.
  - intros d Hd. apply HE. now apply part_In in Hd.
Qed.
Theorem C170_source_target : forall Row A (zero : A) (fs ft : Row -> A) route_s route_t (meth_s meth_t : list Row -> params -> res (list A)) X ps ps' sd keep,
  length sd = length X -> part keep sd <> [] -> get_sd ps = Some sd -> get_sd ps' = Some (part keep sd) ->
  no_pylist (length sd) ps -> no_pylist (length (part keep sd)) ps' -> (forall p, route_s p = Ok []) -> (forall p, route_t p = Ok []) ->
  (forall B, meth_s B [] = Ok (map fs B)) -> (forall B, meth_t B [] = Ok (map ft B)) ->
  exists r, sst_route route_s route_t zero meth_s meth_t X ps = Ok r /\ sst_route route_s route_t zero meth_s meth_t (part keep X) ps' = Ok (part keep r).
Proof.
  intros Row A zero fs ft rs rt ms mt X ps ps' sd keep L N G G' P P' HS HT MS MT.
  set (g := fun t : Z * Row => if is_source (fst t) then fs (snd t) else ft (snd t)).
  assert (Q : forall X sd ps, length sd = length X -> sd <> [] -> get_sd ps = Some sd -> no_pylist (length sd) ps ->
    sst_route rs rt zero ms mt X ps = Ok (map g (combine sd X))).
  { clear - HS HT MS MT. intros X sd ps L N G P.
    destruct (C18_predict_each_side Row A rs rt zero ms mt X ps sd (map fs (rows_of is_source sd X)) (map ft (rows_of is_target sd X))) as (r & E & Lr & R1 & R2); auto.
    - intros _. exists []. now rewrite HS, MS.
    - intros _. exists []. now rewrite HT, MT.
    - rewrite map_length. now apply rows_of_length.
    - rewrite map_length. now apply rows_of_length.
    - rewrite E. f_equal. destruct (MapProofs.rows_of_by_side fs ft sd X) as [B1 B2]. apply (rows_of_unique sd).
      + lia.
      + rewrite map_length, combine_length. lia.
      + rewrite R1. exact (eq_sym B1).
      + rewrite R2. exact (eq_sym B2). }
  assert (N' : sd <> []) by (intros ->; apply N; unfold part; now destruct keep).
  eexists. split; [apply (Q X sd ps); auto|]. rewrite (Q (part keep X) (part keep sd) ps'); auto.
  - f_equal. now apply part_pointwise.
  - now apply part_length.
Qed.
(** KMM on its own training data (two sources 1 and 0, a target 10, linear kernel with slope 4): the first source weighs 2 with its companions and 8 alone. *)
Definition rrows_eqb (a b : list R) : bool := if list_eq_dec Req_EM_T a b then true else false.
Theorem C170_kmm_training_refuted : forall slsqp, let kern := (fun x y => 4 * (x * y))%R in exists fitted w,
  kmm_fit R slsqp kern 1000 (Some 0%R) 1 "frank-wolfe" [1; 0; 10]%R (SDArr [1; 1; -2]%Z) = Ok fitted /\
  kmm_weights R rrows_eqb kern false fitted [1; 0; 10]%R (SDArr [1; 1; -2]%Z) = Ok w /\
  kmm_weights R rrows_eqb kern false fitted (part [true; false; false] [1; 0; 10]%R) (SDArr (part [true; false; false] [1; 1; -2]%Z)) = Ok [8]%R /\
  part [true; false; false] w = [2]%R.
Proof.
  intros slsqp kern. exists ([2; 0]%R, [1; 0]%R), [2; 0; 0]%R. split; [|split; [|split; [|reflexivity]]].
  - unfold kmm_fit. cbn -[kmm_optim]. unfold kmm_optim.
    assert (G : forall lb ub, exists f, qp_solve slsqp [[4; 0]; [0; 0]]%R (Some [-80; 0]%R) (Some [[1; 1]; [-1; -1]]%R) (Some [2; -2]%R)
              None None lb ub None 1 "frank-wolfe" = Ok ([2; 0]%R, f)).
    { intros lb ub. eexists. unfold qp_solve.
      change (String.eqb "frank-wolfe" "scipy") with false. change (String.eqb "frank-wolfe" "frank-wolfe") with true. cbv iota.
      unfold qp_solve_fw, fw_validate. cbn -[frank_wolfe allclose Rltb].
      replace (allclose [1; 1]%R [(- -1); (- -1)]%R) with (Ok true).
      2:{ unfold allclose, np_map2. cbn -[Rleb]. rewrite (proj2 (Rleb_iff _ _)); auto.
          replace (1 - - -1)%R with 0%R by ring. rewrite Rabs_R0. pose proof (Rabs_pos (- -1)). lra. }
      cbn -[frank_wolfe Rltb]. decide_R. cbn -[frank_wolfe].
      unfold frank_wolfe, fw_loop, fw_step, fw_vertex, qp_jac, np_map2. cbn -[Rltb Rleb INR]. rewrite ?Rinv_1.
      decide_R. cbn -[Rltb Rleb INR]. decide_R. cbn -[INR]. simpl INR.
      match goal with |- Ok ([?a; ?b], _) = _ => replace a with 2%R by field; replace b with 0%R by field end. reflexivity. }
    assert (G' : forall Q c A b lb ub, Q = [[4; 0]; [0; 0]]%R -> c = [-80; 0]%R -> A = [[1; 1]; [-1; -1]]%R -> b = [2; -2]%R ->
      exists f, qp_solve slsqp Q (Some c) (Some A) (Some b) None None lb ub None 1 "frank-wolfe" = Ok ([2; 0]%R, f)).
    { intros Q c A b lb ub -> -> -> ->. apply G. }
    cbn zeta. match goal with |- context [qp_solve slsqp ?Q (Some ?c) (Some ?A) (Some ?b) _ _ ?lb ?ub] =>
      destruct (G' Q c A b lb ub) as [f E]; [| | | |rewrite E; reflexivity] end.
    + unfold kernel_matrix, kern. cbn. repeat apply (f_equal2 (@cons (list R))); try reflexivity; repeat apply (f_equal2 (@cons R)); try reflexivity; ring.
    + unfold mean, kern. cbn. repeat apply (f_equal2 (@cons R)); try reflexivity; field.
    + cbn. repeat (apply f_equal2); try reflexivity; lra.
    + unfold kmm_eps. cbn. repeat apply (f_equal2 (@cons R)); try reflexivity; lra.
  - unfold kmm_weights. cbn -[rrows_eqb]. replace (rrows_eqb [1; 0]%R [1; 0]%R) with true; [reflexivity|].
    unfold rrows_eqb. destruct (list_eq_dec Req_EM_T [1; 0]%R [1; 0]%R); congruence.
  - unfold kmm_weights. cbn -[rrows_eqb]. replace (rrows_eqb [1; 0]%R [1]%R) with false.
    2:{ unfold rrows_eqb. destruct (list_eq_dec Req_EM_T [1; 0]%R [1]%R); [discriminate|reflexivity]. }
    unfold kern. cbn. do 2 f_equal. unfold dot. cbn. ring.
Qed.
Example C170_ex : part [true; false; true] [10; 20; 30] = [10; 30] /\
  (forall w, gaussian_weights Z (fun _ => 2%R) IZR [4; 7; 6]%Z (SDArr [1; 2; 3]%Z) = Ok w -> w = [2; 7 / 2; 3]%R) /\
  gaussian_weights Z (fun _ => 2%R) IZR [4; 6]%Z (SDArr [1; 3]%Z) = Ok [2; 3]%R.
Proof.
  split; [reflexivity|]. assert (G : gaussian_weights Z (fun _ => 2%R) IZR [4; 7; 6]%Z (SDArr [1; 2; 3]%Z) = Ok [2; 7 / 2; 3]%R).
  { unfold gaussian_weights. cbn. repeat apply (f_equal2 (@cons R)) || f_equal; lra. }
  split; [congruence|]. exact (C170_gaussian Z (fun _ => 2%R) IZR [4; 7; 6]%Z [1; 2; 3]%Z [true; false; true] _ ltac:(discriminate) G).
Qed.
Example C170_density_ex : exists w, density_weights Z (fun t => if Rltb t 0 then 0 else 1)%R (fun X => Ok (map (fun _ => 5%R) X), fun X => Ok (map IZR X)) [4; 7; 6]%Z (SDArr [1; 2; -3]%Z) = Ok w /\
  exists w', density_weights Z (fun t => if Rltb t 0 then 0 else 1)%R (fun X => Ok (map (fun _ => 5%R) X), fun X => Ok (map IZR X)) [7; 6]%Z (SDArr [2; -3]%Z) = Ok w' /\ proportional (part [false; true; true] w) w'.
Proof.
  assert (T : exists w, density_weights Z (fun t => if Rltb t 0 then 0 else 1)%R (fun X => Ok (map (fun _ => 5%R) X), fun X => Ok (map IZR X)) [4; 7; 6]%Z (SDArr [1; 2; -3]%Z) = Ok w).
  { unfold density_weights. cbn -[normalise_or_uniform]. unfold normalise_or_uniform. destruct (negb _); cbn; eexists; reflexivity. }
  destruct T as [w E]. exists w. split; [exact E|].
  apply (C170_density Z (fun t => if Rltb t 0 then 0 else 1)%R (fun _ => 5%R) IZR _ _ [4; 7; 6]%Z [1; 2; -3]%Z [false; true; true] w); auto.
  - intros t. destruct (Rltb t 0); lra.
  - exists 7%Z. split; [cbn; auto|]. rewrite (proj2 (Rltb_false _ _)) by lra. lra.
Qed.
