(** What holds of properties the code violates elsewhere: C16, C83, C98 and C102. *)
From Coq Require Import String List ZArith QArith Bool Arith Lia Reals Lra Psatz.
From Verif Require Import Np NpFacts Labels Spec SpecFacts UtilsModel UtilsSpec UtilsProofs UtilsProofs2 SelectModel SelectSpec SelectProofs SelectProofs2
  RVec RVecFacts MetricsModel MetricsSpec MetricsProofs MetricsProofs2 ThmMetrics ThmSelect DeepModel DeepSpec DeepProofs DeepProofs2 DeepProofs3 ThmDeep.
Import ListNotations.
Local Open Scope nat_scope.
Local Open Scope list_scope.

(** ** C83 *)

(** [m] is the largest entry of [r]. *)
Definition largest (r : list R) (m : R) : Prop := In m r /\ forall x, In x r -> (x <= m)%R.

Lemma largest_row_max r m : largest r m -> row_max r = m.
Proof.
  intros [A B]. assert (NE : r <> []) by (intros ->; destruct A). destruct (row_max_max r NE) as [C D]. rewrite Forall_forall in D.
  apply Rle_antisym; auto.
Qed.

Lemma taylor_differs r m x : largest r m -> In x r -> x <> m -> (m - x <> 2)%R ->
  exists a b, In a r /\ In b r /\ taylor2 (a - row_max r) <> taylor2 (b - row_max r).
Proof.
  intros L H N1 N2. exists m, x. split; [apply L|]. split; [exact H|]. rewrite (largest_row_max r m L). unfold taylor2. intros E.
  assert (P : ((m - x) * (m - x - 2) = 0)%R) by (replace ((m - x) * (m - x - 2))%R with (2 * ((1 + (x - m) + (x - m) * (x - m) / 2) - (1 + (m - m) + (m - m) * (m - m) / 2)))%R by field; lra).
  apply Rmult_integral in P as [P|P]; lra.
Qed.

Lemma mano_stochastic threshold logits :
  Forall (fun row => exists a b, In a row /\ In b row /\ taylor2 (a - row_max row) <> taylor2 (b - row_max row)) logits ->
  row_stochastic (mano_proba threshold logits).
Proof.
  intros Hi. unfold mano_proba, mano_criterion. cbn [stable_softmax]. destruct (Rltb _ _).
  - apply C51_softmax. apply Forall_map. eapply Forall_impl; [|exact Hi]. intros row (a & _ & Ha & _). destruct row; [easy|discriminate].
  - apply C51_taylor. apply Forall_map. eapply Forall_impl; [|exact Hi]. intros row (a & b & Ha & Hb & Hab).
    exists (a - row_max row)%R, (b - row_max row)%R. split; [now apply (in_map (fun t => (t - row_max row)%R))|].
    split; [now apply (in_map (fun t => (t - row_max row)%R))|auto].
Qed.

(** Whichever normalisation is chosen, the rows are probability vectors as soon as every row has a logit whose distance to the
    largest one is neither 0 nor exactly 2. *)
Theorem C83_defined : forall threshold logits,
  (forall row, In row logits -> exists m x, largest row m /\ In x row /\ x <> m /\ (m - x <> 2)%R) ->
  row_stochastic (mano_proba threshold logits).
Proof.
  intros th logits H. apply mano_stochastic. apply Forall_forall. intros row Hr. destruct (H row Hr) as (m & x & L & Hx & A & B).
  now apply (taylor_differs row m x).
Qed.
(** In particular with three or more distinct logits per row. *)
Theorem C83_three_distinct : forall threshold logits,
  (forall row, In row logits -> exists x y z, In x row /\ In y row /\ In z row /\ x <> y /\ y <> z /\ x <> z) ->
  row_stochastic (mano_proba threshold logits).
Proof.
  intros th logits H. apply C83_defined. intros row Hr. destruct (H row Hr) as (x & y & z & Hx & Hy & Hz & N1 & N2 & N3).
  assert (NE : row <> []) by (intros ->; destruct Hx). destruct (row_max_max row NE) as [A B]. rewrite Forall_forall in B.
  exists (row_max row). set (m := row_max row) in *.
  assert (C : forall t, {t = m \/ (m - t = 2)%R} + {t <> m /\ (m - t <> 2)%R}).
  { intros t. destruct (Req_EM_T t m); [left; auto|]. destruct (Req_EM_T (m - t) 2); [left; auto|right; auto]. }
  destruct (C x) as [Cx|Cx]; [|exists x; repeat split; auto; tauto]. destruct (C y) as [Cy|Cy]; [|exists y; repeat split; auto; tauto].
  destruct (C z) as [Cz|Cz]; [|exists z; repeat split; auto; tauto]. exfalso. destruct Cx, Cy, Cz; try congruence; first [apply N1; lra|apply N2; lra|apply N3; lra].
Qed.
(** The condition is exact for the Taylor normalisation: if every logit is the largest or exactly 2 below it, the denominator is 0. *)
Theorem C83_undefined : forall row m, largest row m -> (forall x, In x row -> x = m \/ (m - x = 2)%R) ->
  let t := map taylor2 (shift_max row) in vsum (map (fun v => v - row_min t)%R t) = 0%R.
Proof.
  intros row m L H t. assert (T1 : forall v, In v t -> v = 1%R).
  { intros v Hv. apply in_map_iff in Hv as (s & <- & Hs). apply in_map_iff in Hs as (x & <- & Hx). rewrite (largest_row_max row m L).
    unfold taylor2. destruct (H x Hx) as [-> |E]; [field|]. replace (x - m)%R with (-2)%R by lra. field. }
  assert (NE : t <> []) by (destruct L as [A _]; unfold t, shift_max; destruct row; [destruct A|discriminate]).
  assert (M : row_min t = 1%R).
  { clear -T1 NE. destruct t as [|a t]; [congruence|]. cbn [row_min]. assert (E : a = 1%R) by (apply T1; now left). rewrite E. clear E NE.
    assert (F : forall v, In v t -> v = 1%R) by (intros v Hv; apply T1; now right). clear T1. induction t as [|b t IH]; [reflexivity|].
    cbn [vmin]. rewrite (F b) by now left. rewrite Rmin_left by lra. apply IH. intros v Hv. apply F. now right. }
  rewrite M. clear -T1. induction t as [|a t IH]; [reflexivity|]. cbn [map vsum]. rewrite IH by (intros v Hv; apply T1; now right).
  rewrite (T1 a) by now left. lra.
Qed.
Example C83_ex : row_stochastic (mano_proba 5 [[3; 0]; [1; -1; 4]]%R) /\ largest [3; 0]%R 3.
Proof.
  assert (A : largest [3; 0]%R 3) by (split; [now left|intros x [<-|[<-|[]]]; lra]).
  split; [|exact A]. apply C83_defined. intros row [<-|[<-|[]]].
  - exists 3%R, 0%R. split; [exact A|]. split; [right; now left|split; lra].
  - exists 4%R, 1%R. split; [split; [right; right; now left|intros x [<-|[<-|[<-|[]]]]; lra]|]. split; [now left|split; lra].
Qed.

(** ** C16 *)

(** An estimator that asks for sample_domain (or a transformer) is fitted once per domain, with the labels of target domains masked. *)
Theorem C16_domain_aware_estimators : forall (R : Type) route tr (X : list R) y ps sd rp (discrete : bool),
  get_sd ps = Some sd -> sd <> [] -> length X = length sd -> length y = length sd ->
  (if discrete then discrete_labels y else continuous_labels y) ->
  route ps = Ok rp -> tr = true \/ gets_domains rp ->
  (forall k v, In (k, v) rp -> per_sample (length sd) v) ->
  let hidden := if discrete then VNum (inject_Z (-1)) else VNan in
  exists masked, length masked = length sd /\
    rows_of is_source sd masked = rows_of is_source sd y /\ (forall v, In v (rows_of is_target sd masked) -> v = hidden) /\
    per_domain_fit route tr true (from_array X) (Some y) ps =
    Ok (Some masked, map (fun d => (d, (positions (Z.eqb d) sd,
              mkCall (rows_of (Z.eqb d) sd X) (Some (rows_of (Z.eqb d) sd masked)) (params_rows d sd rp)))) (unique sd)).
Proof.
  intros R route tr X y ps sd rp discrete H1 H2 H3 H4 H5 H6 H7 H8 hidden.
  set (ty := if discrete then DISCRETE else CONTINUOUS).
  assert (NY : y <> []) by (destruct y, sd; simpl in *; congruence).
  assert (Ty : find_y_type1 y = Ok ty) by (unfold ty; destruct discrete; [apply find_y_type_discrete|apply find_y_type_continuous]; auto).
  exists (mask_targets (mask_of ty) sd y). split; [now apply mask_targets_length|].
  split; [|split].
  - unfold mask_targets. rewrite !rows_of_select. clear -H4. revert y H4. induction sd as [|d sd IH]; intros [|v y] L; try discriminate; [reflexivity|].
    cbn [combine map select fst snd]. injection L as L. specialize (IH y L). destruct (is_source d); [now rewrite IH|exact IH].
  - intros v Hv. assert (E : mask_of ty = hidden) by (unfold ty, hidden; destruct discrete; reflexivity). rewrite <- E.
    unfold mask_targets in Hv. rewrite rows_of_select in Hv. clear -Hv. revert y Hv. induction sd as [|d sd IH]; intros [|w y] Hv; try (destruct Hv; fail).
    cbn [combine map select fst snd] in Hv. destruct (is_target d) eqn:T; [|now apply (IH y)].
    destruct Hv as [<-|Hv]; [|now apply (IH y)]. unfold is_target in T. unfold is_source. destruct (Z.leb_spec 0 d); [|reflexivity]. apply Z.ltb_lt in T. lia.
  - apply (per_domain_fit_ok route tr (from_array X) true (Some y) (Some (mask_targets (mask_of ty) sd y)) ps sd rp X (Some (mask_targets (mask_of ty) sd y)) ps); auto.
    + now apply auto_mask_ok.
    + destruct H7 as [H7|H7]; [now left|right; right]. domain_keys. assumption.
    + intros l [= <-]. now apply mask_targets_length.
Qed.

(** ** C98 and C102 *)
Section Deep.
  Context {Row : Type}.
  Variable row_ok : Row -> bool.
  Notation consistent := (consistent row_ok).

(** With allow_source=True, no domain label is needed: every sample is predicted, in order. *)
Theorem C102_allow_source f infer bs X : (forall b, infer b = map (fun it => f (i_X Row it)) b) -> 0 < bs ->
  (forall x, In x X -> row_ok x = true) -> X <> [] ->
  predict_proba Row row_ok infer bs (InArr _ X) DomNone None true = Ok (map f X).
Proof.
  intros HI Hb HR NX.
  destruct (dataset_ok row_ok X None DomNone None HR eq_refl) as (d & A & C & B & D & E & F); try (cbn; now rewrite repeat_length); [now left|].
  assert (PI : predict_proba Row row_ok infer bs (InArr _ X) DomNone None true = predict_proba Row row_ok infer bs (InDs _ d) DomNone None true).
  { unfold predict_proba. cbn [prepare_input]. now rewrite A. }
  rewrite PI, (C100_all_rows row_ok f infer bs d _ _ HI Hb C); rewrite B; auto.
Qed.

(** merge with out=True: looping over the result gives the samples of both datasets, first those of the first one. *)
Theorem C98_new_dataset a b kw : consistent a -> consistent b ->
  (kw = true -> (t_w _ a = [] /\ t_w _ b = []) \/ (length (t_w _ a) = length (t_X _ a) /\ length (t_w _ b) = length (t_X _ b))) ->
  exists d, merge Row row_ok a b kw = Ok d /\ length (items Row d) = length (t_X _ a) + length (t_X _ b) /\
    map (i_X Row) (items Row d) = t_X _ a ++ t_X _ b /\ map (i_y Row) (items Row d) = t_y _ a ++ t_y _ b /\
    map (i_sd Row) (items Row d) = t_sd _ a ++ t_sd _ b.
Proof.
  intros Ca Cb HW. destruct (C62_merge row_ok a b kw Ca Cb HW) as (d & E & C & E1 & E2 & E3 & E4).
  destruct (C62_items row_ok d C) as (_ & _ & LI & IT). exists d. split; [exact E|].
  assert (L : length (items Row d) = length (t_X _ a) + length (t_X _ b)) by (rewrite LI, E1; apply app_length).
  split; [exact L|].
  assert (G : forall (B : Type) (g : item Row -> B) (l : list B), length l = length (t_X _ d) ->
    (forall i it, i < length (t_X _ d) -> item_at d i it -> nth_error l i = Some (g it)) -> map g (items Row d) = l).
  { intros B g l Hl Hg. assert (NE : forall i, nth_error (map g (items Row d)) i = nth_error l i).
    { intros i. destruct (Nat.lt_ge_cases i (length (t_X Row d))) as [Hi|Hi].
      - destruct (IT i Hi) as (it & Q & P). rewrite nth_error_map, Q. cbn. symmetry. now apply Hg.
      - rewrite (proj2 (nth_error_None _ _)) by (rewrite map_length; lia). symmetry. apply nth_error_None. lia. }
    clear -NE. revert l NE. induction (map g (items Row d)) as [|u us IH]; intros [|v vs] NE; auto.
    - specialize (NE 0). discriminate.
    - specialize (NE 0). discriminate.
    - pose proof (NE 0) as Z. injection Z as ->. f_equal. apply IH. intros i. exact (NE (S i)). }
  rewrite <- E1, <- E2, <- E3.
  split; [|split]; apply G; auto; try apply C.
  - intros i it Hi P. apply P.
  - intros i it Hi P. apply P.
  - intros i it Hi P. apply P.
Qed.

(** merge in place: the arrays are those of both datasets, and the samples the dataset had keep their positions and domain-wise numbers. *)
Theorem C98_in_place a b kw d : consistent a -> consistent b -> merge_in_place Row a b kw = Ok d ->
  t_X _ d = t_X _ a ++ t_X _ b /\ t_y _ d = t_y _ a ++ t_y _ b /\ t_sd _ d = t_sd _ a ++ t_sd _ b /\
  forall i, i < length (t_X _ a) -> exists it it', getitem Row d i = Ok it /\ getitem Row a i = Ok it' /\
    i_X _ it = i_X _ it' /\ i_y _ it = i_y _ it' /\ i_sd _ it = i_sd _ it' /\ i_idx _ it = i_idx _ it'.
Proof.
  intros Ca Cb H. unfold merge_in_place in H. set (d0 := mkDs _ _ _ _ _ _ _) in H. destruct (is_correct Row d0) eqn:K; [|discriminate]. injection H as <-.
  split; [reflexivity|]. split; [reflexivity|]. split; [reflexivity|]. intros i Hi.
  destruct (C62_items row_ok a Ca) as (G & _). destruct (G i Hi) as (it' & E' & _).
  unfold is_correct in K. apply andb_true_iff in K as [K K3]. apply andb_true_iff in K as [K1 K2]. apply Nat.eqb_eq in K1, K2.
  pose proof E' as E. unfold getitem, at_ in E.
  destruct (nth_error (t_X Row a) i) as [x|] eqn:X1; [|discriminate]. destruct (nth_error (t_sd Row a) i) as [sd|] eqn:X2; [|discriminate].
  destruct (nth_error (t_idx Row a) i) as [ix|] eqn:X3; [|discriminate]. cbn [bind] in E. apply bind_ok in E as (w & _ & E).
  destruct (nth_error (t_y Row a) i) as [yv|] eqn:X4; [|discriminate]. cbn [bind] in E. injection E as E.
  assert (AP : forall (A : Type) (u v : list A) q, nth_error u i = Some q -> nth_error (u ++ v) i = Some q).
  { intros A u v q Hq. rewrite nth_error_app1; auto. apply nth_error_Some. congruence. }
  assert (Q : exists w', getitem Row d0 i = Ok (mkItem Row x yv sd ix w')).
  { unfold getitem, at_. unfold d0 at 1 2 3. cbn [t_X t_sd t_idx]. rewrite (AP _ _ _ _ X1), (AP _ _ _ _ X2), X3. cbn [bind].
    assert (Y : nth_error (t_y Row d0) i = Some yv) by (cbn; now apply AP). rewrite Y.
    destruct (has_weights Row d0) eqn:HW; [|cbn [bind]; eauto].
    destruct (nth_error (t_w Row d0) i) eqn:E5; [cbn [bind]; eauto|]. apply nth_error_None in E5.
    assert (LX : length (t_X Row d0) = length (t_X Row a) + length (t_X Row b)) by apply app_length.
    apply orb_true_iff in K3 as [K3|K3]; [apply Nat.eqb_eq in K3; lia|discriminate K3]. }
  destruct Q as (w' & Q). exists (mkItem Row x yv sd ix w'), it'. split; [exact Q|]. split; [exact E'|]. subst it'. auto.
Qed.
End Deep.
