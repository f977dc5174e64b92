(** * C215: every value of a label can be used *)
From Coq Require Import String List ZArith QArith Bool Arith Lia Reals Lra.
From Verif Require Import Np NpFacts Labels Spec SpecFacts UtilsModel UtilsSpec UtilsProofs UtilsProofs2 ThmUtils
  SelectModel SelectSpec SelectProofs ThmSelect ThmTrain RVec RVecFacts MetricsModel MetricsSpec MetricsProofs ThmMetrics.
Import ListNotations.
Local Open Scope nat_scope.
Local Open Scope list_scope.

(** ** Specification *)
(** The label written for a hidden class. *)
Definition minus_one (v : val) : Prop := exists q, v = VNum q /\ (q == inject_Z (-1))%Q.
(** The rows of the sources whose label is not -1 (all three lists have one entry per sample). *)
Fixpoint sources_not_minus_one {A} (sd : list Z) (y : list val) (X : list A) : list A :=
  match sd, y, X with
  | d :: sd', v :: y', x :: X' => (if is_source d && keep_discrete v then [x] else []) ++ sources_not_minus_one sd' y' X'
  | _, _, _ => []
  end.

Lemma picked {A} sd : forall y (X : list A), length y = length sd -> length X = length sd ->
  filter_by keep_discrete (mask_targets (VNum (inject_Z (-1))) sd y) X = sources_not_minus_one sd y X.
Proof.
  induction sd as [|d sd IH]; intros [|v y] [|x X] Ly LX; cbn in Ly, LX; try lia; [reflexivity|]. cbn [sources_not_minus_one]. rewrite <- (IH y X) by lia.
  unfold filter_by, mask_targets. cbn [combine map fst snd filter]. destruct (is_source d); [|reflexivity]. cbn [fst andb]. now destruct (keep_discrete v).
Qed.
Lemma mask_discrete sd : forall y, discrete_labels y -> discrete_labels (mask_targets (VNum (inject_Z (-1))) sd y).
Proof.
  intros y H. unfold discrete_labels, mask_targets in *. rewrite Forall_forall in *. intros v Hv. apply in_map_iff in Hv. destruct Hv as [[d w] [<- Hin]]. cbn [fst snd].
  destruct (is_source d); [apply H; eapply in_combine_r; eauto|exists (inject_Z (-1)), (-1)%Z; split; reflexivity].
Qed.
(** With class labels an estimator that knows nothing of domains is trained on the sources whose label is not -1, and on nothing else. *)
Theorem C215_classes : forall (R : Type) route (X : list R) y ps sd rp ya k, get_sd ps = Some sd -> sd <> [] -> length X = length sd -> length y = length sd -> discrete_labels y ->
  route ps = Ok rp -> ~ gets_domains rp -> no_pylist (length sd) rp -> shared_fit route false true (from_array X) (Some y) ps = Ok (ya, k) ->
  k_X k = sources_not_minus_one sd y X /\ k_y k = Some (sources_not_minus_one sd y y).
Proof.
  intros R route X y ps sd rp ya k Hsd Ne LX Ly Hd Hr Hg Hp H.
  assert (Ny : y <> []) by (intros ->; destruct sd; [congruence|discriminate]).
  assert (HM : auto_mask (Some y) ps = Ok (Some (mask_targets (VNum (inject_Z (-1))) sd y))) by (apply (auto_mask_ok y ps sd DISCRETE); auto; now apply find_y_type_discrete).
  set (ym := mask_targets (VNum (inject_Z (-1))) sd y) in *.
  assert (Lm : length ym = length sd) by now apply mask_targets_length.
  assert (Q := C11_fit_drops_masked_discrete R route X ym ps rp). unfold shared_fit in H, Q. rewrite HM in H. cbn [bind] in H, Q.
  destruct (merge_out (from_array X) (Some ym) ps) as [[X2 y2] ps2]. destruct (route ps2) as [rp2|]; [|discriminate]. cbn [bind] in H, Q.
  destruct (sel_remove_masked false X2 y2 rp2) as [[[X3 y3] rp3]|]; [|discriminate]. cbn [bind] in H, Q. injection H as <- <-.
  assert (Q' := Q ltac:(intros E; rewrite E in Lm; destruct sd; [congruence|discriminate]) (mask_discrete sd y Hd) ltac:(congruence) Hr Hg ltac:(now rewrite Lm)).
  injection Q' as -> -> _. cbn [k_X k_y]. split; [now apply picked|]. f_equal. unfold ym. rewrite <- (picked sd y y) by auto.
  fold ym. clear - Ly Hd. unfold ym. clear ym. revert y Ly Hd. induction sd as [|d sd IH]; intros [|v y] Ly Hd; cbn in Ly; try lia; [reflexivity|]. inversion Hd as [|? ? Hv Hy]; subst.
  specialize (IH y ltac:(lia) Hy). unfold mask_targets, filter_by in *. cbn [combine map filter fst snd]. destruct (is_source d); cbn [fst].
  - destruct (keep_discrete v); cbn [map snd]; now rewrite IH.
  - exact IH.
Qed.
(** So a source sample of a class called -1 (as in the convention -1 / +1) is not trained on. *)
Lemma lost {A} sd : forall y (X : list A), length y = length sd -> length X = length sd -> Exists minus_one (rows_of is_source sd y) ->
  length (sources_not_minus_one sd y X) < length (rows_of is_source sd X).
Proof.
  assert (W : forall sd y (X : list A), length y = length sd -> length X = length sd -> length (sources_not_minus_one sd y X) <= length (rows_of is_source sd X)).
  { induction sd0 as [|d sd0 IH]; intros [|v y] [|x X] Ly LX; cbn in Ly, LX; try lia; [cbn; lia|]. specialize (IH y X ltac:(lia) ltac:(lia)).
    cbn [sources_not_minus_one]. unfold rows_of in *. cbn [combine filter fst]. destruct (is_source d); cbn [andb map length app]; [destruct (keep_discrete v); cbn [length app]; lia|exact IH]. }
  induction sd as [|d sd IH]; intros [|v y] [|x X] Ly LX E; cbn in Ly, LX; try lia; [inversion E|]. cbn [sources_not_minus_one]. unfold rows_of in *. cbn [combine filter fst] in *.
  destruct (is_source d); cbn [andb map snd length app] in *.
  - inversion E as [? ? (q & -> & Eq)|? ? E']; subst.
    + cbn [keep_discrete]. rewrite (proj2 (Qeq_bool_iff _ _) Eq). cbn [negb app length]. specialize (W sd y X ltac:(lia) ltac:(lia)). unfold rows_of in W. lia.
    + specialize (IH y X ltac:(lia) ltac:(lia) E'). destruct (keep_discrete v); cbn [length app]; lia.
  - apply IH; auto; lia.
Qed.
Theorem C215_class_minus_one_refuted : forall (R : Type) route (X : list R) y ps sd rp ya k, get_sd ps = Some sd -> sd <> [] -> length X = length sd -> length y = length sd -> discrete_labels y ->
  route ps = Ok rp -> ~ gets_domains rp -> no_pylist (length sd) rp -> shared_fit route false true (from_array X) (Some y) ps = Ok (ya, k) ->
  Exists minus_one (rows_of is_source sd y) -> length (k_X k) < length (rows_of is_source sd X).
Proof.
  intros R route X y ps sd rp ya k Hsd Ne LX Ly Hd Hr Hg Hp H E. destruct (C215_classes R route X y ps sd rp ya k Hsd Ne LX Ly Hd Hr Hg Hp H) as [-> _]. now apply lost.
Qed.
(** Without sample_domain such a sample is even taken for a target, and no complaint is made when classes -1 and +1 are all the labels there are. *)
Theorem C215_auto_domain_refuted : forall n y, length y = n -> Exists minus_one y -> Forall (fun v => minus_one v \/ v = VNum 1) y ->
  exists sd, check_X_y_domain n y SDNone true all_flags = Ok sd /\ forall i, i < n -> (minus_one (nth i y VNan) <-> is_target (nth i sd 0%Z) = true).
Proof.
  intros n y L E F. set (g := fun v => match v with VNum q => if Qeq_bool q (inject_Z (-1)) then (-2)%Z else 1%Z | _ => 1%Z end).
  assert (D : discrete_labels y). { eapply Forall_impl; [|exact F]. intros v [(q & -> & Eq)| ->]; [exists q, (-1)%Z; split; auto|exists 1%Q, 1%Z; split; reflexivity]. }
  exists (map g y). split.
  - apply (C06_auto_domain_discrete n y all_flags); auto.
    + destruct y; [inversion E|cbn in L; lia].
    + eapply Forall_impl; [|exact F]. intros v [(q & -> & Eq)| ->] q' [= <-]; [rewrite Eq; apply Qle_refl|discriminate].
    + split; [reflexivity|]. repeat split; intros; discriminate.
  - intros i Hi. subst n. rewrite (nth_indep _ 0%Z (g VNan)) by (rewrite map_length; exact Hi). rewrite map_nth. rewrite Forall_forall in F. specialize (F _ (nth_In y VNan Hi)).
    destruct F as [(q & -> & Eq)| ->].
    + cbn [g]. unfold g. rewrite (proj2 (Qeq_bool_iff _ _) Eq). split; [reflexivity|]. intros _. now exists q.
    + split; [intros (q & [= <-] & Eq); discriminate|discriminate].
Qed.
(** Numbers as labels: every source with a finite label is trained on, one with the label -1 too, as soon as one label is not a whole number or is hidden by NaN. *)
Theorem C215_numbers : forall (R : Type) route (X : list R) y ps sd rp ya k, get_sd ps = Some sd -> sd <> [] -> length X = length sd -> length y = length sd -> continuous_labels y ->
  Forall (fun v => exists q, v = VNum q) (rows_of is_source sd y) ->
  route ps = Ok rp -> ~ gets_domains rp -> no_pylist (length sd) rp -> shared_fit route false true (from_array X) (Some y) ps = Ok (ya, k) ->
  k_X k = rows_of is_source sd X /\ k_y k = Some (rows_of is_source sd y).
Proof.
  intros R route X y ps sd rp ya k Hsd Ne LX Ly Hd HF Hr Hg Hp H.
  assert (U : usable_labels sd y VNan). { right. split; [exact Hd|]. split; [reflexivity|]. eapply Forall_impl; [|exact HF]. intros v [q ->]. reflexivity. }
  destruct (usable_mask ps sd y VNan Hsd Ne Ly U) as [HM _].
  destruct (usable_kept sd y VNan Ne Ly U) as [[D _]|[C K]].
  { exfalso. destruct (usable_type sd y VNan Ne Ly U) as (ty & Em & E1 & E2). assert (ty = CONTINUOUS) by (destruct ty; [discriminate|reflexivity] || (destruct ty; [reflexivity|discriminate])). subst ty.
    unfold find_y_type1 in E2. rewrite find_y_type_discrete in E2; [discriminate| |exact D]. intros E. apply (f_equal (@length _)) in E. rewrite mask_targets_length in E by auto. destruct sd; [congruence|discriminate]. }
  set (ym := mask_targets VNan sd y) in *. assert (Lm : length ym = length sd) by now apply mask_targets_length.
  assert (Q := C11_fit_drops_masked_continuous R route X ym ps rp C ltac:(congruence) Hr Hg ltac:(now rewrite Lm)). unfold shared_fit in H, Q. rewrite HM in H. cbn [bind] in H, Q.
  destruct (merge_out (from_array X) (Some ym) ps) as [[X2 y2] ps2]. destruct (route ps2) as [rp2|]; [|discriminate]. cbn [bind] in H, Q.
  destruct (sel_remove_masked false X2 y2 rp2) as [[[X3 y3] rp3]|]; [|discriminate]. cbn [bind] in H, Q. injection H as <- <-. injection Q as -> -> _. cbn [k_X k_y].
  rewrite (filter_by_as _ _ _ _ _ K), (filter_rows _ _ _ _ K). split; [reflexivity|]. f_equal. unfold ym. clear. revert y. induction sd as [|d sd IH]; intros [|v y]; try reflexivity.
  unfold rows_of, mask_targets in *. cbn [combine map filter fst snd]. destruct (is_source d) eqn:E; cbn [map snd]; [|now rewrite IH]. f_equal. apply IH.
Qed.

(** ** CircularValidation *)
Lemma circular_unfold Row sign predict fitb scorer dt (X : list Row) y sd yb sdb yp ty g r :
  circular_backward Row predict dt X y (SDArr sd) = Ok (Some (X, yb, sdb)) -> predict (rows_of is_target sd X) (filter is_target sd) = Ok yp ->
  find_y_type1 (rows_of is_source sd y) = Ok ty -> fitb (X, yb, sdb) = Ok g -> g (rows_of is_source sd X) (rows_of is_source sd sdb) = Ok r ->
  circular_score Row sign predict fitb scorer dt X y (SDArr sd) =
  (r' <- match ty with DISCRETE => mapM (le_inverse yp) r | CONTINUOUS => Ok r end ;; s <- scorer (rows_of is_source sd y) r' ;; Ok (sign * s)%R).
Proof.
  intros B Hp Ty Hg Hr. pose proof B as B0. apply C49_roles_swapped in B0 as (_ & _ & _ & _ & _ & _ & _ & Es & _).
  unfold circular_score. rewrite B. unfold circular_backward in B. destruct (target_part Row X y (SDArr sd)) as [[[m Xt] sdt]|] eqn:Htp; [|discriminate]. clear B. cbn [bind].
  apply target_part_ok in Htp as (sd' & Hc & Ne & Ls & -> & -> & ->). apply check_xy_given in Hc as (-> & _ & Hn & Ly). rewrite rows_of_self.
  rewrite select_source by lia. cbn [bind]. rewrite Hp. cbn [bind]. rewrite Hg. cbn [bind]. rewrite select_source by lia. cbn [bind].
  rewrite select_source by (subst sdb; rewrite map_length; lia). cbn [bind]. rewrite Hr. cbn [bind]. rewrite Ty. reflexivity.
Qed.
(** Real-valued sources: the backward copy learns the predictions themselves, and what it predicts is scored as it is. *)
Theorem C215_circular_numbers : forall Row sign predict fit_backward scorer (X : list Row) y sd yb sdb g r s,
  circular_backward Row predict DFloat X y (SDArr sd) = Ok (Some (X, yb, sdb)) -> continuous_labels (rows_of is_source sd y) ->
  fit_backward (X, yb, sdb) = Ok g -> g (rows_of is_source sd X) (rows_of is_source sd sdb) = Ok r -> scorer (rows_of is_source sd y) r = Ok s ->
  predict (rows_of is_target sd X) (filter is_target sd) = Ok (rows_of is_target sd yb) /\
  circular_score Row sign predict fit_backward scorer DFloat X y (SDArr sd) = Ok (sign * s)%R.
Proof.
  intros Row sign predict fitb scorer X y sd yb sdb g r s B C Hg Hr Hs. pose proof B as B0. apply C49_roles_swapped in B0 as (ty & yp & Ty & Hp & _ & _ & _ & _ & _ & _ & Eq & _).
  pose proof Ty as Ty0. unfold find_y_type1 in Ty. rewrite find_y_type_continuous in Ty by exact C. injection Ty as <-. specialize (Eq eq_refl eq_refl). split; [now rewrite Eq|].
  rewrite (circular_unfold Row sign predict fitb scorer DFloat X y sd yb sdb yp CONTINUOUS g r) by auto. cbn [bind]. now rewrite Hs.
Qed.
(** When the labels of the sources happen to be whole numbers, the backward copy is trained on the ranks of the predictions, and any prediction of it that is
    not one of these ranks is an error: a regressor cannot be scored. *)
Theorem C215_circular_whole_numbers_refuted : forall Row sign predict fit_backward scorer dt (X : list Row) y sd yb sdb g r,
  circular_backward Row predict dt X y (SDArr sd) = Ok (Some (X, yb, sdb)) -> rows_of is_source sd y <> [] -> discrete_labels (rows_of is_source sd y) ->
  fit_backward (X, yb, sdb) = Ok g -> g (rows_of is_source sd X) (rows_of is_source sd sdb) = Ok r -> Exists (fun v => ~ int_label v) r ->
  (exists yp, predict (rows_of is_target sd X) (filter is_target sd) = Ok yp /\ codes yp (rows_of is_target sd yb)) /\
  circular_score Row sign predict fit_backward scorer dt X y (SDArr sd) = Err ValueError.
Proof.
  intros Row sign predict fitb scorer dt X y sd yb sdb g r B N D Hg Hr He. pose proof B as B0. apply C49_roles_swapped in B0 as (ty & yp & Ty & Hp & _ & _ & _ & _ & _ & Cd & _ & _).
  pose proof Ty as Ty0. unfold find_y_type1 in Ty. rewrite find_y_type_discrete in Ty by auto. injection Ty as <-. split; [exists yp; auto|].
  rewrite (circular_unfold Row sign predict fitb scorer dt X y sd yb sdb yp DISCRETE g r) by auto.
  assert (E : mapM (le_inverse yp) r = Err ValueError); [|now rewrite E].
  clear - He. induction r as [|a r IH]; [inversion He|]. cbn [mapM]. inversion He as [? ? Ha|? ? Hr]; subst.
  - unfold le_inverse at 1. destruct (find _ yp) as [u|] eqn:F; [|reflexivity]. exfalso. apply find_some in F as [_ F]. apply Ha. destruct a as [q| |b]; cbn in F; try discriminate.
    exists q, (le_rank yp u). split; [reflexivity|]. now apply Qeq_bool_iff.
  - unfold le_inverse at 1. destruct (find _ yp) as [u|]; [|reflexivity]. cbn [bind]. now rewrite (IH Hr).
Qed.

(** ** Concrete cases *)
(** Classes -1 and +1: of three sources only the one of class +1 is trained on. *)
Example C215_ex_classes :
  shared_fit (fun _ => Ok []) false true (from_array [10; 20; 30; 40]) (Some (map (fun z => VNum (inject_Z z)) [-1; 1; -1; 1]%Z)) (dom_params [1; 1; 1; -2]%Z) =
  Ok (Some (map (fun z => VNum (inject_Z z)) [-1; 1; -1; -1]%Z), mkCall [20] (Some [VNum (inject_Z 1)]) []) /\
  Exists minus_one (rows_of is_source [1; 1; 1; -2]%Z (map (fun z => VNum (inject_Z z)) [-1; 1; -1; 1]%Z)).
Proof. split; [reflexivity|]. left. exists (inject_Z (-1)). split; reflexivity. Qed.
(** Numbers: the source with the value -1 stays. *)
Example C215_ex_numbers :
  shared_fit (fun _ => Ok []) false true (from_array [10; 20; 30]) (Some [VNum (-1); VNum (1 # 2); VNum 7]) (dom_params [1; 1; -2]%Z) =
  Ok (Some [VNum (-1); VNum (1 # 2); VNan], mkCall [10; 20] (Some [VNum (-1); VNum (1 # 2)]) []).
Proof. reflexivity. Qed.
(** The same regression with labels 1, 3 and with labels 1, 7/2, hidden by NaN on the targets; the copy predicts 1/2. *)
Definition half_reg (_ : list Z * list val * list Z) : res (list Z -> list Z -> res (list val)) := Ok (fun _ _ => Ok [VNum (1 # 2); VNum (1 # 2)]).
Example C215_ex_circular :
  circular_backward Z (fun _ _ => Ok [VNum (3 # 2); VNum (5 # 2)]) DFloat [10; 20; 30; 40]%Z [VNum 1; VNum 3; VNan; VNan] (SDArr [1; 1; -2; -2]%Z) =
    Ok (Some ([10; 20; 30; 40]%Z, [mask_cls; mask_cls; VNum 0; VNum 1], [-1; -1; 2; 2]%Z)) /\
  circular_score Z 1 (fun _ _ => Ok [VNum (3 # 2); VNum (5 # 2)]) half_reg (fun _ _ => Ok 0%R) DFloat [10; 20; 30; 40]%Z [VNum 1; VNum 3; VNan; VNan] (SDArr [1; 1; -2; -2]%Z) = Err ValueError /\
  circular_score Z 1 (fun _ _ => Ok [VNum (3 # 2); VNum (5 # 2)]) half_reg (fun _ _ => Ok 0%R) DFloat [10; 20; 30; 40]%Z [VNum 1; VNum (7 # 2); VNan; VNan] (SDArr [1; 1; -2; -2]%Z) = Ok (1 * 0)%R.
Proof. split; [|split]; reflexivity. Qed.
Example C215_ex_auto_domain : check_X_y_domain 3 (map (fun z => VNum (inject_Z z)) [-1; 1; -1]%Z) SDNone true all_flags = Ok [-2; 1; -2]%Z.
Proof. reflexivity. Qed.
