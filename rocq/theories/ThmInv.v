(** * C161: adapters see the role of a domain, not its name *)
From Coq Require Import String List ZArith QArith Bool Arith Lia Reals Lra.
From Verif Require Import Np NpFacts Labels UtilsModel SelectModel RVec FWModel ReweightModel Rew2Model MapModel SplitModel MetricsModel OTModel SelfModel InvSpec.
Import ListNotations.
Local Open Scope nat_scope.
Local Open Scope list_scope.

Section Roles.
  Variable f : Z -> Z.
  Hypothesis Hf : keeps_roles f.

  Lemma mask_rename sd : source_mask (map f sd) = source_mask sd.
  Proof.
    unfold source_mask. rewrite map_map. apply map_ext. intros d. pose proof (Hf d).
    destruct (Z.leb_spec 0 (f d)), (Z.leb_spec 0 d); try reflexivity; exfalso; tauto || lia.
  Qed.
End Roles.

(** Two label arrays with the same roles. *)
Definition alike (a b : list Z) : Prop := source_mask a = source_mask b.
Lemma alike_length a b : alike a b -> length a = length b.
Proof. intros H. apply (f_equal (@length bool)) in H. unfold source_mask in H. now rewrite !map_length in H. Qed.
Lemma alike_extract a b : alike a b -> extract_source_indices a = extract_source_indices b.
Proof. intros H. unfold extract_source_indices. now rewrite (alike_length a b H), H. Qed.
Lemma alike_split {A} (arrays : list (option (list A))) a b : alike a b -> source_target_split arrays a = source_target_split arrays b.
Proof. intros H. unfold source_target_split, split_gen. now rewrite (alike_extract a b H). Qed.
Lemma alike_split_arr arrays a b : alike a b -> source_target_split_arr arrays a = source_target_split_arr arrays b.
Proof. intros H. unfold source_target_split_arr, split_gen. now rewrite (alike_extract a b H). Qed.
Lemma alike_positions a b : alike a b -> source_positions a = source_positions b.
Proof. intros H. unfold source_positions. now rewrite (alike_extract a b H). Qed.
Lemma neg_mask sd : map (fun d => (d <? 0)%Z) sd = map negb (source_mask sd).
Proof.
  unfold source_mask. rewrite map_map. apply map_ext. intros d.
  destruct (Z.ltb_spec d 0), (Z.leb_spec 0 d); try reflexivity; lia.
Qed.
Lemma alike_target a b : alike a b -> target_mask a = target_mask b.
Proof. intros H. unfold target_mask. now rewrite !neg_mask, H. Qed.
Lemma alike_merge_pair a b p : alike a b -> merge_pair a p = merge_pair b p.
Proof.
  intros H. destruct p as [s t]. unfold merge_pair, merge_arrays. rewrite !neg_mask. now rewrite (alike_length a b H), H.
Qed.
Lemma alike_merge arrays a b : alike a b -> res_map fst (source_target_merge arrays (Some a)) = res_map fst (source_target_merge arrays (Some b)).
Proof.
  intros H. unfold source_target_merge. destruct (length arrays <? 2); [reflexivity|]. destruct (negb _); [reflexivity|].
  destruct (mapM check_pair _) as [ps|]; [|reflexivity]. cbn [bind].
  assert (I : alike (infer_domain ps (Some a)) (infer_domain ps (Some b))).
  { unfold infer_domain. rewrite (alike_length a b H). destruct (length b =? 0); [reflexivity|exact H]. }
  rewrite (alike_extract _ _ I). destruct (extract_source_indices _); [|reflexivity]. cbn [bind].
  assert (E : mapM (merge_pair (infer_domain ps (Some a))) ps = mapM (merge_pair (infer_domain ps (Some b))) ps).
  { clear - I. generalize dependent (infer_domain ps (Some a)). generalize (infer_domain ps (Some b)). intros l2 l1 I.
    induction ps as [|p ps IH]; [reflexivity|]. cbn [mapM]. now rewrite (alike_merge_pair _ _ p I), IH. }
  rewrite E. clear E. destruct (mapM (merge_pair (infer_domain ps (Some b))) ps); reflexivity.
Qed.
Lemma merge_fst {B} arrays a b (k : list arr -> res B) : alike a b ->
  (r <- source_target_merge arrays (Some a) ;; k (fst r)) = (r <- source_target_merge arrays (Some b) ;; k (fst r)).
Proof.
  intros H. pose proof (alike_merge arrays a b H) as E. destruct (source_target_merge arrays (Some a)), (source_target_merge arrays (Some b)); cbn in *; congruence.
Qed.
Lemma alike_select_nil a b : alike a b -> forall g : bool -> bool,
  (0 <? n_unique_where (map g (source_mask a)) a) = (0 <? n_unique_where (map g (source_mask b)) b).
Proof.
  intros H g. rewrite H. pose proof (alike_length a b H) as L.
  assert (Lm : length (map g (source_mask b)) = length b) by (unfold source_mask; now rewrite !map_length).
  assert (K : forall m (l l' : list Z), length l = length l' -> (select m l = [] <-> select m l' = [])).
  { induction m as [|c m IH]; intros [|x l] [|x' l'] E; try discriminate E; try (split; reflexivity).
    cbn [select]. destruct c; [split; intros E2; discriminate E2|]. apply IH. now injection E. }
  unfold n_unique_where.
  assert (Z0 : forall l : list Z, (0 <? length (unique l)) = match l with [] => false | _ => true end).
  { intros [|x l]; [reflexivity|]. apply Nat.ltb_lt. destruct (unique (x :: l)) eqn:E; [|cbn; lia]. apply (proj1 (unique_nil _)) in E. discriminate E. }
  rewrite !Z0. specialize (K (map g (source_mask b)) a b L). destruct (select _ a), (select _ b); try reflexivity; exfalso; destruct K as [K1 K2].
  - now discriminate (K1 eq_refl).
  - now discriminate (K2 eq_refl).
Qed.

(** Flags that look at roles only. *)
Definition role_flags (fl : flags) : Prop := f_domains fl = None /\ f_multi_source fl = true /\ f_multi_target fl = true /\ f_common fl = true.
Lemma check_flags_alike fl a b : role_flags fl -> alike a b ->
  (check_flags fl a = Ok a /\ check_flags fl b = Ok b) \/ (check_flags fl a = Err ValueError /\ check_flags fl b = Err ValueError).
Proof.
  intros (_ & H1 & H2 & H3) H. unfold check_flags, raise_if. rewrite H1, H2, H3. cbn [negb andb].
  pose proof (alike_select_nil a b H (fun x => x)) as S. rewrite !map_id in S. rewrite S, (alike_select_nil a b H negb).
  destruct (_ && _); [now right|]. destruct (_ && _); [now right|now left].
Qed.

Section Names.
  Variable f : Z -> Z.
  Hypothesis Hf : keeps_roles f.

  Lemma alike_rename sd : alike (map f sd) sd.
  Proof. apply mask_rename, Hf. Qed.

  Lemma check_bind {B} n sda fl (k : list Z -> res B) : role_flags fl ->
    (forall a b, alike a b -> k a = k b) ->
    (sd <- check_X_domain n (rename f sda) fl ;; k sd) = (sd <- check_X_domain n sda fl ;; k sd).
  Proof.
    intros Hr Hk. destruct sda as [|z|l]; [reflexivity| |].
    - unfold check_X_domain, rename. destruct (n =? 0) eqn:N; [reflexivity|]. cbn [bind].
      assert (A : alike (repeat (f z) n) (repeat z n)) by (replace (repeat (f z) n) with (map f (repeat z n)) by (clear; induction n; cbn; congruence); apply alike_rename).
      rewrite (alike_extract _ _ A), (alike_length _ _ A). destruct (extract_source_indices _); [|reflexivity]. cbn [bind].
      destruct (negb (length _ =? n)); [reflexivity|]. unfold check_allow_domains. destruct Hr as (Hd & Hr). rewrite Hd. cbn [negb].
      destruct (check_flags_alike fl _ _ (conj Hd Hr) A) as [[-> ->]|[-> ->]]; [apply Hk, A|reflexivity].
    - unfold check_X_domain, rename. destruct (n =? 0) eqn:N; [reflexivity|]. cbn [bind].
      pose proof (alike_rename l) as A.
      rewrite (alike_extract _ _ A), (alike_length _ _ A). destruct (extract_source_indices _); [|reflexivity]. cbn [bind].
      destruct (negb (length _ =? n)); [reflexivity|]. unfold check_allow_domains. destruct Hr as (Hd & Hr). rewrite Hd. cbn [negb].
      destruct (check_flags_alike fl _ _ (conj Hd Hr) A) as [[-> ->]|[-> ->]]; [apply Hk, A|reflexivity].
  Qed.
  Lemma check_y_bind {B} n y sda b fl (k : list Z -> res B) : role_flags fl ->
    (forall a b, alike a b -> k a = k b) ->
    (sd <- check_X_y_domain n y (rename f sda) b fl ;; k sd) = (sd <- check_X_y_domain n y sda b fl ;; k sd).
  Proof.
    intros Hr Hk. destruct sda as [|z|l]; [reflexivity| |]; unfold check_X_y_domain, rename;
      destruct (n =? 0); try reflexivity; destruct (length y =? 0); try reflexivity; destruct (_ && _); try reflexivity;
      destruct (negb _); try reflexivity; cbn [bind].
    - assert (A : alike (repeat (f z) (length y)) (repeat z (length y))) by (replace (repeat (f z) (length y)) with (map f (repeat z (length y))) by (clear; induction (length y); cbn; congruence); apply alike_rename).
      rewrite (alike_extract _ _ A). destruct (extract_source_indices _); [|reflexivity]. cbn [bind].
      destruct (check_flags_alike fl _ _ Hr A) as [[-> ->]|[-> ->]]; [apply Hk, A|reflexivity].
    - pose proof (alike_rename l) as A.
      rewrite (alike_extract _ _ A). destruct (extract_source_indices _); [|reflexivity]. cbn [bind].
      destruct (check_flags_alike fl _ _ Hr A) as [[-> ->]|[-> ->]]; [apply Hk, A|reflexivity].
  Qed.
  Lemma check_y_bind2 {B} n y sda b fl (k : list Z -> res B) : role_flags fl ->
    (forall a, k (map f a) = k a) ->
    (sd <- check_X_y_domain n y (rename f sda) b fl ;; k sd) = (sd <- check_X_y_domain n y sda b fl ;; k sd).
  Proof.
    intros Hr Hk. destruct sda as [|z|l]; [reflexivity| |]; unfold check_X_y_domain, rename;
      destruct (n =? 0); try reflexivity; destruct (length y =? 0); try reflexivity; destruct (_ && _); try reflexivity;
      destruct (negb _); try reflexivity; cbn [bind].
    - replace (repeat (f z) (length y)) with (map f (repeat z (length y))) by (clear; induction (length y); cbn; congruence).
      set (l := repeat z (length y)). pose proof (alike_rename l) as A.
      rewrite (alike_extract _ _ A). destruct (extract_source_indices _); [|reflexivity]. cbn [bind].
      destruct (check_flags_alike fl _ _ Hr A) as [[-> ->]|[-> ->]]; [apply Hk|reflexivity].
    - pose proof (alike_rename l) as A.
      rewrite (alike_extract _ _ A). destruct (extract_source_indices _); [|reflexivity]. cbn [bind].
      destruct (check_flags_alike fl _ _ Hr A) as [[-> ->]|[-> ->]]; [apply Hk|reflexivity].
  Qed.
  Lemma roles_all : role_flags all_flags. Proof. repeat split. Qed.
  Lemma roles_transform b : role_flags (transform_flags b). Proof. repeat split. Qed.
End Names.

Ltac names := intros; unfold rw_split, rw_check in *;
  repeat first [ apply check_bind; [assumption|first [apply roles_all | apply roles_transform]|]
               | apply check_y_bind; [assumption|apply roles_all|] ]; intros;
  repeat match goal with H : alike ?a ?b |- _ =>
    first [ rewrite (alike_split _ a b H) | rewrite (alike_split_arr _ a b H) | rewrite (alike_positions a b H) | rewrite (alike_extract a b H) | rewrite (alike_target a b H) | rewrite (alike_length a b H) ] end; try reflexivity.

(** Splitting and merging. *)
Theorem C161_split : forall f, keeps_roles f -> forall A (arrays : list (option (list A))) sd,
  source_target_split arrays (map f sd) = source_target_split arrays sd.
Proof. intros f Hf A arrays sd. apply alike_split, alike_rename, Hf. Qed.
Theorem C161_merge : forall f, keeps_roles f -> forall arrays sd,
  res_map fst (source_target_merge arrays (Some (map f sd))) = res_map fst (source_target_merge arrays (Some sd)).
Proof. intros f Hf arrays sd. apply alike_merge, alike_rename, Hf. Qed.

(** Every reweighting adapter fits the same model ... *)
Theorem C161_weight_models : forall f, keeps_roles f -> forall Row (X : list Row) sda,
  (forall kde, density_fit Row kde X (rename f sda) = density_fit Row kde X sda) /\
  (forall clf, disc_fit Row clf X (rename f sda) = disc_fit Row clf X sda) /\
  (forall kern choice nc tol it, kliep_fit Row kern choice nc tol it X (rename f sda) = kliep_fit Row kern choice nc tol it X sda) /\
  (forall slsqp kern B eps it solver, kmm_fit Row slsqp kern B eps it solver X (rename f sda) = kmm_fit Row slsqp kern B eps it solver X sda) /\
  (forall solve y, tars_fit Row solve X y (rename f sda) = tars_fit Row solve X y sda) /\
  (forall lk ri solve y, tarsc_fit (Row := Row) lk ri solve X y (rename f sda) = tarsc_fit lk ri solve X y sda).
Proof.
  intros f Hf Row X sda.
  assert (S : rw_split Row X (rename f sda) = rw_split Row X sda) by (unfold rw_split, rw_check; apply check_bind; [exact Hf|apply roles_all|]; intros a b H; now rewrite (alike_split _ a b H)).
  repeat split; intros.
  - unfold density_fit. now rewrite S.
  - unfold disc_fit, rw_check. apply check_bind; [exact Hf|apply roles_all|]. intros a b H. unfold disc_labels. now rewrite (alike_positions a b H), (alike_length a b H).
  - unfold kliep_fit. now rewrite S.
  - unfold kmm_fit. now rewrite S.
  - unfold tars_fit, rw_check. apply check_bind; [exact Hf|apply roles_all|]. intros a b H. now rewrite !(alike_split _ a b H).
  - unfold tarsc_fit, rw_check. apply check_bind; [exact Hf|apply roles_all|]. intros a b H. now rewrite !(alike_split _ a b H).
Qed.
(** ... and gives the same weights. *)
Theorem C161_weights : forall f, keeps_roles f -> forall Row (X : list Row) sda,
  (forall fexp est, density_weights Row fexp est X (rename f sda) = density_weights Row fexp est X sda) /\
  (forall ps pt, gaussian_weights Row ps pt X (rename f sda) = gaussian_weights Row ps pt X sda) /\
  (forall p1, disc_weights Row p1 X (rename f sda) = disc_weights Row p1 X sda) /\
  (forall kern fitted, kliep_weights Row kern fitted X (rename f sda) = kliep_weights Row kern fitted X sda) /\
  (forall nn lap, nn_weights Row nn lap X (rename f sda) = nn_weights Row nn lap X sda) /\
  (forall req kern smooth fitted, kmm_weights Row req kern smooth fitted X (rename f sda) = kmm_weights Row req kern smooth fitted X sda) /\
  (forall req st y, tars_weights Row req st X y (rename f sda) = tars_weights Row req st X y sda).
Proof.
  intros f Hf Row X sda. repeat split; intros.
  - unfold density_weights; names.
  - unfold gaussian_weights; names.
  - unfold disc_weights; names.
  - unfold kliep_weights; names.
  - unfold nn_weights; names.
  - unfold kmm_weights; names.
  - unfold tars_weights; names.
Qed.

(** The feature maps: fitting and transforming. *)
Lemma smm_names f (Hf : keeps_roles f) allow fs ft X sda : split_map_merge allow fs ft X (rename f sda) = split_map_merge allow fs ft X sda.
Proof.
  unfold split_map_merge. apply check_bind; [exact Hf|apply roles_transform|]. intros a b H. rewrite (alike_split_arr _ a b H).
  destruct (source_target_split_arr [Some X] b) as [parts|]; [|reflexivity]. cbn [bind].
  destruct parts as [|[s|] [|[t|] [|]]]; try reflexivity.
  destruct (if 0 <? a_len s then fs s else Ok s) as [s'|]; [|reflexivity]. cbn [bind].
  destruct (if 0 <? a_len t then ft t else Ok t) as [t'|]; [|reflexivity]. cbn [bind].
  apply (merge_fst [Some s'; Some t'] a b (fun l => match l with [m] => Ok m | _ => Err ValueError end) H).
Qed.
Theorem C161_maps : forall f, keeps_roles f -> forall (X : arr) sda allow,
  (forall tfit y, ot_fit tfit X y (rename f sda) = ot_fit tfit X y sda) /\
  (forall tr, ot_transform allow tr X (rename f sda) = ot_transform allow tr X sda) /\
  (forall tfit y, ot_fit_transform tfit X y (rename f sda) = ot_fit_transform tfit X y sda) /\
  (forall cent cs ct w c, coral_transform allow cent cs ct w c X (rename f sda) = coral_transform allow cent cs ct w c X sda) /\
  (forall ps pt al, sa_transform allow ps pt al X (rename f sda) = sa_transform allow ps pt al X sda) /\
  (forall dotW, tsl_transform allow dotW X (rename f sda) = tsl_transform allow dotW X sda) /\
  (forall Coef opt y, ls_fit Coef opt X y (rename f sda) = ls_fit Coef opt X y sda) /\
  (forall Coef app z req near veqb st y, ls_transform Coef app z req near veqb allow st X y (rename f sda) = ls_transform Coef app z req near veqb allow st X y sda).
Proof.
  intros f Hf X sda allow.
  assert (O : forall tfit y, ot_fit tfit X y (rename f sda) = ot_fit tfit X y sda).
  { intros. unfold ot_fit. apply check_bind; [exact Hf|apply roles_transform|]. intros a b H. now rewrite (alike_split_arr _ a b H), (alike_split _ a b H). }
  split; [exact O|]. split; [intros; now apply smm_names|]. split.
  { intros. unfold ot_fit_transform. rewrite O. destruct (ot_fit tfit X y sda); [|reflexivity]. cbn [bind]. now apply smm_names. }
  split; [intros; now apply smm_names|]. split; [intros; now apply smm_names|]. split; [intros; now apply smm_names|]. split.
  - intros. unfold ls_fit. apply check_bind; [exact Hf|apply roles_transform|]. intros a b H. now rewrite !(alike_split _ a b H).
  - intros. unfold ls_transform. apply check_bind; [exact Hf|apply roles_transform|]. intros a b H. rewrite (alike_extract a b H).
    destruct (extract_source_indices b) as [m|]; [|reflexivity]. cbn [bind].
    destruct (np_select m (a_rows X)) as [Xs|]; [|reflexivity]. cbn [bind].
    destruct (np_select (map negb m) (a_rows X)) as [Xt|]; [|reflexivity]. cbn [bind].
    match goal with |- (s' <- ?e ;; _) = _ => destruct e as [s'|]; [|reflexivity] end. cbn [bind].
    apply (merge_fst [Some s'; Some (mkArr (a_dt X) (a_tail X) Xt)] a b (fun l => match l with [m] => Ok m | _ => Err ValueError end) H).
Qed.
Theorem C161_kernel_maps : forall f, keeps_roles f -> forall Row kern req (X : list Row) sda,
  (forall allow Xs Xt V, kernel_transform Row kern req allow Xs Xt V X (rename f sda) = kernel_transform Row kern req allow Xs Xt V X sda) /\
  (forall eig, kernel_fit_transform Row kern req eig X (rename f sda) = kernel_fit_transform Row kern req eig X sda).
Proof.
  intros f Hf Row kern req X sda.
  assert (T : forall allow Xs Xt V, kernel_transform Row kern req allow Xs Xt V X (rename f sda) = kernel_transform Row kern req allow Xs Xt V X sda).
  { intros. unfold kernel_transform. apply check_bind; [exact Hf|apply roles_transform|]. intros a b H. now rewrite (alike_split _ a b H). }
  split; [exact T|]. intros eig. unfold kernel_fit_transform. 
  transitivity (sd <- check_X_domain (length X) (rename f sda) (transform_flags true);; parts <- source_target_split [Some X] sd;;
    match parts with [Some s; Some t] => V <- eig (block_kernel Row kern s t);; kernel_transform Row kern req true s t V X sda | _ => Err ValueError end).
  - destruct (check_X_domain _ _ _); [|reflexivity]. cbn [bind]. destruct (source_target_split _ _) as [[|[s|] [|[t|] [|]]]|]; try reflexivity. cbn [bind].
    destruct (eig _); [|reflexivity]. cbn [bind]. apply T.
  - apply check_bind; [exact Hf|apply roles_transform|]. intros a b H. now rewrite (alike_split _ a b H).
Qed.

(** The estimators with a domain split of their own: JDOT, label propagation, DASVM. *)
Theorem C161_estimators : forall f, keeps_roles f ->
  (forall Xrow L Out solver (X : list Xrow) (y : list L) sw sd, jdot_fit (Out := Out) solver X y sw (map f sd) = jdot_fit solver X y sw sd) /\
  (forall Xrow plan (X : list Xrow) y sw sd, otlp_discrete plan X y sw (map f sd) = otlp_discrete plan X y sw sd) /\
  (forall Xrow plan (X : list Xrow) y sw sd, otlp_regression plan X y sw (map f sd) = otlp_regression plan X y sw sd) /\
  (forall Row Est fitE predE decE leqb k it X y sda, dasvm_fit Row Est fitE predE decE leqb k it X y (rename f sda) = dasvm_fit Row Est fitE predE decE leqb k it X y sda).
Proof.
  intros f Hf. pose proof (alike_rename f Hf) as A. repeat split; intros.
  - unfold jdot_fit. now rewrite !(alike_split _ _ _ (A sd)).
  - unfold otlp_discrete, otlp_parts. now rewrite !(alike_split _ _ _ (A sd)), (alike_target _ _ (A sd)).
  - unfold otlp_regression, otlp_parts. now rewrite !(alike_split _ _ _ (A sd)), (alike_target _ _ (A sd)).
  - unfold dasvm_fit. apply check_y_bind; [exact Hf|apply roles_all|]. intros a b H. now rewrite !(alike_split _ a b H).
Qed.

(** Cross-validation over sources and targets draws the same splits. *)
Theorem C161_shuffle_split : forall f, keeps_roles f -> forall n sda test train perms,
  source_target_shuffle_split n (rename f sda) test train perms = source_target_shuffle_split n sda test train perms.
Proof.
  intros f Hf n sda test train perms. unfold source_target_shuffle_split. apply check_bind; [exact Hf|apply roles_all|]. intros a b H.
  unfold check_X_domain. destruct (n =? 0); [reflexivity|]. cbn [bind]. rewrite (alike_extract a b H), (alike_length a b H).
  destruct (extract_source_indices b); [|reflexivity]. cbn [bind]. destruct (negb (length b =? n)); [reflexivity|].
  unfold check_allow_domains. cbn [f_domains all_flags negb].
  destruct (check_flags_alike all_flags a b roles_all H) as [[-> ->]|[-> ->]]; [|reflexivity]. cbn [bind].
  unfold iter_indices. now rewrite (alike_extract a b H).
Qed.

(** Scores of estimators whose predictions do not look at the names. *)
Lemma select_map {A B} (g : A -> B) : forall m l, np_select m (map g l) = res_map (map g) (np_select m l).
Proof.
  intros m l. unfold np_select. rewrite map_length. destruct (length m =? length l); [|reflexivity]. cbn [res_map]. f_equal.
  revert l. induction m as [|b m IH]; intros [|x l]; try reflexivity. cbn [map select]. destruct b; cbn [map]; now rewrite IH.
Qed.
Lemma take_map {A B} (g : A -> B) : forall idx l, np_take idx (map g l) = res_map (map g) (np_take idx l).
Proof.
  intros idx l. unfold np_take. induction idx as [|i idx IH]; [reflexivity|]. cbn [mapM]. rewrite nth_error_map.
  destruct (nth_error l i); [|reflexivity]. cbn [option_map bind]. rewrite IH. clear IH. destruct (mapM _ idx); reflexivity.
Qed.
Theorem C161_scores : forall f, keeps_roles f -> forall Row sign (X : list Row) y sda,
  (forall L (score : list Row -> list L -> list Z -> res R) tl, (forall Xt lt sd, score Xt lt (map f sd) = score Xt lt sd) ->
     supervised_score Row sign score X y (rename f sda) tl = supervised_score Row sign score X y sda tl) /\
  (forall kde fexp (scorer : list Row -> list val -> list Z -> list R -> res R), (forall Xs ys sd w, scorer Xs ys (map f sd) w = scorer Xs ys sd w) ->
     importance_score Row sign kde fexp scorer X y (rename f sda) = importance_score Row sign kde fexp scorer X y sda) /\
  (forall pp pl red, (forall Xt sd, pp Xt (map f sd) = pp Xt sd) -> (match pl with Some g => forall Xt sd, g Xt (map f sd) = g Xt sd | None => True end) ->
     entropy_score Row sign pp pl red X y (rename f sda) = entropy_score Row sign pp pl red X y sda) /\
  (forall pp T, (forall Xt sd, pp Xt (map f sd) = pp Xt sd) -> snd_score Row sign pp T X y (rename f sda) = snd_score Row sign pp T X y sda) /\
  (forall F L tr va tf clf pred (loss : L -> list R -> R) yl, (forall Xv sd, pred Xv (map f sd) = pred Xv sd) ->
     dev_score Row sign (F := F) tr va tf clf pred loss X y yl (rename f sda) = dev_score Row sign tr va tf clf pred loss X y yl sda).
Proof.
  intros f Hf Row sign X y sda.
  assert (T : forall B (k : list bool * list Row * list Z -> res B), (forall m Xt sd, k (m, Xt, map f sd) = k (m, Xt, sd)) ->
     (tp <- target_part Row X y (rename f sda) ;; k tp) = (tp <- target_part Row X y sda ;; k tp)).
  { intros B k Hk. unfold target_part.
    assert (A : forall (r : res (list Z)) (g : list Z -> res (list bool * list Row * list Z)), (tp <- (sd <- r ;; g sd) ;; k tp) = (sd <- r ;; (tp <- g sd ;; k tp))) by (intros [r|] g; reflexivity).
    rewrite !A. apply check_y_bind2; [exact Hf|apply roles_all|]. intros a. rewrite (alike_extract _ _ (alike_rename f Hf a)).
    destruct (extract_source_indices a) as [m|]; [|reflexivity]. cbn [bind]. destruct (np_select (map negb m) X) as [Xt|]; [|reflexivity]. cbn [bind].
    rewrite select_map. destruct (np_select (map negb m) a); [|reflexivity]. cbn [res_map bind]. apply Hk. }
  split; [|split; [|split; [|split]]].
  - intros L score tl Hs. unfold supervised_score. apply T. intros m Xt sd. destruct (np_select (map negb m) tl); [|reflexivity]. cbn [bind]. now rewrite Hs.
  - intros kde fexp scorer Hs. unfold importance_score. apply check_y_bind2; [exact Hf|apply roles_all|]. intros a. rewrite (alike_extract _ _ (alike_rename f Hf a)).
    destruct (extract_source_indices a) as [m|]; [|reflexivity]. cbn [bind].
    repeat match goal with |- bind ?e _ = bind ?e _ => destruct e; [cbn [bind]|reflexivity] end.
    rewrite select_map. destruct (np_select m a); [|reflexivity]. cbn [res_map bind]. now rewrite Hs.
  - intros pp pl red Hp Hl. unfold entropy_score. apply T. intros m Xt sd. rewrite Hp. destruct (pp Xt sd); [|reflexivity]. cbn [bind].
    destruct pl as [g|]; [rewrite Hl|]; reflexivity.
  - intros pp T0 Hp. unfold snd_score. apply T. intros m Xt sd. now rewrite Hp.
  - intros F L tr va tf clf pred loss yl Hp. unfold dev_score. apply check_y_bind2; [exact Hf|apply roles_all|]. intros a. rewrite (alike_extract _ _ (alike_rename f Hf a)).
    destruct (extract_source_indices a) as [m|]; [|reflexivity]. cbn [bind].
    destruct (np_select m X) as [Xs|]; [|reflexivity]. cbn [bind]. destruct (np_select m yl) as [ys|]; [|reflexivity]. cbn [bind].
    rewrite select_map. destruct (np_select m a) as [sds|]; [|reflexivity]. cbn [res_map bind].
    destruct (np_take tr Xs); [|reflexivity]. cbn [bind]. destruct (np_take va Xs); [|reflexivity]. cbn [bind]. destruct (np_take va ys); [|reflexivity]. cbn [bind].
    rewrite take_map. destruct (np_take va sds); [|reflexivity]. cbn [res_map bind].
    repeat match goal with |- bind ?e _ = bind ?e _ => destruct e; [cbn [bind]|reflexivity] end. now rewrite Hp.
Qed.

(** Selectors: the wrapped estimator is called on the same samples with the same labels, and with the renamed parameters. *)
Lemma get_rename f k ps : p_get k (rename_params f ps) = option_map (rename_value f) (p_get k ps).
Proof.
  unfold p_get, rename_params. induction ps as [|[k' v] ps IH]; [reflexivity|]. cbn [map dict_get fst snd]. destruct (k =? k')%string; [reflexivity|exact IH].
Qed.
Lemma set_rename f k v ps : rename_params f (dict_set String.eqb k v ps) = dict_set String.eqb k (rename_value f v) (rename_params f ps).
Proof.
  unfold rename_params. induction ps as [|[k' v'] ps IH]; [reflexivity|]. cbn [map dict_set fst snd]. destruct (k =? k')%string; [reflexivity|].
  cbn [map fst snd]. now rewrite IH.
Qed.
Lemma update_rename f : forall q ps, rename_params f (dict_update String.eqb ps q) = dict_update String.eqb (rename_params f ps) (rename_params f q).
Proof.
  unfold dict_update. induction q as [|[k v] q IH]; intros ps; [reflexivity|]. cbn [fold_left fst snd].
  rewrite IH, set_rename. reflexivity.
Qed.
Lemma get_sd_rename f ps : get_sd (rename_params f ps) = option_map (map f) (get_sd ps).
Proof. unfold get_sd. rewrite get_rename. destruct (p_get _ ps) as [[]|]; reflexivity. Qed.
Lemma has_key_rename f k ps : has_key k (rename_params f ps) = has_key k ps.
Proof. unfold has_key. rewrite get_rename. destruct (p_get k ps); reflexivity. Qed.
Lemma map_params_rename f g g' : (forall v, g' (rename_value f v) = res_map (rename_value f) (g v)) ->
  forall ps, map_params g' (rename_params f ps) = res_map (rename_params f) (map_params g ps).
Proof.
  intros H ps. unfold map_params. induction ps as [|[k v] ps IH]; [reflexivity|]. cbn [rename_params map mapM fst snd]. fold (rename_params f ps).
  rewrite H. destruct (g v); [|reflexivity]. cbn [res_map bind]. rewrite IH. clear IH.
  destruct (mapM (fun kv => _) ps); reflexivity.
Qed.
Lemma masks_rename f {R} (X : list R) y ps m : apply_domain_masks X y (rename_params f ps) m =
  res_map (fun r : list R * option (list val) * params => (fst r, rename_params f (snd r))) (apply_domain_masks X y ps m).
Proof.
  unfold apply_domain_masks. destruct (np_select m X); [|reflexivity]. cbn [bind]. destruct (opt_map _ y); [|reflexivity]. cbn [bind].
  match goal with |- (ps' <- map_params ?g _ ;; _) = _ => rewrite (map_params_rename f g g) end;
    [match goal with |- bind (res_map _ ?e) _ = _ => destruct e; reflexivity end|].
  intros [v|v|v|z]; cbn [rename_value pv_len res_map]; try (rewrite ?map_length; destruct (_ =? _); [|reflexivity]); try reflexivity.
  - cbn [pv_select]. destruct (np_select m v); reflexivity.
  - cbn [pv_select]. rewrite select_map. destruct (np_select m v); reflexivity.
Qed.
Lemma removed_rename f {R} tr (X : list R) y rp : sel_remove_masked tr X y (rename_params f rp) =
  res_map (fun r : list R * option (list val) * params => (fst r, rename_params f (snd r))) (sel_remove_masked tr X y rp).
Proof.
  unfold sel_remove_masked. destruct y as [l|]; [|reflexivity]. rewrite has_key_rename. destruct (_ && _); [|reflexivity].
  unfold remove_masked. destruct (find_y_type1 l) as [ty|]; [|reflexivity]. cbn [bind]. destruct ty; apply masks_rename.
Qed.
Lemma auto_mask_rename f (Hf : keeps_roles f) y ps : auto_mask y (rename_params f ps) = auto_mask y ps.
Proof.
  unfold auto_mask. rewrite get_sd_rename. destruct y as [l|]; [|reflexivity]. destruct (get_sd ps) as [sd|]; [|reflexivity]. cbn [option_map].
  now rewrite (alike_extract _ _ (alike_rename f Hf sd)).
Qed.
Lemma merge_out_rename f {R} (c : @container R) y ps : merge_out (rename_container f c) y (rename_params f ps) =
  (fst (merge_out c y ps), rename_params f (snd (merge_out c y ps))).
Proof. unfold merge_out, rename_container. cbn [c_X c_labels c_meta fst snd]. now rewrite update_rename. Qed.
Lemma shared_rename f (Hf : keeps_roles f) {R} route (Hr : name_blind f route) tr mask (c : @container R) y ps :
  shared_fit route tr mask (rename_container f c) y (rename_params f ps) =
  res_map (fun yk : option (list val) * call => (fst yk, rename_call f (snd yk))) (shared_fit route tr mask c y ps).
Proof.
  unfold shared_fit. rewrite (auto_mask_rename f Hf). destruct (if mask then auto_mask y ps else Ok y) as [y1|]; [|reflexivity]. cbn [bind].
  rewrite merge_out_rename. destruct (merge_out c y1 ps) as [[X y2] ps2]. cbn [fst snd]. rewrite Hr. destruct (route ps2) as [rp|]; [|reflexivity]. cbn [res_map bind].
  rewrite removed_rename. destruct (sel_remove_masked tr X y2 rp) as [[[X3 y3] rp3]|]; reflexivity.
Qed.
Theorem C161_selectors : forall f, keeps_roles f -> forall R route route_t tr (c : @container R) y ps,
  name_blind f route -> name_blind f route_t ->
  (forall mask, shared_fit route tr mask (rename_container f c) y (rename_params f ps) =
     res_map (fun yk : option (list val) * call => (fst yk, rename_call f (snd yk))) (shared_fit route tr mask c y ps)) /\
  (forall side mask, select_domain_fit route tr side mask (rename_container f c) y (rename_params f ps) =
     res_map (fun ck : container * call => (rename_container f (fst ck), rename_call f (snd ck))) (select_domain_fit route tr side mask c y ps)) /\
  (get_sd (snd (merge_out c y ps)) <> None -> sst_fit route route_t tr (rename_container f c) y (rename_params f ps) =
     res_map (fun ab : call * call => (rename_call f (fst ab), rename_call f (snd ab))) (sst_fit route route_t tr c y ps)).
Proof.
  intros f Hf R route route_t tr c y ps Hr Ht. split; [|split].
  - intros mask. now apply shared_rename.
  - intros side mask. unfold select_domain_fit. rewrite merge_out_rename. destruct (merge_out c y ps) as [[X y1] ps1]. cbn [fst snd].
    rewrite get_sd_rename. destruct (get_sd ps1) as [sd|]; [|reflexivity]. cbn [option_map]. rewrite (alike_extract _ _ (alike_rename f Hf sd)).
    destruct (extract_source_indices sd) as [m|]; [|reflexivity]. cbn [bind].
    rewrite masks_rename. destruct (apply_domain_masks X y1 ps1 _) as [[[X2 y2] ps2]|]; [|reflexivity]. cbn [res_map bind fst snd].
    replace (merge_in (rename_container f c) (OTriple X2 y2 (rename_params f ps2))) with (rename_container f (merge_in c (OTriple X2 y2 ps2)))
      by (unfold merge_in, rename_container; cbn [c_X c_labels c_meta]; now rewrite update_rename).
    rewrite shared_rename by assumption. destruct (shared_fit _ _ _ _ _ _) as [[y3 k]|]; reflexivity.
  - unfold sst_fit. rewrite merge_out_rename. destruct (merge_out c y ps) as [[X y1] ps1]. cbn [fst snd]. intros Hsd.
    unfold sst_domains. rewrite get_sd_rename. destruct (get_sd ps1) as [sd0|]; [|congruence]. cbn [option_map].
    set (k := fun sd => m <- extract_source_indices sd;; a <- sst_side tr route X y1 (dict_set String.eqb "sample_domain"%string (PDom sd) ps1) m;;
                        b <- sst_side tr route_t X y1 (dict_set String.eqb "sample_domain"%string (PDom sd) ps1) (map negb m);; Ok (a, b)).
    assert (K : forall sd, (m <- extract_source_indices (map f sd);; a <- sst_side tr route X y1 (dict_set String.eqb "sample_domain"%string (PDom (map f sd)) (rename_params f ps1)) m;;
                        b <- sst_side tr route_t X y1 (dict_set String.eqb "sample_domain"%string (PDom (map f sd)) (rename_params f ps1)) (map negb m);; Ok (a, b)) =
                     res_map (fun ab : call * call => (rename_call f (fst ab), rename_call f (snd ab))) (k sd)).
    { intros sd. unfold k. rewrite (alike_extract _ _ (alike_rename f Hf sd)). destruct (extract_source_indices sd) as [m|]; [|reflexivity]. cbn [bind].
      change (PDom (map f sd)) with (rename_value f (PDom sd)). rewrite <- set_rename. set (ps2 := dict_set _ _ _ _).
      assert (S : forall route m', name_blind f route -> sst_side tr route X y1 (rename_params f ps2) m' = res_map (rename_call f) (sst_side tr route X y1 ps2 m')).
      { intros rt m' Hb. unfold sst_side. destruct (count m' =? 0); [reflexivity|]. rewrite masks_rename.
        destruct (apply_domain_masks X y1 ps2 m') as [[[X1 y2] ps3]|]; [|reflexivity]. cbn [res_map bind fst snd]. rewrite Hb.
        destruct (rt ps3) as [rp|]; [|reflexivity]. cbn [res_map bind]. rewrite removed_rename.
        destruct (sel_remove_masked tr X1 y2 rp) as [[[X3 y3] rp3]|]; reflexivity. }
      rewrite (S route m Hr), (S route_t _ Ht). destruct (sst_side tr route X y1 ps2 m); [|reflexivity]. cbn [res_map bind].
      destruct (sst_side tr route_t X y1 ps2 _); reflexivity. }
    change (SDArr (map f sd0)) with (rename f (SDArr sd0)).
    destruct y1 as [l|].
    + unfold check_X_y_domain, rename. destruct (length X =? 0); [reflexivity|]. destruct (length l =? 0); [reflexivity|]. destruct (_ && _); [reflexivity|].
      destruct (negb _); [reflexivity|]. cbn [bind]. pose proof (alike_rename f Hf sd0) as A. rewrite (alike_extract _ _ A).
      destruct (extract_source_indices sd0) eqn:Es; [|reflexivity]. cbn [bind].
      destruct (check_flags_alike all_flags _ _ roles_all A) as [[-> ->]|[-> ->]]; [|reflexivity]. cbn [bind]. exact (K sd0).
    + unfold check_X_domain, rename. destruct (length X =? 0); [reflexivity|]. cbn [bind]. pose proof (alike_rename f Hf sd0) as A. rewrite (alike_extract _ _ A).
      destruct (extract_source_indices sd0) eqn:Es; [|reflexivity]. cbn [bind]. rewrite map_length. destruct (negb (length sd0 =? length X)); [reflexivity|].
      unfold check_allow_domains. cbn [f_domains all_flags negb].
      destruct (check_flags_alike all_flags _ _ roles_all A) as [[-> ->]|[-> ->]]; [|reflexivity]. cbn [bind]. exact (K sd0).
Qed.

(** A renaming that merges two sources: domains 1 and 2 become 5, domain -3 becomes -8. *)
Definition merge_names (d : Z) : Z := if (0 <=? d)%Z then 5%Z else (d - 5)%Z.
Example C161_ex : keeps_roles merge_names /\
  source_target_split [Some [10; 20; 30; 40]] [1%Z; (-3)%Z; 2%Z; (-3)%Z] = Ok [Some [10; 30]; Some [20; 40]] /\
  source_target_split [Some [10; 20; 30; 40]] (map merge_names [1%Z; (-3)%Z; 2%Z; (-3)%Z]) = Ok [Some [10; 30]; Some [20; 40]] /\
  name_blind merge_names (fun ps => Ok (filter (fun kv => String.eqb (fst kv) "sample_domain") ps)).
Proof.
  repeat split; try reflexivity.
  - unfold merge_names. destruct (Z.leb_spec 0 d); lia.
  - unfold merge_names. destruct (Z.leb_spec 0 d); lia.
  - intros ps. cbn [res_map]. apply (f_equal (@Ok params)). unfold rename_params. induction ps as [|[k v] ps IH]; [reflexivity|]. cbn [map filter fst snd].
    destruct (String.eqb k "sample_domain"); cbn [map fst snd]; now rewrite IH.
Qed.
