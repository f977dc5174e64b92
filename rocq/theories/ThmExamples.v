(** Further concrete cases of theorems stated elsewhere: each shows inputs that meet the hypotheses and what the functions give there. *)
From Coq Require Import String List ZArith QArith Bool Arith Lia Reals Lra Permutation.
From Verif Require Import Np NpFacts Labels RVec RVecFacts Spec SpecFacts UtilsModel UtilsSpec UtilsProofs.
From Verif Require DeepModel DeepSpec ThmDeep NetModel ThmNet MetricsModel MetricsProofs ThmMetrics ReweightModel ReweightSpec ThmReweight MapModel MapSpec SeedModel SplitModel SubModel SubSpec ThmSub CallModel LossModel LossSpec LossProofs ThmLoss ThmCall FloatModel ThmFloat.
From Flocq Require Core.
Import ListNotations.
Local Open Scope nat_scope.
Local Open Scope list_scope.

(** C07: the index table with the two roles apart. *)
Example C07_split_ex : extract_domains_indices_st [3; -2; 3; 1; -2]%Z = Ok ([(1%Z, [3]); (3%Z, [0; 2])], [((-2)%Z, [1; 4])]).
Proof. reflexivity. Qed.

(** C61 and C62 on the data set with two source domains and one target domain. *)
Section Sets.
  Import DeepModel ThmDeep.
  Example C61_epoch_ex : only_epoch nat ex_d 2 (Some true) [2; 0; 1] = Ok [3; 0] /\ only_epoch nat ex_d 2 None [2; 0; 1] = Err ValueError.
  Proof. split; reflexivity. Qed.
  Example C62_condition_ex : select_cond nat ex_ok ex_d (OnDomain _ (fun s => (s <? 2)%Z)) true =
      Ok (mkDs nat [10; 12; 13; 14] [VNum 0; VNum (-1 # 1); VNum 1; VNum (-1 # 1)] [1; -3; 1; -3]%Z [] [true; false; true; false] [0; 0; 1; 1]) /\
    select_cond nat ex_ok ex_d (OnX _ (fun x => 12 <=? x)) true = Ok (mkDs nat [12; 13; 14] [VNum (-1 # 1); VNum 1; VNum (-1 # 1)] [-3; 1; -3]%Z [] [false; true; false] [0; 0; 1]) /\
    select_cond nat ex_ok ex_d (OnOther _) true = Err ValueError.
  Proof. repeat split. Qed.
  Example C62_weights_ex : (exists r, add_weights nat ex_d [1; 2; 3; 4; 5]%R = Ok r /\ t_w _ r = [1; 2; 3; 4; 5]%R /\ remove_weights nat r = ex_d) /\
    add_weights nat ex_d [1; 2]%R = Err AssertionError.
  Proof. split; [|reflexivity]. eexists. repeat split. Qed.
  Example C62_copy_ex : copy nat ex_d = Ok ex_d.
  Proof. reflexivity. Qed.
  Example C62_dict_ex : dataset_dict nat ex_ok [4; 5] None (Some (DomArr [1; -2]%Z)) None (Some [VNum 7; VNum 8]) DomNone None =
    Ok (mkDs nat [4; 5] [VNum 7; VNum 8] [1; -2]%Z [] [true; true] [0; 0]).
  Proof. reflexivity. Qed.
  (** C143: the base loss counts what it is given; only the two target rows reach it. *)
  Example C143_target_ex : @NetModel.target_only_loss nat nat nat (fun p y => Ok (Scalar (INR (length p)))) [5; 6; 7] None None [1; -1; -1]%Z None [VNum 0; VNum 1; VNum 2] =
    Ok (Scalar (INR 2)).
  Proof. rewrite ThmNet.C143_target_only; (reflexivity || discriminate). Qed.
End Sets.

(** C34: what the discriminator is trained on, and what fit_transform returns. *)
Section Weights.
  Import ReweightModel.
  Example C34_labels_ex : disc_fit nat (fun X y => Ok (fun _ => Ok (map IZR y))) [10; 20; 30]%nat (SDArr [1; -2; 4]%Z) = Ok (fun _ => Ok (map IZR [0; 1; 0]%Z)).
  Proof. reflexivity. Qed.
  Example C34_output_ex : rw_fit_transform nat (fun X _ => Ok (length X)) (fun st X _ => Ok (map (fun x => INR (x * st)) X)) [1; 2] SDNone = Ok ([1; 2], [INR 2; INR 4]).
  Proof. reflexivity. Qed.
  (** C39: a negative eps is refused. *)
  Example C39_negative_ex : forall slsqp, kmm_fit R slsqp Rmult 1000 (Some (-1)%R) 1 "frank-wolfe" [1; 10]%R (SDArr [1; -2]%Z) = Err ValueError.
  Proof.
    intros s. destruct (ThmReweight.C39_negative_eps R s Rmult 1000 (-1) 1 [1; 10]%R (SDArr [1; -2]%Z)) as [H|[x H]]; [lra|cbn; lia|exact H|discriminate H].
  Qed.
End Weights.

(** C87: the optimiser gets both sides and the source labels; a class never seen has the zero coefficient. *)
Section Map.
  Import MapModel.
  Example C87_class_ex : class_coef nat 0 MetricsModel.val_eqb [VNum 3; VNum 5] [30; 50] (VNum 5) = 50 /\ class_coef nat 0 MetricsModel.val_eqb [VNum 3; VNum 5] [30; 50] (VNum 4) = 0.
  Proof. split; reflexivity. Qed.
End Map.

(** C48, C169: the draws, with a generator that counts and rotates by its state. *)
Section Draws.
  Import SeedModel.
  Definition rotate (n g : nat) : list nat * nat := (map (fun i => (i + g) mod n) (seq 0 n), S g).
  Definition w0 : world nat unit := mkWorld nat unit 1 (fun i => i) tt.
  Example C169_shuffle_ex : fst (shuffle_arrays nat unit Z.to_nat rotate [10; 20; 30] [1; 2; 3] RSNone w0) = Ok ([20; 30; 10], [2; 3; 1]) /\
    fst (shuffle_arrays nat unit Z.to_nat rotate [10; 20; 30] [1; 2; 3] (RSInt 2) w0) = Ok ([30; 10; 20], [3; 1; 2]).
  Proof. split; reflexivity. Qed.
  Example C169_pairs_ex : fst (mixval_pairs nat unit Z.to_nat rotate 3 (RSInstance 2) w0) = Ok [2; 0; 1] /\ fst (mixval_pairs nat unit Z.to_nat rotate 3 (RSInt (-1)) w0) = Err ValueError.
  Proof. split; reflexivity. Qed.
  Example C48_parts_ex : fst (dev_parts nat unit Z.to_nat rotate 6 (RSInt 1) w0) = Ok ([3; 4; 5; 0], [1; 2]).
  Proof. reflexivity. Qed.
  Example C169_rows_ex : fst (subsampler_rows nat unit Z.to_nat rotate 5 (SplitModel.SzInt 2) (RSInt 1) w0) = Ok [4; 0].
  Proof. reflexivity. Qed.
End Draws.

(** C51 and C82: logits that are all equal have entropy-like criterion ln 2, above the threshold 0, and the softmax is used. *)
Section Mano.
  Import MetricsModel.
  Lemma equal_softmax : fst (stable_softmax [[3; 3]; [0; 0]]%R) = [[1 / 2; 1 / 2]; [1 / 2; 1 / 2]]%R.
  Proof.
    destruct (ThmMetrics.C51_softmax [[3; 3]; [0; 0]]%R) as [E _]; [repeat constructor; discriminate|]. rewrite E. cbn [map vsum].
    assert (P : forall t, (exp t / (exp t + (exp t + 0)) = 1 / 2)%R) by (intros t; field; generalize (exp_pos t); lra). now rewrite !P.
  Qed.
  Example C82_ex : (0 < fst (mano_criterion [[3; 3]; [0; 0]]%R))%R /\ mano_proba 0 [[3; 3]; [0; 0]]%R = [[1 / 2; 1 / 2]; [1 / 2; 1 / 2]]%R.
  Proof.
    assert (H : (0 < fst (mano_criterion [[3; 3]; [0; 0]]%R))%R).
    { unfold mano_criterion. destruct (stable_softmax [[3; 3]; [0; 0]]%R) as [p l] eqn:E. cbn [fst]. generalize equal_softmax. rewrite E. cbn [fst]. intros ->.
      assert (L : (ln (1 / 2) < 0)%R) by (rewrite <- ln_1; apply ln_increasing; lra). unfold mean. cbn. lra. }
    split; [exact H|]. now rewrite (ThmMetrics.C82_softmax_unaffected_partial _ _ H), equal_softmax.
  Qed.
End Mano.

(** C127: two samples on the first axis. Projecting on this axis is better than projecting on the other one. *)
Section Sub.
  Import SubModel SubSpec.
  Definition two_points (i j : nat) : R := match j with 0 => (if i =? 0 then 1 else -1)%R | _ => 0%R end.
  Definition axis (a j c : nat) : R := if j =? a then 1%R else 0%R.
  Example C127_pca_ex : forall sc y, orthonormal_columns 2 1 (axis 0) /\ orthonormal_columns 2 1 (axis 1) /\
    (tsl_F 0 sc Pca 2 2 1 (axis 0) two_points y < tsl_F 0 sc Pca 2 2 1 (axis 1) two_points y)%R.
  Proof.
    intros sc y. assert (A : forall a, a < 2 -> orthonormal_columns 2 1 (axis a)).
    { intros a Ha i j Hi Hj. destruct i; [|lia]. destruct j; [|lia]. unfold axis, sigma. destruct a as [|[|a]]; [| |lia]; cbn; ring. }
    split; [apply A; lia|]. split; [apply A; lia|]. apply Rnot_le_lt. intros H.
    apply (proj1 (ThmSub.C127_pca 0 sc 2 2 1 two_points y (axis 1) (axis 0) ltac:(lra) (A 1 ltac:(lia)) (A 0 ltac:(lia)))) in H.
    revert H. unfold total_var, MapSpec.cov_of, MapSpec.mean_of, projected, axis, two_points, sigma. cbn. lra.
  Qed.
End Sub.

(** C71: one source and one target sample, two classes. *)
Example C71_loss_ex : exists l, LossModel.mdd_loss 4 (1 / 10) [[0; 1]]%R [[2; 0]]%R [[0; ln 3]]%R [[0; ln 3]]%R = Ok (Some l).
Proof.
  assert (Q : forall a b : R, LossSpec.rect 2 [[a; b]]) by (intros a b r [<-|[]]; reflexivity).
  destruct (ThmLoss.C71_mdd_loss 4 (1 / 10) 2 [[0; 1]]%R [[2; 0]]%R [[0; ln 3]]%R [[0; ln 3]]%R) as (ps & pt & _ & _ & E); auto; try lra.
  eexists. exact E.
Qed.

(** C66: the domain classifier with a single output cannot tell anything, whatever its weights. *)
Example C66_dann_ex : CallModel.dann_loss CallModel.bce_loss (concat (map (CallModel.domain_classifier (fun x => x) [[2; 1]]%R [3]%R) [[0; 1]; [5; 7]]%R))
    (concat (map (CallModel.domain_classifier (fun x => x) [[2; 1]]%R [3]%R) [[9; 9]]%R)) = Ok 100%R.
Proof. apply ThmCall.C66_dann_constant; discriminate || reflexivity. Qed.

(** C201: with alpha = 0 a single pair is kept. *)
Example C201_cut_off_ex : FloatModel.max_index 0 3 4 = 0%Z.
Proof.
  unfold FloatModel.max_index, FloatModel.f64. replace (0 * IZR (3 + 4))%R with 0%R by ring. rewrite Flocq.Core.Generic_fmt.round_0 by typeclasses eauto.
  rewrite Rmin_left by (cbn; lra). apply (Flocq.Core.Raux.Ztrunc_IZR 0).
Qed.
