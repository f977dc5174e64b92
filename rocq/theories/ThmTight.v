(** C109: the random multilinear map. C134: a default given explicitly. C158: what the dict view contains. *)
From Coq Require Import String List ZArith QArith Bool Arith Lia Reals Lra.
From Verif Require Import Np NpFacts Labels RVec RVecFacts LossModel CallModel CallProofs ThmCall CtorModel CtorSpec FactModel DeepModel DeepSpec DeepProofs ThmDeep ViewModel ViewSpec ThmView.
Import ListNotations.
Local Open Scope nat_scope.
Local Open Scope list_scope.

(** ** C109 *)

Lemma map2_nth_R (h : R -> R -> R) : forall u v k, k < length u -> length u = length v -> nth k (map2 h u v) 0%R = h (nth k u 0%R) (nth k v 0%R).
Proof.
  induction u as [|a u IH]; intros [|b v] k H L; cbn in *; try lia. destruct k; [reflexivity|]. apply IH; lia.
Qed.
Lemma nth_map_seq_R (f : nat -> R) m k : k < m -> nth k (map f (seq 0 m)) 0%R = f k.
Proof. intros H. rewrite (nth_indep _ 0%R (f 0)) by (now rewrite map_length, seq_length). rewrite map_nth, seq_nth by auto. reflexivity. Qed.

(** Above max_features combinations the domain classifier sees, for every sample of the batch and every output, the product of one
    random combination of the sample's features and one of its class predictions, over the square root of max_features: both
    matrices are the same for the whole batch. *)
Theorem C109_random_map : forall Gen seeded randn max_features seed os (g : Gen) nf nc batch,
  (forall g n m, length (fst (randn g n m)) = n) -> max_features < nf * nc ->
  (forall f y, In (f, y) batch -> length f = nf /\ length y = nc) ->
  exists R0 R1 : list (list R), length R0 = nf /\ length R1 = nc /\
    length (fst (cdan_forward Gen seeded randn max_features seed os g nf nc batch)) = length batch /\
    forall i f y k, nth_error batch i = Some (f, y) -> k < max_features ->
      nth k (nth i (fst (cdan_forward Gen seeded randn max_features seed os g nf nc batch)) []) 0%R =
      (vsum (map2 (fun a r => a * nth k r 0) f R0) * vsum (map2 (fun p r => p * nth k r 0) y R1) / sqrt (INR max_features))%R.
Proof.
  intros Gen seeded randn mf seed os g nf nc batch HR Q HB. unfold cdan_forward. rewrite (proj2 (Nat.ltb_lt _ _) Q).
  set (g0 := check_generator Gen seeded seed os). pose proof (HR g0 nf mf) as L0. destruct (randn g0 nf mf) as [R0 g1] eqn:E0.
  pose proof (HR g1 nc mf) as L1. destruct (randn g1 nc mf) as [R1 g2] eqn:E1. cbn [fst] in *.
  exists R0, R1. split; [auto|]. split; [auto|]. split; [apply map_length|]. intros i f y k E Hk.
  assert (Hi : i < length batch) by (apply nth_error_Some; congruence).
  rewrite (nth_indep _ [] ((fun p => random_map mf R0 R1 (fst p) (snd p)) ([], []))) by (now rewrite map_length).
  rewrite (map_nth (fun p => random_map mf R0 R1 (fst p) (snd p))). rewrite (nth_error_nth _ _ _ E). cbn [fst snd].
  unfold random_map. rewrite map2_nth_R by (rewrite ?map_length; unfold vecmat; rewrite ?map_length, ?seq_length; auto).
  assert (D : forall u M, dot u (column M k) = vsum (map2 (fun a r => a * nth k r 0)%R u M)).
  { intros u M. unfold dot, column. f_equal. revert M. induction u as [|a u IH]; intros [|r M]; cbn; auto. now rewrite IH. }
  rewrite (nth_indep _ 0%R ((fun a => a / sqrt (INR mf))%R 0%R)) by (rewrite map_length; unfold vecmat; now rewrite map_length, seq_length).
  rewrite (map_nth (fun a => a / sqrt (INR mf))%R). unfold vecmat. rewrite !nth_map_seq_R by exact Hk. rewrite !D. unfold Rdiv. ring.
Qed.
(** One feature, two classes, one output: 3 * (10 * 1 + 0 * 1) with matrices of ones. *)
Example C109_random_map_ex : fst (cdan_forward unit (fun _ => tt) (fun g n m => (repeat (repeat 1%R m) n, g)) 1 None 0 tt 1 2 [([3%R], [10%R; 0%R])]) = [[30%R]].
Proof.
  unfold cdan_forward. cbn. unfold random_map, vecmat, column, dot. cbn. rewrite sqrt_1. do 2 f_equal. lra.
Qed.

(** ** C134: giving the default estimator explicitly is the same as leaving it out. *)

Definition same_object (a b : obj) : Prop := (forall k, o_attr a k = o_attr b k) /\ o_kwargs a = o_kwargs b.
Theorem C134_explicit_default : forall C name d,
  In (C, name, d) [(dasvm_cls, "base_estimator"%string, svc); (jdot_reg_cls, "base_estimator"%string, linear_regression);
    (jdot_clf_cls, "base_estimator"%string, logistic); (density_cls, "weight_estimator"%string, kernel_density);
    (discriminator_cls, "domain_classifier"%string, logistic)] ->
  exists o o', construct C [] = Ok o /\ construct C [(name, PEst d)] = Ok o' /\ o_attr o name = Some (PEst d) /\ same_object o o'.
Proof.
  intros C name d H. repeat (destruct H as [H|H]; [injection H as <- <- <-; do 2 eexists; split; [reflexivity|]; split; [reflexivity|];
    split; [reflexivity|]; split; [|reflexivity]; intros k; cbn; unfold upd;
    repeat match goal with |- context [String.eqb ?a ?b] => destruct (String.eqb a b) eqn:?; try reflexivity end|]).
  destruct H.
Qed.
(** Every estimator the shorthands use by default can be fitted and used for predictions: JDOT accepts it. *)
Theorem C134_defaults_usable : forall e C, In e [svc; logistic; linear_regression; knn1] -> C = jdot_clf_cls \/ C = jdot_reg_cls ->
  exists o, construct C [("base_estimator"%string, PEst e)] = Ok o /\ o_attr o "base_estimator"%string = Some (PEst e).
Proof.
  intros e C H [-> | ->]; repeat (destruct H as [<-|H]; [eexists; split; reflexivity|]); destruct H.
Qed.
(** Kernel density estimators have no predict: JDOT refuses them. *)
Example C134_defaults_ex : construct jdot_clf_cls [("base_estimator"%string, PEst kernel_density)] = Err ValueError.
Proof. reflexivity. Qed.

(** ** C158: the dict view holds the features, labels and domains; the weights if there are some; the numbers of the samples, in
    order within the dataset, exactly if asked for. *)
Theorem C158_dict_keys : forall Row (d : ds Row) b,
  k_X (as_dict d b) = Some (t_X _ d) /\ k_y (as_dict d b) = Some (t_y _ d) /\ k_sd (as_dict d b) = Some (DomArr (t_sd _ d)) /\
  (k_idx (as_dict d b) <> None <-> b = true) /\ (b = true -> k_idx (as_dict d b) = Some (t_idx _ d)) /\
  (k_w (as_dict d b) <> None <-> t_w _ d <> []) /\ (t_w _ d <> [] -> k_w (as_dict d b) = Some (t_w _ d)).
Proof.
  intros Row d b. unfold as_dict, has_weights. cbn. repeat (split; [reflexivity|]).
  destruct b, (t_w Row d); cbn; repeat split; congruence.
Qed.
Example C158_dict_keys_ex : k_idx (as_dict (mkDs nat [7; 8] [VNum 1; VNum 2] [1; 1]%Z [] [true; true] [0; 1]) true) = Some [0; 1].
Proof. reflexivity. Qed.

(** ** C167: the labels the default criteria accept are the non-negative integers. *)
From Verif Require Import BuildModel.
Theorem C167_class_labels : forall v k, class_of v = Ok k <-> v = VNum (inject_Z (Z.of_nat k)).
Proof.
  intros v k. unfold class_of. split.
  - destruct v as [[n d]| |]; try (intros X; discriminate X). cbn [Qden Qnum]. destruct (Pos.eqb_spec d 1) as [->|]; [|intros X; discriminate X]. cbn [andb]. destruct (Z.leb_spec 0 n); [|intros X; discriminate X].
    intros E. injection E as <-. unfold inject_Z. now rewrite Z2Nat.id.
  - intros ->. cbn [inject_Z Qden Qnum Pos.eqb andb]. rewrite (proj2 (Z.leb_le 0 (Z.of_nat k))) by lia. now rewrite Nat2Z.id.
Qed.
Example C167_class_labels_ex : class_of (VNum (-1)) = Err RuntimeError /\ class_of (VNum (1 # 2)) = Err RuntimeError /\ class_of (VNum 3) = Ok 3.
Proof. repeat split. Qed.

(** ** C60: with the samples of one side missing the balanced epoch is refused, whichever side sets its length. *)
From Verif Require Import Spec SpecFacts DeepProofs2.
Theorem C60_one_side : forall Row (row_ok : Row -> bool) (d : ds Row) bs mode pp pn, DeepSpec.consistent row_ok d -> 0 < bs -> mode <> SOther ->
  how_many is_source (t_sd _ d) = 0 \/ how_many is_target (t_sd _ d) = 0 -> balanced_epoch Row d bs mode pp pn = Err ValueError.
Proof.
  intros Row row_ok d bs mode pp pn C Hb Hm H. unfold balanced_epoch.
  change (fun s => (0 <=? s)%Z) with is_source. change (fun s => (s <? 0)%Z) with is_target. rewrite !(side_positions row_ok) by auto. cbv zeta.
  rewrite !positions_length. unfold num_samples. destruct (Nat.eqb_spec bs 0); [lia|].
  assert (E : (how_many is_source (t_sd Row d) =? 0) || (how_many is_target (t_sd Row d) =? 0) = true).
  { destruct H as [-> | ->]; [reflexivity|]. now rewrite Nat.eqb_refl, Bool.orb_true_r. }
  destruct mode; cbn [bind]; try (now rewrite E). now elim Hm.
Qed.
(** Two sources and no target. *)
Example C60_one_side_ex : balanced_epoch nat (mkDs nat [7; 8] [VNum 1; VNum 2] [1; 1]%Z [] [true; true] [0; 1]) 1 SMin (fun _ => [0; 1]) (fun _ => []) = Err ValueError.
Proof. reflexivity. Qed.

(** ** C195: with labels that are numbers, the scales (and likewise the offsets) of the sources are a ridge smoothing, over the
    features of the sources, of what is optimised: the labels themselves do not enter. *)
From Verif Require Import MapModel RMat MmdlsModel ThmMmdls.
Theorem C195_numbers : forall inv gamma reg_k m d Xs G, let L := fun i j => exponential d gamma (Xs i) (Xs j) in
  let Lr := fun i j => (L i j + reg_k * (if i =? j then 1 else 0))%R in inverts m Lr (inv m Lr) ->
  exists A, (forall i l, i < m -> (msum m (fun j => L i j * A j l) + reg_k * A i l = G i l)%R) /\
    forall i l, ls_W m (ls_R_continuous inv gamma reg_k m d Xs) G i l = msum m (fun j => L i j * A j l)%R.
Proof.
  intros inv gamma reg_k m d Xs G L Lr HI. exists (mmul m (inv m Lr) G). split.
  - intros i l Hi. transitivity (mmul m (mmul m Lr (inv m Lr)) G i l).
    + rewrite mmul_assoc. set (B := mmul m (inv m Lr) G).
      transitivity (msum m (fun j => (L i j * B j l) + (reg_k * B j l) * (if j =? i then 1 else 0))%R).
      * rewrite msum_plus. now rewrite (msum_delta m (fun j => reg_k * B j l)%R i Hi).
      * unfold mmul. apply msum_ext. intros j Hj. unfold Lr. rewrite (Nat.eqb_sym j i). ring.
    + unfold mmul at 1. rewrite (msum_ext m _ (fun j => G j l * (if j =? i then 1 else 0))%R).
      * now rewrite (msum_delta m (fun j => G j l) i Hi).
      * intros j Hj. replace (mmul m Lr (inv m Lr) i j) with (if i =? j then 1 else 0)%R by (symmetry; apply HI; auto). rewrite (Nat.eqb_sym j i). ring.
  - intros i l. unfold ls_W, ls_R_continuous. rewrite mmul_assoc. reflexivity.
Qed.
(** One source: L is the number 1 and its inverse 1 / (1 + reg_k): the scale is shrunk towards zero by the smoothing. *)
Example C195_numbers_ex : inverts 1 (fun i j => (exponential 1 1 (fun _ => 5) (fun _ => 5) + 1 * (if i =? j then 1 else 0))%R) (fun _ _ => (1 / 2)%R).
Proof.
  intros i j Hi Hj. replace i with 0 by lia. replace j with 0 by lia. cbn [msum Nat.eqb]. replace (exponential 1 1 (fun _ => 5%R) (fun _ => 5%R)) with 1%R; [lra|].
  unfold exponential. rewrite <- exp_0 at 1. f_equal. cbn. replace ((0 + (5 - 5) * (5 - 5)))%R with 0%R by ring. rewrite ?sqrt_0. ring.
Qed.
