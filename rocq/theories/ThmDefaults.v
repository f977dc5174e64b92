(** C191: leaving an argument of a constructor out means giving the default its documentation names. *)
From Coq Require Import String List ZArith QArith Bool Arith Lia FunctionalExtensionality.
From Verif Require Import Np NpFacts CtorModel.
Import ListNotations.
Local Open Scope nat_scope.
Local Open Scope string_scope.
Local Open Scope list_scope.

(** ** Specification: the defaults named in the docstrings (the sections "Parameters") of the estimators, by class *)
Definition num (q : Q) := PNum q.
Definition off := PBool false.
Definition on := PBool true.
Definition sqe := ("metric", PText "sqeuclidean").
Definition documented : list (string * cls * list (string * pv)) :=
  [ (* _mapping.py lines 116-128, 203-219, 313-333, 447-455, 565-577, 800-815, 984-1003 *)
    ("OTMappingAdapter", plain ot_params, [sqe; ("norm", PNone); ("max_iter", num 100000)]);
    ("EntropicOTMappingAdapter", plain entropic_params, [("reg_e", num 1); sqe; ("norm", PNone); ("max_iter", num 1000); ("tol", num (1 # 100000000))]);
    ("ClassRegularizerOTMappingAdapter", plain class_reg_params,
       [("reg_e", num 1); ("reg_cl", num (1 # 10)); ("norm", PText "lpl1"); sqe; ("max_iter", num 10); ("max_inner_iter", num 200); ("tol", num (1 # 100000000))]);
    ("LinearOTMappingAdapter", plain linear_ot_params, [("reg", num (1 # 100000000)); ("bias", on)]);
    ("MultiLinearMongeAlignmentAdapter", plain mlm_params, [("reg", num (1 # 100000000)); ("bias", on); ("test_time", off)]);
    ("CORALAdapter", plain coral_params, [("reg", PText "auto"); ("assume_centered", off)]);
    ("MMDLSConSMappingAdapter", plain mmdls_params, [("reg_k", num (1 # 10000000000)); ("reg_m", num (1 # 10000000000)); ("tol", num (1 # 100000)); ("max_iter", num 100)]);
    (* _ot.py *)
    ("JDOTRegressor", jdot_reg_cls, [("alpha", num (1 # 2))]);
    ("JDOTClassifier", jdot_clf_cls, [("alpha", num (1 # 2)); ("metric", PText "multinomial"); ("thr_weights", num (1 # 1000000))]);
    ("OTLabelPropAdapter", plain otlabelprop_params, [sqe; ("reg", PNone)]);
    ("JCPOTLabelPropAdapter", plain jcpot_params, [sqe; ("reg", num 1); ("max_iter", num 10); ("tol", num (1 # 1000000000)); ("verbose", off)]);
    (* _reweight.py *)
    ("GaussianReweightAdapter", plain gaussian_params, [("reg", PText "auto")]);
    ("KLIEPReweightAdapter", plain kliep_params, [("cv", num 5); ("n_centers", num 100); ("tol", num (1 # 1000000)); ("max_iter", num 1000); ("random_state", PNone)]);
    ("NearestNeighborReweightAdapter", nn_cls,
       [("n_neighbors", num 1); ("weights", PText "uniform"); ("algorithm", PText "auto"); ("leaf_size", num 30); ("p", num 2); ("metric", PText "minkowski");
        ("metric_params", PNone); ("n_jobs", PNone); ("laplace_smoothing", off)]);
    ("KMMReweightAdapter", kmm_cls,
       [("kernel", PText "rbf"); ("gamma", PNone); ("degree", num 3); ("B", num 1000); ("eps", PNone); ("tol", num (1 # 1000000)); ("max_iter", num 100);
        ("smooth_weights", off); ("solver", PText "frank-wolfe")]);
    ("MMDTarSReweightAdapter", plain mmdtars_params, [("reg", num (1 # 10000000000)); ("tol", num (1 # 1000000)); ("max_iter", num 1000)]);
    (* _subspace.py *)
    ("SubspaceAlignmentAdapter", plain sa_params, [("n_components", PNone); ("random_state", PNone)]);
    ("TransferComponentAnalysisAdapter", plain tca_params, [("kernel", PText "rbf"); ("n_components", PNone); ("mu", num (1 # 10))]);
    ("TransferJointMatchingAdapter", plain tjm_params,
       [("n_components", PNone); ("tradeoff", num (1 # 100)); ("max_iter", num 100); ("kernel", PText "rbf"); ("tol", num (1 # 100)); ("verbose", off)]);
    ("TransferSubspaceLearningAdapter", tsl_cls,
       [("n_components", PNone); ("base_method", PText "flda"); ("length_scale", num 2); ("mu", num (1 # 10)); ("reg", num (1 # 100)); ("max_iter", num 100);
        ("tol", num (1 # 100)); ("verbose", off)]) ].
(** The estimators used when none is given (_reweight.py lines 84-86, 304-306; _ot.py lines 514-519, 632-637; _self_labeling.py lines 34-37). *)
Definition documented_estimator : list (string * cls * string * est) :=
  [ ("DensityReweightAdapter", density_cls, "weight_estimator", kernel_density);
    ("DiscriminatorReweightAdapter", discriminator_cls, "domain_classifier", logistic);
    ("JDOTRegressor", jdot_reg_cls, "base_estimator", linear_regression);
    ("JDOTClassifier", jdot_clf_cls, "base_estimator", logistic);
    ("DASVMClassifier", dasvm_cls, "base_estimator", svc) ].
(** [args]: keyword arguments of a call. *)
Definition left_out (k : string) (args : dict string pv) : Prop := ~ In k (map fst args).

(** ** Proofs *)
Definition default_is (C : cls) (k : string) (d : option pv) : Prop :=
  dict_get String.eqb k (c_params C) = Some d /\ forall p, In p (c_params C) -> fst p = k -> snd p = d.
Lemma default_has C k d : default_is C k d -> has_name C k = true.
Proof.
  intros [H _]. unfold has_name, names. apply existsb_exists. exists k. split; [|apply String.eqb_refl].
  apply (dict_get_In String.eqb String.eqb_eq) in H. now apply (in_map fst) in H.
Qed.
Lemma left_out_get k args : left_out k args -> dict_get String.eqb k args = None.
Proof. intros H. apply (dict_get_None String.eqb String.eqb_eq). exact H. Qed.
Lemma extra_same C k d v (args : dict string pv) : default_is C k d -> filter (fun kv => negb (has_name C (fst kv))) ((k, v) :: args) = filter (fun kv => negb (has_name C (fst kv))) args.
Proof. intros H. cbn [filter fst]. now rewrite (default_has _ _ _ H). Qed.
(** Giving an argument with a default binds it and nothing else. *)
Lemma bind_given C k d v (args : dict string pv) : default_is C k (Some d) -> left_out k args ->
  bind_args C ((k, v) :: args) = match bind_args C args with Ok a => Ok (upd a k v) | Err e => Err e end.
Proof.
  intros H L. pose proof (default_has _ _ _ H) as Hn. destruct H as [H1 H2]. unfold bind_args.
  assert (E : forallb (fun p => match snd p, dict_get String.eqb (fst p) ((k, v) :: args) with None, None => false | _, _ => true end) (c_params C) =
              forallb (fun p => match snd p, dict_get String.eqb (fst p) args with None, None => false | _, _ => true end) (c_params C)).
  { assert (G : forall l, incl l (c_params C) -> forallb (fun p => match snd p, dict_get String.eqb (fst p) ((k, v) :: args) with None, None => false | _, _ => true end) l =
              forallb (fun p => match snd p, dict_get String.eqb (fst p) args with None, None => false | _, _ => true end) l).
    { induction l as [|p l IH]; intros I; [reflexivity|]. cbn [forallb]. rewrite IH by (intros x Hx; apply I; now right). f_equal.
      cbn [dict_get]. destruct (String.eqb_spec (fst p) k) as [E|E]; [|reflexivity]. now rewrite (H2 p (I p (or_introl eq_refl)) E). }
    apply G, incl_refl. }
  rewrite E. clear E. destruct (forallb _ _); [|reflexivity]. f_equal. apply functional_extensionality. intros j. unfold upd. cbn [dict_get].
  destruct (String.eqb_spec j k) as [->|N]; [now rewrite Hn|reflexivity].
Qed.
Lemma bind_default C k d args a : default_is C k d -> left_out k args -> bind_args C args = Ok a -> a k = d.
Proof.
  intros [H _] L B. unfold bind_args in B. destruct (forallb _ _); [|discriminate]. injection B as <-. now rewrite (left_out_get _ _ L), H.
Qed.
Lemma upd_self a k v : a k = Some v -> upd a k v = a.
Proof. intros H. apply functional_extensionality. intros j. unfold upd. destruct (String.eqb_spec j k) as [->|]; auto. Qed.
Lemma upd_twice a k v w : upd (upd a k v) k w = upd a k w.
Proof. apply functional_extensionality. intros j. unfold upd. now destruct (String.eqb j k). Qed.
(** What a constructor does with an argument that makes no difference. *)
Lemma construct_given C k d v args : default_is C k (Some d) -> left_out k args ->
  (forall a kw, a k = Some d -> c_init C (upd a k v) kw = c_init C a kw) -> construct C ((k, v) :: args) = construct C args.
Proof.
  intros H L HI. unfold construct. rewrite (extra_same _ _ _ _ _ H), (bind_given _ _ _ _ _ H L).
  destruct (bind_args C args) as [a|e] eqn:B.
  - pose proof (bind_default _ _ _ _ _ H L B) as A. destruct (filter _ args); [|destruct (c_varkw C)]; cbn [bind]; auto.
  - destruct (filter _ args); [|destruct (c_varkw C)]; reflexivity.
Qed.
Ltac in_cases H := match type of H with
  | False => destruct H
  | _ = _ => injection H as <- <-
  | _ \/ _ => destruct H as [H|H]; in_cases H
  end.
Ltac default_tac := split; [reflexivity|]; let p := fresh in let E := fresh in intros p Hp E; cbn in Hp; repeat (destruct Hp as [Hp|Hp]; [subst p; first [reflexivity | discriminate E]|]); destruct Hp.

(** ** C191 *)

(** An argument that is left out is as if it were given with its documented default, whatever the other arguments - except for
    [max_iter] of KMMReweightAdapter. *)
Theorem C191_defaults_partial : forall n C ds k d args, In (n, C, ds) documented -> In (k, d) ds -> (n = "KMMReweightAdapter" -> k <> "max_iter") ->
  left_out k args -> construct C ((k, d) :: args) = construct C args.
Proof.
  intros n C ds k d args H1 H2 N L. apply (construct_given C k d d args); [|assumption|].
  - unfold documented in H1. cbn [In] in H1.
    repeat (destruct H1 as [H1|H1]; [injection H1 as <- <- <-; cbn [In] in H2; repeat (destruct H2 as [H2|H2]; [injection H2 as <- <-; first [default_tac | exfalso; now apply N]|]); destruct H2|]). destruct H1.
  - intros a kw E. now rewrite (upd_self _ _ _ E).
Qed.

(** The documentation gives 100 iterations for KMMReweightAdapter: the constructor's default is 1000. *)
Theorem C191_kmm_refuted : exists C ds, In ("KMMReweightAdapter", C, ds) documented /\ In ("max_iter", num 100) ds /\
  construct C [("max_iter", num 100)] <> construct C [] /\
  forall args, left_out "max_iter" args -> construct C (("max_iter", num 1000) :: args) = construct C args.
Proof.
  exists kmm_cls. eexists. split; [unfold documented; cbn [In]; do 14 right; left; reflexivity|]. split; [cbn; tauto|]. split.
  - intros H. cbn in H. injection H as H. apply (f_equal (fun f => f "max_iter")) in H. discriminate H.
  - intros args L. apply (construct_given kmm_cls "max_iter" (num 1000)); [default_tac|assumption|]. intros a kw E. now rewrite (upd_self _ _ _ E).
Qed.

(** Without an estimator the documented one is used. *)
Theorem C191_default_estimator : forall n C k e args, In (n, C, k, e) documented_estimator -> left_out k args ->
  construct C ((k, PEst e) :: args) = construct C args /\ construct C ((k, PNone) :: args) = construct C args.
Proof.
  intros n C k e args H L.
  assert (D : default_is C k None'). { unfold documented_estimator in H. cbn [In] in H. repeat (destruct H as [H|H]; [injection H as <- <- <- <-; default_tac|]). destruct H. }
  split; apply (construct_given C k PNone); auto.
  - intros a kw E. assert (U : upd a k (PEst e) k = Some (PEst e)) by (unfold upd; now rewrite String.eqb_refl). unfold documented_estimator in H. cbn [In] in H.
    repeat (destruct H as [H|H]; [injection H as <- <- <- <-; cbn [c_init density_cls discriminator_cls or_cls jdot_reg_cls jdot_clf_cls dasvm_cls]; unfold jdot_init; rewrite U, E; cbn; rewrite ?upd_twice; reflexivity|]). destruct H.
  - intros a kw E. now rewrite (upd_self _ _ _ E).
Qed.

(** Two arguments given, one left out. *)
Example C191_ex : let args := [("metric", PText "cosine"); ("verbose", on)] in
  construct jdot_clf_cls (("thr_weights", num (1 # 1000000)) :: args) = construct jdot_clf_cls args /\
  (exists o, construct jdot_clf_cls args = Ok o /\ o_attr o "thr_weights" = Some (num (1 # 1000000)) /\ o_attr o "metric" = Some (PText "cosine") /\ o_attr o "base_estimator" = Some (PEst logistic)).
Proof.
  split.
  - eapply (C191_defaults_partial "JDOTClassifier"); [unfold documented; cbn [In]; do 8 right; left; reflexivity|cbn; tauto|discriminate|].
    unfold left_out. cbn. intros [H|[H|H]]; try discriminate H; destruct H.
  - eexists. split; [reflexivity|]. repeat split.
Qed.
