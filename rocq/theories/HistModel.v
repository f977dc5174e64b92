(** Objects with a history: which attributes the methods of the shallow estimators read and write, in program order. *)
From Coq Require Import String List Bool Arith.
From Verif Require Import Np.
Import ListNotations.
Local Open Scope string_scope.
Local Open Scope list_scope.

(** A method body is a list of statements. What a line computes is left open (see [Section Run]); the model fixes which attributes of [self] the line
    reads and which it writes, under which branch and in which order. Calls of other methods of [self] are inlined. The numbers are lines of the file. *)
Inductive stmt :=
| Do (line : nat) (reads : list string)                       (* a local computation, a check, a returned value *)
| Put (a : string) (line : nat) (reads : list string)         (* self.a = ... *)
| If (line : nat) (reads : list string) (yes no : list stmt)
| For (line : nat) (reads : list string) (body : list stmt).  (* a loop; a break makes the remaining rounds empty *)

Record cls := mkCls {
  c_name : string;
  c_params : list string;                     (* what __init__ stores and set_params changes *)
  c_consts : list string;                     (* attributes __init__ sets to a constant *)
  c_derived : list string;                    (* attributes __init__ computes from the parameters *)
  c_fits : list (string * list stmt);         (* methods that fit *)
  c_others : list (string * list stmt) }.     (* the other public methods *)

(** BaseAdapter, skada/base.py lines 75-112: fit only raises NotImplementedError, transform checks its input and returns it. *)
Definition base_methods : list (string * list stmt) := [("fit", [Do 112 []]); ("transform", [Do 98 []; Do 99 []])].

(** ** skada/_mapping.py *)
(** BaseOTMappingAdapter, lines 31-107; [_create_transport_estimator] reads the parameters (lines 150-155, 245-252, 365-379, 476-477). *)
Definition ot_fit (ps : list string) : list stmt := [Do 55 []; Do 56 []; Do 59 ps; Put "ot_transport_" 60 []; Put "ot_transport_" 61 ["ot_transport_"]].
Definition ot_transform : list stmt := [Do 88 []; Do 95 []; If 98 [] [Do 99 ["ot_transport_"]] []; Do 100 []].
Definition ot_cls (n : string) (ps : list string) : cls :=
  mkCls n ps [] [] [("fit", ot_fit ps); ("fit_transform", ot_fit ps ++ ot_transform)] [("transform", ot_transform)].
Definition c_ot : cls := ot_cls "OTMappingAdapter" ["metric"; "norm"; "max_iter"].
Definition c_entropic : cls := ot_cls "EntropicOTMappingAdapter" ["reg_e"; "metric"; "norm"; "max_iter"; "tol"].
Definition c_classreg : cls := ot_cls "ClassRegularizerOTMappingAdapter" ["reg_e"; "reg_cl"; "norm"; "metric"; "max_iter"; "max_inner_iter"; "tol"].
Definition c_linear : cls := ot_cls "LinearOTMappingAdapter" ["reg"; "bias"].

(** MultiLinearMongeAlignmentAdapter, lines 598-700. *)
Definition mlm_fit_s : list stmt :=
  [Do 621 []; Do 622 []; Put "cov_means_sources_" 624 ["bias"]; Put "cov_means_targets_" 629 ["bias"]; Do 634 ["cov_means_sources_"]; Do 635 ["cov_means_sources_"];
   Put "barycenter_" 637 ["reg"]; Put "mappings_" 643 ["barycenter_"; "cov_means_sources_"]; Do 653 ["barycenter_"; "cov_means_targets_"]; Put "mappings_" 663 ["mappings_"]].
Definition mlm_transform_s : list stmt := [Do 690 []; Do 693 []; For 696 [] [Do 697 ["mappings_"]]; Do 700 []].
Definition c_mlm : cls := mkCls "MultiLinearMongeAlignmentAdapter" ["reg"; "bias"; "test_time"] [] []
  [("fit", mlm_fit_s); ("fit_transform", mlm_fit_s ++ mlm_transform_s)] [("transform", mlm_transform_s)].

(** CORALAdapter, lines 840-930. *)
Definition coral_fit_s : list stmt :=
  [Do 862 []; Do 865 []; Put "mean_source_" 867 []; Put "mean_target_" 868 []; Do 869 ["reg"; "assume_centered"]; Do 872 ["reg"; "assume_centered"];
   Put "cov_source_inv_sqrt_" 875 []; Put "cov_target_sqrt_" 876 []].
Definition coral_transform_s : list stmt :=
  [Do 902 []; Do 909 [];
   If 914 [] [If 916 ["assume_centered"] [] [Do 917 ["mean_source_"]]; Do 920 ["cov_source_inv_sqrt_"]; Do 921 ["cov_target_sqrt_"]] [];
   If 924 ["assume_centered"] [Do 925 ["mean_target_"]] []; Do 927 []].
Definition c_coral : cls := mkCls "CORALAdapter" ["reg"; "assume_centered"] [] []
  [("fit", coral_fit_s); ("fit_transform", coral_fit_s ++ coral_transform_s)] [("transform", coral_transform_s)].

(** MMDLSConSMappingAdapter, lines 1020-1183; __init__ sets W_ and B_ to None. *)
Definition ls_fit_s : list stmt :=
  [Do 1119 []; Do 1120 []; Put "X_source_" 1123 []; Put "discrete_" 1040 []; Do 1054 ["gamma"]; Do 1055 ["reg_k"];
   If 1058 [] [Put "classes_" 1059 []] [Put "classes_" 1064 []; Do 1065 ["reg_k"]]; Do 1091 ["gamma"; "reg_m"; "tol"; "max_iter"];
   Put "W_" 1125 []; Put "B_" 1125 []; Put "G_" 1125 []; Put "H_" 1125 []].
Definition ls_transform_s : list stmt :=
  [Do 1154 []; If 1158 [] [] [If 1161 ["X_source_"] [Do 1162 ["W_"; "B_"]]
     [If 1164 ["discrete_"] [Do 1169 ["classes_"]; Do 1173 ["G_"; "H_"]] [Do 1176 ["X_source_"]; Do 1178 ["W_"; "B_"]]]]; Do 1180 []].
Definition c_ls : cls := mkCls "MMDLSConSMappingAdapter" ["gamma"; "reg_k"; "reg_m"; "tol"; "max_iter"] ["W_"; "B_"] []
  [("fit", ls_fit_s); ("fit_transform", ls_fit_s ++ ls_transform_s)] [("transform", ls_transform_s)].

(** ** skada/_reweight.py; fit_transform, lines 54-76, is fit followed by compute_weights; transform is that of BaseAdapter. *)
Definition rw_cls (n : string) (ps : list string) (f w : list stmt) : cls :=
  mkCls n ps [] [] [("fit", f); ("fit_transform", f ++ w)] [("compute_weights", w); ("transform", [Do 98 []; Do 99 []])].
(** DensityReweightAdapter, lines 96-145. *)
Definition c_density : cls := rw_cls "DensityReweightAdapter" ["weight_estimator"]
  [Do 117 []; Do 118 []; Do 120 ["weight_estimator"]; Do 122 ["weight_estimator"]; Put "weight_estimator_source_" 124 []; Put "weight_estimator_target_" 125 []]
  [Do 130 []; Do 133 ["weight_estimator_source_"]; Do 134 ["weight_estimator_target_"]; Do 145 []].
(** GaussianReweightAdapter, lines 209-253. *)
Definition c_gaussian : cls := rw_cls "GaussianReweightAdapter" ["reg"]
  [Do 230 []; Do 231 []; Put "mean_source_" 233 []; Put "cov_source_" 234 ["reg"]; Put "mean_target_" 235 []; Put "cov_target_" 236 ["reg"]]
  [Do 241 []; Do 245 ["mean_target_"; "cov_target_"]; Do 248 ["mean_source_"; "cov_source_"]; Do 253 []].
(** DiscriminatorReweightAdapter, lines 320-364. *)
Definition c_discriminator : cls := rw_cls "DiscriminatorReweightAdapter" ["domain_classifier"]
  [Do 341 []; Do 346 ["domain_classifier"]; Put "domain_classifier_" 348 []]
  [Do 353 []; Do 358 ["domain_classifier_"]; Do 364 []].
(** NearestNeighborReweightAdapter, lines 734-818; base_estimator is made from the parameters by __init__. *)
Definition c_nearest : cls := mkCls "NearestNeighborReweightAdapter"
  ["n_neighbors"; "weights"; "algorithm"; "leaf_size"; "p"; "metric"; "metric_params"; "n_jobs"; "laplace_smoothing"] [] ["base_estimator"]
  (let f := [Do 784 []; Put "X_source_fit" 786 []; Put "estimator_" 789 ["base_estimator"]; Put "estimator_" 790 ["estimator_"]] in
   let w := [Do 806 []; If 811 ["X_source_fit"] [Do 812 ["estimator_"]] [Do 814 ["base_estimator"]]; Do 796 ["base_estimator"]; Do 801 ["laplace_smoothing"]; Do 818 []] in
   [("fit", f); ("fit_transform", f ++ w)])
  [("compute_weights", [Do 806 []; If 811 ["X_source_fit"] [Do 812 ["estimator_"]] [Do 814 ["base_estimator"]]; Do 796 ["base_estimator"]; Do 801 ["laplace_smoothing"]; Do 818 []]);
   ("transform", [Do 98 []; Do 99 []])].
(** KMMReweightAdapter, lines 1000-1125. *)
Definition kmm_kernel : list string := ["kernel"; "gamma"; "degree"; "coef0"].
Definition c_kmm : cls := rw_cls "KMMReweightAdapter" ["kernel"; "gamma"; "degree"; "coef0"; "B"; "eps"; "tol"; "max_iter"; "smooth_weights"; "solver"]
  [Do 1049 []; Do 1052 []; Do 1061 kmm_kernel; Do 1069 kmm_kernel; If 1081 ["eps"] [] [Do 1084 ["eps"]]; Do 1089 ["B"; "tol"; "max_iter"; "solver"];
   Put "source_weights_" 1054 []; Put "X_source_" 1055 []]
  [Do 1106 []; If 1109 ["X_source_"; "smooth_weights"] [Do 1110 ["source_weights_"]] [Do 1112 ("X_source_" :: kmm_kernel); Do 1121 ["source_weights_"]]; Do 1125 []].
(** MMDTarSReweightAdapter, lines 1242-1362. *)
Definition c_mmdtars : cls := rw_cls "MMDTarSReweightAdapter" ["gamma"; "reg"; "tol"; "max_iter"]
  [Do 1323 []; Do 1324 []; Put "X_source_" 1327 []; Put "discrete_" 1254 []; Do 1257 ["gamma"]; Do 1258 ["gamma"]; Do 1259 ["reg"];
   If 1263 [] [Put "classes_" 1264 []] [Put "classes_" 1269 []; Do 1270 ["reg"]]; Do 1273 ["gamma"]; Do 1299 ["tol"; "max_iter"];
   Put "source_weights_" 1329 []; Put "alpha_" 1329 []]
  [Do 1337 []; If 1342 ["X_source_"] [Do 1343 ["source_weights_"]]
     [If 1345 ["discrete_"] [Do 1348 ["classes_"]; Do 1352 ["alpha_"]] [Do 1355 ["X_source_"]; Do 1357 ["source_weights_"]]]; Do 1362 []].

(** ** skada/_subspace.py *)
(** SubspaceAlignmentAdapter, lines 61-166. A random_state that is a generator object is not modelled here (see SeedModel). *)
Definition sa_fit_s : list stmt :=
  [Do 87 []; If 95 ["n_components"] [] [Do 98 ["n_components"]]; Put "random_state_" 99 ["random_state"]; Put "pca_source_" 100 ["random_state_"];
   Put "pca_target_" 103 ["random_state_"]; Put "n_components_" 106 []; Put "M_" 107 ["pca_source_"; "pca_target_"]].
Definition sa_transform_s : list stmt := [Do 129 []; If 138 [] [Do 139 ["pca_source_"; "M_"]] []; If 140 [] [Do 141 ["pca_target_"]] []; Do 142 []].
Definition c_sa : cls := mkCls "SubspaceAlignmentAdapter" ["n_components"; "random_state"] [] []
  [("fit", sa_fit_s); ("fit_transform", sa_fit_s ++ sa_transform_s)] [("transform", sa_transform_s)].
(** TransferComponentAnalysisAdapter, lines 251-371. *)
Definition tca_fit_s : list stmt :=
  [Do 274 []; Put "X_source_" 280 []; Put "X_target_" 280 []; Do 284 ["X_source_"; "kernel"]; Do 285 ["X_target_"; "kernel"]; Do 286 ["X_source_"; "X_target_"; "kernel"];
   Put "K_" 288 []; Do 290 ["X_source_"]; Do 291 ["X_target_"]; Do 299 ["mu"]; If 305 ["n_components"] [] [Do 308 ["n_components"]]; Put "eigvects_" 310 []].
Definition tca_transform_s : list stmt :=
  [Do 353 []; If 362 ["X_source_"; "X_target_"] [Do 365 ["K_"; "eigvects_"]] [Do 367 ["X_source_"; "kernel"]; Do 368 ["X_target_"; "kernel"]; Do 370 ["eigvects_"]]].
Definition c_tca : cls := mkCls "TransferComponentAnalysisAdapter" ["kernel"; "n_components"; "mu"] [] []
  [("fit", tca_fit_s); ("fit_transform", tca_fit_s ++ tca_transform_s)] [("transform", tca_transform_s)].
(** TransferJointMatchingAdapter, lines 456-640. *)
Definition tjm_fit_s : list stmt :=
  [Do 565 []; If 573 ["n_components"] [] [Do 576 ["n_components"]]; Put "X_source_" 577 []; Put "X_target_" 578 []; Do 584 ["kernel"]; Do 590 ["tol"];
   For 591 ["max_iter"] [Do 593 ["tradeoff"]; Do 620 ["tradeoff"]; Do 622 ["verbose"]; Do 633 ["tol"]]; Put "A_" 638 []].
Definition tjm_transform_s : list stmt :=
  [Do 513 []; If 522 ["X_source_"; "X_target_"] [Do 525 ["kernel"]; Do 526 ["A_"]] [Do 528 ["X_source_"; "kernel"]; Do 529 ["X_target_"; "kernel"]; Do 531 ["A_"]]].
Definition c_tjm : cls := mkCls "TransferJointMatchingAdapter" ["n_components"; "tradeoff"; "kernel"; "max_iter"; "tol"; "verbose"] [] []
  [("fit", tjm_fit_s); ("fit_transform", tjm_fit_s ++ tjm_transform_s)] [("transform", tjm_transform_s)].
(** TransferSubspaceLearningAdapter, lines 747-953; [self.torch] is a flag that the helpers test before importing torch. *)
Definition tsl_fit_s : list stmt :=
  [Put "torch" 857 []; Do 863 []; If 873 ["n_components"] [] [Do 876 ["n_components"]];
   Do 903 ["torch"; "reg"; "base_method"; "length_scale"; "mu"; "tol"; "max_iter"; "verbose"]; Put "W_" 909 []].
Definition tsl_transform_s : list stmt := [Do 936 []; If 945 [] [Do 946 ["W_"]] []; If 947 [] [Do 948 ["W_"]] []; Do 950 []].
Definition c_tsl : cls := mkCls "TransferSubspaceLearningAdapter" ["n_components"; "base_method"; "length_scale"; "mu"; "reg"; "max_iter"; "tol"; "verbose"] [] []
  [("fit", tsl_fit_s); ("fit_transform", tsl_fit_s ++ tsl_transform_s)] [("transform", tsl_transform_s)].

(** ** skada/_ot.py *)
(** JDOTRegressor, lines 548-613: fit calls jdot_regression with a clone of base_estimator. *)
Definition jdot_sets (l : nat) : list stmt := [Put "estimator_" l []; Put "lst_loss_ot_" l []; Put "lst_loss_tgt_labels_" l []; Put "sol_" l []].
Definition c_jdot_reg : cls := mkCls "JDOTRegressor" ["base_estimator"; "kwargs"; "alpha"; "n_iter_max"; "tol"; "verbose"] [] []
  [("fit", [Do 575 []; Do 579 ["base_estimator"; "alpha"; "n_iter_max"; "tol"; "verbose"; "kwargs"]] ++ jdot_sets 593)]
  [("predict", [Do 597 []; Do 603 ["estimator_"]]); ("score", [Do 607 []; Do 613 ["estimator_"]])].
(** JDOTClassifier, lines 672-764. *)
Definition c_jdot_cls : cls := mkCls "JDOTClassifier" ["base_estimator"; "kwargs"; "alpha"; "metric"; "n_iter_max"; "tol"; "verbose"; "thr_weights"] [] []
  [("fit", [Do 703 []; Do 707 ["base_estimator"; "alpha"; "metric"; "n_iter_max"; "tol"; "verbose"; "thr_weights"; "kwargs"]] ++ jdot_sets 723)]
  [("predict", [Do 727 []; Do 733 ["estimator_"]]); ("predict_proba", [Do 736 ["base_estimator"]; Do 748 []; Do 754 ["estimator_"]]); ("score", [Do 758 []; Do 764 ["estimator_"]])].
(** OTLabelPropAdapter, lines 805-857. *)
Definition otlp_s : list stmt :=
  [Do 813 []; Do 814 []; Do 825 ["metric"]; Do 826 ["reg"; "n_iter_max"]; Put "discrete_" 828 [];
   If 829 [] [Put "classes_" 830 []; Put "yht_continuous_" 835 []] [Put "yht_continuous_" 842 []]; Put "G_" 845 []; Put "Xt_" 846 []; Put "yht_" 847 []; Do 857 []].
Definition c_otlp : cls := mkCls "OTLabelPropAdapter" ["metric"; "reg"; "n_iter_max"] [] [] [("fit_transform", otlp_s)] base_methods.
(** JCPOTLabelPropAdapter, lines 937-984. *)
Definition jcpot_s : list stmt :=
  [Do 950 []; Put "ot_adapter_" 965 ["reg"; "metric"; "max_iter"; "tol"]; Put "ot_adapter_" 973 ["ot_adapter_"]; Do 975 ["ot_adapter_"]; Put "yh_continuous_" 977 []; Do 984 []].
Definition c_jcpot : cls := mkCls "JCPOTLabelPropAdapter" ["metric"; "reg"; "max_iter"; "tol"; "verbose"] ["predicts_target_labels"] []
  [("fit_transform", jcpot_s)] base_methods.

(** ** skada/_self_labeling.py: DASVMClassifier, lines 70-313. Line 173 fits the parameter base_estimator in place: what fitting leaves in it is the
    attribute "base_estimator*", distinct from the configuration "base_estimator", which is all that clone copies. *)
Definition save_indices_s (l : nat) : stmt :=
  If l ["save_indices"] [Put "indices_source_deleted" (S l) ["indices_source_deleted"]; Put "indices_target_added" (2 + l) ["indices_target_added"]] [].
Definition save_estimators_s (l : nat) (r : list string) : stmt := If l ["save_estimators"] [Put "estimators" (S l) ("estimators" :: r)] [].
Definition dasvm_fit_s : list stmt :=
  [Do 149 []; Put "n_class" 159 []; Put "estimators" 160 []; Put "indices_source_deleted" 161 []; Put "indices_target_added" 162 []; save_indices_s 166;
   Do 172 ["base_estimator"]; Put "base_estimator*" 173 ["base_estimator"]; save_estimators_s 175 ["base_estimator"; "base_estimator*"];
   Do 178 ["base_estimator"; "base_estimator*"]; If 179 ["n_class"] [Do 180 []] []; Do 181 ["base_estimator"; "base_estimator*"]; If 182 ["n_class"] [Do 183 []] [];
   Do 185 ["n_class"]; Do 97 ["k"; "n_class"]; Do 192 ["n_class"]; Do 97 ["k"; "n_class"]; save_indices_s 206;
   For 211 ["max_iter"] [If 212 [] [] [Do 216 ["base_estimator"; "base_estimator*"]; Do 220 ["base_estimator"]; Do 221 []; save_estimators_s 222 []; Do 225 ["base_estimator"; "base_estimator*"];
     Do 232 []; Do 236 []; Do 97 ["k"; "n_class"]; Do 246 []; Do 97 ["k"; "n_class"]; save_indices_s 256]];
   Do 261 ["base_estimator"; "base_estimator*"]; Do 263 ["base_estimator"]; Do 264 []; save_estimators_s 265 []; save_indices_s 268; Put "base_estimator_" 272 []].
Definition c_dasvm : cls := mkCls "DASVMClassifier" ["base_estimator"; "k"; "max_iter"; "save_estimators"; "save_indices"] [] []
  [("fit", dasvm_fit_s)]
  [("predict", [Do 280 ["base_estimator_"]]); ("predict_proba", [Do 283 ["base_estimator"]; Do 296 ["base_estimator"; "base_estimator*"]]);
   ("decision_function", [Do 303 ["base_estimator_"]]); ("score", [Do 307 []; Do 313 ["base_estimator_"]])].

(** ** skada/transformers.py: Subsampler (lines 33-75), DomainSubsampler (98-139), StratifiedDomainSubsampler (161-203). *)
Definition sub_cls (n : string) (l : nat) : cls :=
  let s := [Do (2 + l) []; Put "rng_" (4 + l) ["random_state"]; If (6 + l) ["train_size"] [Do (7 + l) []] [Do (15 + l) ["train_size"; "rng_"]; Do (25 + l) []]] in
  mkCls n ["train_size"; "random_state"] [] [] [("fit_transform", s)] [("fit", [Do 112 []]); ("transform", [Do (31 + l) []])].
Definition c_sub : cls := sub_cls "Subsampler" 44.
Definition c_domsub : cls := sub_cls "DomainSubsampler" 109.
Definition c_stratsub : cls := sub_cls "StratifiedDomainSubsampler" 172.

(** ** skada/base.py: the selectors. _is_final and _is_transformer are set by __init__ (the pipeline sets _is_final before any fit, lines 282-288). *)
Definition prep : list string := ["_is_final"; "_is_transformer"].
(** Shared, lines 401-451; [_fit] inlined. *)
Definition shared_fit_s : list stmt :=
  [Do 409 []; If 427 ["mask_target_labels"] [Do 428 []] []; Do 429 []; Do 431 ["base_estimator"]; Do 433 prep; Do 434 []; Do 435 ["base_estimator"]; Do 436 [];
   Put "base_estimator_" 437 []; Put "routing_" 438 []].
Definition shared_route_s : list stmt := [Do 443 []; Do 444 ["routing_"]; Do 445 prep; Do 446 []; Do 447 ["base_estimator_"]].
Definition routed (r : list stmt) : list (string * list stmt) :=
  map (fun m => (m, r)) ["transform"; "predict"; "predict_proba"; "predict_log_proba"; "decision_function"; "score"].
Definition shared_ft_s : list stmt := Do 415 [] :: If 416 ["base_estimator"] [] [] :: shared_fit_s ++ [If 416 ["base_estimator"] [] (Do 421 ["routing_"] :: shared_route_s); Do 423 []].
Definition shared_cls (n : string) : cls :=
  mkCls n ["base_estimator"; "mask_target_labels"] ["_is_final"] ["_is_transformer"] [("fit", shared_fit_s); ("fit_transform", shared_ft_s)]
        (("get_estimator", [Do 406 ["base_estimator_"]]) :: routed shared_route_s).
Definition c_shared : cls := shared_cls "Shared".
(** SelectSource and SelectTarget, lines 546-600: Shared after a selection of the rows. *)
Definition c_selsource : cls := shared_cls "SelectSource".
Definition c_seltarget : cls := shared_cls "SelectTarget".
(** PerDomain, lines 454-533; the failing call of line 500 (C121) ends the method. *)
Definition perdomain_fit_s : list stmt :=
  [Do 462 []; If 467 ["mask_target_labels"] [Do 468 []] []; Do 470 []; Do 472 ["base_estimator"]; Do 474 prep; Do 475 [];
   For 477 [] [Do 479 ["base_estimator"]; Do 480 []]; Put "estimators_" 486 []; Put "routing_" 487 []].
Definition perdomain_route_s : list stmt := [Do 508 []; Do 509 ["routing_"]; Do 510 prep; For 515 [] [Do 518 ["estimators_"]; Do 524 []]; Do 533 []].
Definition c_perdomain : cls := mkCls "PerDomain" ["base_estimator"; "mask_target_labels"] ["_is_final"] ["_is_transformer"]
  [("fit", perdomain_fit_s); ("fit_transform", Do 493 ["base_estimator"] :: perdomain_fit_s ++ [Do 505 []])]
  (("get_estimator", [Do 459 ["estimators_"]]) :: routed perdomain_route_s).
(** SelectSourceTarget, lines 603-787. *)
Definition sst_fit_s : list stmt :=
  [Do 690 []; If 703 ["target_estimator"] [Do 703 ["target_estimator"]] [Do 703 ["source_estimator"]]; For 704 ["source_estimator"] [Do 717 prep; Do 719 []]; Put "estimators_" 724 []].
Definition sst_route_s : list stmt := [Do 741 []; For 749 [] [Do 750 ["estimators_"]; Do 756 prep]; Do 764 []].
Definition c_sst : cls := mkCls "SelectSourceTarget" ["source_estimator"; "target_estimator"] ["_is_final"] ["_is_transformer"]
  [("fit", sst_fit_s); ("fit_transform", Do 730 ["source_estimator"] :: sst_fit_s ++ [If 730 [] [] [Do 736 ["routing_"]; Do 737 []]; Do 738 []])]
  (("get_estimator", [Do 687 ["estimators_"]]) :: routed sst_route_s).

Definition shallow : list cls :=
  [c_ot; c_entropic; c_classreg; c_linear; c_mlm; c_coral; c_ls; c_density; c_gaussian; c_discriminator; c_nearest; c_kmm; c_mmdtars; c_sa; c_tca; c_tjm; c_tsl;
   c_jdot_reg; c_jdot_cls; c_otlp; c_jcpot; c_dasvm; c_sub; c_domsub; c_stratsub; c_shared; c_selsource; c_seltarget; c_perdomain; c_sst].

(** Two classes whose fit changes parameters (C80, C94), to compare. KLIEPReweightAdapter, lines 447-579. *)
Definition c_kliep : cls := rw_cls "KLIEPReweightAdapter" ["gamma"; "cv"; "n_centers"; "tol"; "max_iter"; "random_state"]
  [Do 481 []; If 486 ["gamma"] [Put "gamma" 487 ["gamma"]; Put "best_gamma_" 488 ["gamma"; "random_state"; "cv"; "n_centers"; "max_iter"; "tol"]] [Put "best_gamma_" 492 ["gamma"]];
   Do 498 ["best_gamma_"; "random_state"; "n_centers"; "max_iter"; "tol"]; Put "alpha_" 493 []; Put "centers_" 493 []]
  [Do 556 []; Do 560 ["centers_"; "best_gamma_"]; Do 562 ["alpha_"]; Do 565 []].
(** GradualEstimator, skada/_gradual_da.py lines 65-309: line 128 replaces a missing base_estimator, line 138 changes its max_iter. *)
Definition gradual_proba (l : nat) : list stmt := [Do l ["base_estimator"]; Do (9 + l) ["base_estimator"; "base_estimator*"]].
Definition c_gradual : cls := mkCls "GradualEstimator"
  ["alpha"; "n_steps"; "ot_method"; "base_estimator"; "advanced_ot_plan_sampling"; "save_estimators"; "save_intermediate_data"] [] []
  [("fit", [Put "estimators_" 106 []; Put "ot_method*" 111 ["ot_method"]; Do 112 ["ot_method*"];
     If 113 ["advanced_ot_plan_sampling"] [Put "max_index" 166 []] [Put "max_index" 150 ["alpha"]; Do 152 ["max_index"]];
     If 118 ["base_estimator"] [] [Put "base_estimator" 128 []]; Put "base_estimator*" 129 ["base_estimator"];
     If 130 ["save_estimators"] [Put "estimators_" 131 ["estimators_"; "base_estimator"; "base_estimator*"]] [];
     If 132 ["save_intermediate_data"] [Put "intermediate_data_" 133 []] [];
     For 134 ["n_steps"] [Do 195 ["max_index"; "n_steps"]; Do 201 ["base_estimator"; "base_estimator*"]; Put "base_estimator" 138 ["base_estimator"];
       Put "base_estimator*" 139 ["base_estimator"]; If 140 ["save_estimators"] [Put "estimators_" 141 ["estimators_"; "base_estimator"; "base_estimator*"]] [];
       If 142 ["save_intermediate_data"] [Put "intermediate_data_" 143 ["intermediate_data_"]] []]])]
  [("get_intermediate_estimators", [Do 214 ["estimators_"]]); ("predict", gradual_proba 229); ("predict_proba", gradual_proba 251); ("predict_log_proba", gradual_proba 275); ("score", gradual_proba 303)].

(** ** Running a method. [comp line args reads], [test line args reads], [count line args reads]: what a line computes, whether it raises, the branch it
    takes and how often it loops, from the arguments and earlier local results of the call and the attributes it reads; arbitrary. *)
Section Run.
  Context {V : Type}.
  Variable comp : nat -> list V -> list V -> res V.
  Variable test : nat -> list V -> list V -> bool.
  Variable count : nat -> list V -> list V -> nat.
  Definition obj := string -> option V.
  Definition set (o : obj) (a : string) (v : V) : obj := fun b => if String.eqb a b then Some v else o b.
  (** Reading an attribute that was never set is an AttributeError. *)
  Definition get (o : obj) (a : string) : res V := match o a with Some v => Ok v | None => Err AttributeError end.
  Fixpoint exec (s : stmt) (o : obj) (tr : list V) {struct s} : obj * res (list V) :=
    let block := fix block (l : list stmt) (o : obj) (tr : list V) : obj * res (list V) :=
      match l with
      | [] => (o, Ok tr)
      | s :: l' => match exec s o tr with (o1, Ok tr1) => block l' o1 tr1 | (o1, Err e) => (o1, Err e) end
      end in
    match s with
    | Do n rs => match mapM (get o) rs with
                 | Err e => (o, Err e)
                 | Ok vs => match comp n tr vs with Err e => (o, Err e) | Ok v => (o, Ok (v :: tr)) end end
    | Put a n rs => match mapM (get o) rs with
                    | Err e => (o, Err e)
                    | Ok vs => match comp n tr vs with Err e => (o, Err e) | Ok v => (set o a v, Ok (v :: tr)) end end
    | If n rs yes no => match mapM (get o) rs with
                        | Err e => (o, Err e)
                        | Ok vs => if test n tr vs then block yes o tr else block no o tr end
    | For n rs body => match mapM (get o) rs with
                       | Err e => (o, Err e)
                       | Ok vs => (fix rounds (k : nat) (o : obj) (tr : list V) : obj * res (list V) :=
                                     match k with
                                     | 0 => (o, Ok tr)
                                     | S k' => match block body o tr with (o1, Ok tr1) => rounds k' o1 tr1 | (o1, Err e) => (o1, Err e) end
                                     end) (count n tr vs) o tr end
    end.
  Fixpoint exec_all (l : list stmt) (o : obj) (tr : list V) : obj * res (list V) :=
    match l with
    | [] => (o, Ok tr)
    | s :: l' => match exec s o tr with (o1, Ok tr1) => exec_all l' o1 tr1 | (o1, Err e) => (o1, Err e) end
    end.

  (** What a user does with an object: call a method with arguments, or set a parameter. The value of a call is the list of its local results, of
      which the returned value is the first; the attributes of the object are given with [o]. *)
  Inductive op := Call (m : string) (args : list V) | SetParam (q : string) (v : V).
  Fixpoint method (ms : list (string * list stmt)) (m : string) : option (list stmt) :=
    match ms with [] => None | (n, b) :: ms' => if String.eqb n m then Some b else method ms' m end.
  Definition mem (a : string) (l : list string) : bool := existsb (String.eqb a) l.
  Definition step (c : cls) (o : obj) (x : op) : obj * res (list V) :=
    match x with
    | Call m args => match method (c_fits c ++ c_others c) m with
                     | Some b => exec_all b o args
                     | None => (o, Err AttributeError) end
    | SetParam q v => if mem q (c_params c) then (set o q v, Ok []) else (o, Err ValueError)
    end.
  Fixpoint steps (c : cls) (o : obj) (h : list op) : obj * list (res (list V)) :=
    match h with
    | [] => (o, [])
    | x :: h' => let '(o1, r) := step c o x in let '(o2, rs) := steps c o1 h' in (o2, r :: rs)
    end.
  (** A new object with the parameters [p]; [k]: the constants set by __init__; [d p]: what __init__ computes from the parameters. *)
  Definition new (c : cls) (k : string -> V) (d : obj -> string -> V) (p : obj) : obj :=
    fun a => if mem a (c_params c) then p a else if mem a (c_consts c) then Some (k a) else if mem a (c_derived c) then Some (d p a) else None.
End Run.
