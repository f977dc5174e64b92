(** Model of the callback of the contrastive adaptation network (CAN): /repo/skada/deep/callbacks.py lines 22-75. *)
From Coq Require Import String List ZArith Bool Arith Lia Reals.
From Verif Require Import Np RVec LossModel CallModel.
Import ListNotations.

(** [ComputeSourceCentroids.on_epoch_begin], lines 34-75: the clustering stored in the criterion for the epoch, from the labels of the
    source samples and the features of the source and target samples (predict_features, see NetModel). The number of clusters is the
    number of different source labels; max_iter=300 and tol=1e-4 are the defaults of SphericalKMeans (deep/utils.py lines 152-154). *)
Definition can_epoch (d : nat) (y_s : list Z) (features_s features_t : list (list R)) : res fitted :=
  c0 <- source_centroids d y_s features_s ;;
  kmeans_fit (unique_count y_s) d 300 (1 / 10 ^ 4)%R features_t (Some c0) [].
