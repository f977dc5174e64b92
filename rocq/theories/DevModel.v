(** Model of the parts of DeepEmbeddedValidation (/repo/skada/metrics.py lines 337-511) left open in MetricsModel: the default
    loss, and the features handed to the domain classifier when the scored estimator is a pipeline. *)
From Coq Require Import String List ZArith QArith Bool Arith Lia Reals Lra.
From Verif Require Import Np Labels UtilsModel SelectModel RVec MetricsModel MapModel.
Import ListNotations.
Local Open Scope nat_scope.
Local Open Scope list_scope.

(** ** The default loss *)

(** Row of [y_val]: an integer, or a float (numpy refuses floats as indices). *)
Inductive label := LInt (z : Z) | LFloat (q : Q).

(** [np.eye(num_classes)[y_true]], line 504: negative indices count from the end. *)
Definition eye_row (k : nat) (y : label) : res (list R) :=
  match y with
  | LInt z => i <- py_index k z ;; Ok (map (fun j => if j =? i then 1%R else 0%R) (seq 0 k))
  | LFloat _ => Err IndexError
  end.

(** The epsilon of line 481. *)
Definition eps15 : R := (/ 1000000000000000)%R.

(** [np.clip(t, lo, hi)] *)
Definition np_clip (lo hi t : R) : R := Rmin (Rmax t lo) hi.

(** [cross_entropy_loss], lines 481-511. *)
Definition cross_entropy_loss (y : label) (p : list R) : res R :=
  let num_classes := length p in
  onehot <- eye_row num_classes y ;;
  let q := map (np_clip eps15 (1 - eps15)%R) p in
  Ok (- vsum (map2 Rmult onehot (map ln q)))%R.

(** [_no_reduc_log_loss], lines 383-386: [y_pred[i]] for every i below len(y). *)
Definition no_reduc_log_loss (y : list label) (P : list (list R)) : res (list R) :=
  mapM (fun iy : nat * label => p <- match nth_error P (fst iy) with Some p => Ok p | None => Err IndexError end ;;
                                cross_entropy_loss (snd iy) p)
       (combine (seq 0 (length y)) y).

(** ** The features *)

(** A step of a fitted pipeline: its [transform], when it has one, as a function of the array, of the [sample_domain] and of
    the [allow_source] it is given. *)
Definition transform_fn := arr -> sd_arg -> bool -> res arr.
Record pstep := mkP { p_transform : option transform_fn }.
Definition has_transform (s : pstep) : bool := match p_transform s with Some _ => true | None => false end.

(** sklearn's Pipeline.transform, and what the last step of a pipeline receives (external): each step in turn. *)
Fixpoint run_steps (steps : list pstep) (X : arr) (sda : sd_arg) (allow : bool) : res arr :=
  match steps with
  | [] => Ok X
  | s :: steps' =>
      match p_transform s with
      | None => Err AttributeError
      | Some t => X' <- t X sda allow ;; run_steps steps' X' sda allow
      end
  end.

(** The estimators the scorer can be given: a pipeline, or a deep net whose module has a layer name or not; [feat]: its
    predict_features. *)
Inductive scored := SPipe (steps : list pstep) | SDeep (layer_named : bool) (feat : arr -> res arr).

(** Index of the last step that has a transform: the loop over [reversed(pipeline_steps)], lines 419-425. *)
Definition last_transformer (steps : list pstep) : option nat :=
  option_map fst (find (fun ip : nat * pstep => has_transform (snd ip)) (rev (combine (seq 0 (length steps)) steps))).

(** Lines 406-432. The sliced pipeline's transform is called with the array only (lines 447-449): no sample_domain, no
    allow_source. *)
Definition dev_transformer (e : scored) : res (arr -> res arr) :=
  match e with
  | SDeep named feat => if named then Ok feat else Err ValueError
  | SPipe steps =>
      match last_transformer steps with
      | Some i => Ok (fun X => run_steps (firstn (i + 1) steps) X SDNone false)
      | None => Ok (fun X => Ok X)
      end
  end.

(** ** The transforms of the steps [make_da_pipeline] builds *)

(** Shared (base.py lines 442-451) around an estimator whose transform asks for no metadata, such as a scaler. *)
Definition plain_step (t : arr -> res arr) : pstep := mkP (Some (fun X _ _ => t X)).
(** Shared around an OT mapping adapter (_mapping.py lines 84-103): the adapter asks for both arguments. *)
Definition ot_step (transport : arr -> res arr) : pstep := mkP (Some (fun X sda allow => ot_transform allow transport X sda)).
(** PerDomain (base.py lines 507-533): line 512 needs the sample_domain; [per_domain sd X]: the merged outputs. A scalar
    sample_domain is not modelled. *)
Definition per_domain_step (per_domain : list Z -> arr -> res arr) : pstep :=
  mkP (Some (fun X sda _ => match sda with SDArr l => per_domain l X | SDScalar _ => Err TypeError | SDNone => Err KeyError end)).
(** SelectSourceTarget (base.py lines 740-764) around two transformers that ask for no metadata. *)
Definition side_output (t : arr -> res arr) (m : list bool) (X : arr) : res (list (dindex * arr)) :=
  if count m =? 0 then Ok [] else Xm <- arr_select m X ;; o <- t Xm ;; Ok [(IMask m, o)].
Definition source_target_step (ts tt : arr -> res arr) : pstep :=
  mkP (Some (fun X sda _ =>
    sd <- check_X_domain (a_len X) sda all_flags ;;
    m <- extract_source_indices sd ;;
    s <- side_output ts m X ;;
    t <- side_output tt (map negb m) X ;;
    merge_domain_arrays (a_len X) (s ++ t))).
(** A step without transform: the final estimator. *)
Definition final_step : pstep := mkP None.
