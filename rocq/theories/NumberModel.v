(** The numbers announced by splitters, samplers and data loaders. *)
From Coq Require Import List ZArith QArith Bool Arith.
From Verif Require Import Np DeepModel.
Import ListNotations.
Local Open Scope nat_scope.

(** skada/model_selection.py lines 95-114 (BaseDomainAwareShuffleSplit.get_n_splits): X, y and sample_domain are not looked at. *)
Definition get_n_splits {A B C} (n_splits : nat) (X : A) (y : B) (sample_domain : C) : nat := n_splits.

(** skada/deep/base.py lines 201-222 and 245-246: len(DomainBalancedSampler(dataset, batch_size, max_samples)). An unknown mode leaves num_samples unset. *)
Definition balanced_len {Row} (d : ds Row) (batch_size : nat) (mode : sample_mode) : res nat :=
  n <- num_samples mode batch_size (length (side_indices Row (fun s => (0 <=? s)%Z) d)) (length (side_indices Row (fun s => (s <? 0)%Z) d)) ;;
  Ok (2 * n).

(** Lines 308-322 and 335-336: len(DomainOnlySampler(dataset, batch_size, domain_used)); [Some true] is "source", [Some false] is "target". *)
Definition only_len {Row} (d : ds Row) (batch_size : nat) (domain_used : option bool) : res nat :=
  match domain_used with
  | None => Err ValueError
  | Some src =>
      let indices := side_indices Row (fun s => if src : bool then (0 <=? s)%Z else (s <? 0)%Z) d in
      if batch_size =? 0 then Err ZeroDivisionError else Ok (whole (length indices) batch_size)
  end.

(** Lines 280-294 and 371-384: len of the data loader. The rule is torch's: the length of the sampler divided by the batch size, rounded up
    (drop_last=False); the balanced loader hands over 2 * batch_size. *)
Definition loader_len (sampler_len batch_size : nat) : nat := (sampler_len + batch_size - 1) / batch_size.
Definition balanced_loader_len {Row} (d : ds Row) (batch_size : nat) (mode : sample_mode) : res nat :=
  n <- balanced_len d batch_size mode ;; Ok (loader_len n (2 * batch_size)).
Definition only_loader_len {Row} (d : ds Row) (batch_size : nat) (domain_used : option bool) : res nat :=
  n <- only_len d batch_size domain_used ;; Ok (loader_len n batch_size).
