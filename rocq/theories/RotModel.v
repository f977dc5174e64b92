(** The transforms of the subspace adapters on a row, /repo/skada/_subspace.py. *)
From Coq Require Import Reals Arith.
From Verif Require Import MapModel SubModel.
Local Open Scope nat_scope.

(** sklearn's [PCA.transform]: subtract the mean of the data the PCA was fitted on, multiply by the transposed components. [m] rows [X] of [d]
    features were fitted. whiten is False. *)
Definition pca_row (d m : nat) (X P : mat) (x : nat -> R) (a : nat) : R := msum d (fun j => (x j - col_mean m X j) * P a j)%R.
(** SubspaceAlignmentAdapter.transform, lines 138-139: a source row. *)
Definition sa_source_row (st : sa_state) (d ns : nat) (Xs : mat) (x : nat -> R) (c : nat) : R :=
  msum (sa_k st) (fun a => pca_row d ns Xs (sa_Ps st) x a * sa_M st a c)%R.
(** Lines 140-141: a target row. *)
Definition sa_target_row (st : sa_state) (d nt : nat) (Xt : mat) (x : nat -> R) (c : nat) : R := pca_row d nt Xt (sa_Pt st) x c.
(** TransferSubspaceLearningAdapter.transform, lines 945-948: a row of either domain. *)
Definition tsl_row (d : nat) (W : mat) (x : nat -> R) (c : nat) : R := msum d (fun j => x j * W j c)%R.
