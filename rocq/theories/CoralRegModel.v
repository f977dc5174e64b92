(** CORALAdapter.transform, /repo/skada/_mapping.py lines 899-930, with the matrices fitted for any value of reg (see coral_fit in CovModel). *)
From Coq Require Import Reals.
From Verif Require Import MapModel.

(** Lines 914-920, source rows: [c]: mean_source_, [W]: the product of cov_source_inv_sqrt_ and cov_target_sqrt_ (the code multiplies by one and then
    by the other). *)
Definition coral_rows (assume_centered : bool) (n : nat) (c : nat -> R) (W Z : mat) : mat :=
  mmul n (if assume_centered then Z else fun i j => (Z i j - c j)%R) W.
