(** Specification vocabulary for the reweighting adapters. *)
From Coq Require Import List ZArith Bool Arith Reals.
From Verif Require Import Np Spec RVec FWModel.
Import ListNotations.
Local Open Scope nat_scope.

(** [w] carries the source weights [sw], in order, on the source samples and zero on every target sample. *)
Definition weights_at (sd : list Z) (w sw : list R) : Prop :=
  length w = length sd /\ rows_of is_source sd w = sw /\ Forall (fun t => t = 0%R) (rows_of is_target sd w).

(** An external row-wise function returns one value per row. *)
Definition row_wise {Row} (f : list Row -> res (list R)) : Prop := forall X r, f X = Ok r -> length r = length X.

(** Sum over centres of coefficient times kernel. *)
Definition kernel_sum {Row} (kern : Row -> Row -> R) (alpha : list R) (centers : list Row) (x : Row) : R :=
  vsum (map2 (fun a c => kern x c * a)%R alpha centers).

(** Sources and targets mirror each other: position i is a source iff position n-1-i is a target. *)
Definition mirrored (sd : list Z) : Prop :=
  forall i d e, nth_error sd i = Some d -> nth_error sd (length sd - 1 - i) = Some e -> is_source d = is_target e.

(** A row-wise neighbour rule: the predicted neighbour of each row is some index of a row of [Xs]. *)
Definition neighbour_rule {Row} (nn : list Row -> list Row -> res (list nat)) (near : list Row -> Row -> nat) : Prop :=
  forall Xs Xt, Xs <> [] -> nn Xs Xt = Ok (map (near Xs) Xt) /\ forall x, near Xs x < length Xs.

(** The smoothing term added to every neighbour count. *)
Definition laplace_term (b : bool) : R := if b then 1%R else 0%R.

(** The coefficient attached to class [c]; zero for an unknown class. *)
Fixpoint class_weight (classes : list Z) (alpha : list R) (c : Z) : R :=
  match classes, alpha with
  | c' :: classes', a :: alpha' => if Z.eqb c c' then a else class_weight classes' alpha' c
  | _, _ => 0%R
  end.
