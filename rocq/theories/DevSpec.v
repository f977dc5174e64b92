(** Specification vocabulary for the importance-weighted validation score. *)
From Coq Require Import List ZArith QArith Bool Arith Lia Reals Lra.
From Verif Require Import Np Labels UtilsModel MapModel DevModel.
Import ListNotations.
Local Open Scope nat_scope.

(** A probability moved into [10^-15, 1 - 10^-15]. *)
Definition bounded_away (p q : R) : Prop :=
  (p < / 10 ^ 15 -> q = / 10 ^ 15)%R /\ (p > 1 - / 10 ^ 15 -> q = 1 - / 10 ^ 15)%R /\
  (/ 10 ^ 15 <= p <= 1 - / 10 ^ 15 -> q = p)%R.

(** [p] are the predicted probabilities of the classes, in the order of [classes]: the log-loss of label [y]. *)
Definition log_loss_of (classes : list Z) (p : list R) (y : Z) (l : R) : Prop :=
  exists i pi q, nth_error classes i = Some y /\ nth_error p i = Some pi /\ bounded_away pi q /\ l = (- ln q)%R.

(** Increasing, hence distinct, class labels, as fitted classifiers list them. *)
Definition increasing (classes : list Z) : Prop :=
  forall i j a b, i < j -> nth_error classes i = Some a -> nth_error classes j = Some b -> (a < b)%Z.

(** A row of probabilities. *)
Definition distribution (p : list R) : Prop := Forall (fun x => 0 <= x)%R p /\ fold_right Rplus 0%R p = 1%R.

(** [X] goes through the transforms [ts], each given the same domain labels, and comes out as [F]. *)
Inductive passed (sda : sd_arg) (allow : bool) : list transform_fn -> arr -> arr -> Prop :=
| passed_nil X : passed sda allow [] X X
| passed_cons t ts X Y F : t X sda allow = Ok Y -> passed sda allow ts Y F -> passed sda allow (t :: ts) X F.

(** A transform that ignores the domains. *)
Definition domain_free (t : transform_fn) : Prop := forall X sda allow sda' allow', t X sda allow = t X sda' allow'.
