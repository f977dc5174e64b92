(** Vocabulary of C163 and C164: the same samples in another order. *)
From Coq Require Import List ZArith Permutation.
From Verif Require Import Np.
Import ListNotations.

(** Two data sets hold the same samples, each with its domain label, in possibly different orders. *)
Definition same_samples {A} (sd : list Z) (X : list A) (sd' : list Z) (X' : list A) : Prop :=
  length sd = length X /\ length sd' = length X' /\ Permutation (combine sd X) (combine sd' X').
(** The samples received the same values: together with its domain and its value, every sample occurs as often in both. *)
Definition same_values {A B} (sd : list Z) (X : list A) (v : list B) (sd' : list Z) (X' : list A) (v' : list B) : Prop :=
  length v = length X /\ length v' = length X' /\ Permutation (combine (combine sd X) v) (combine (combine sd' X') v').
(** The order of the list does not matter to [f]. *)
Definition order_blind {A B} (f : list A -> B) : Prop := forall l l', Permutation l l' -> f l = f l'.
(** A fitted model that treats every row on its own. *)
Definition on_each_row {A B} (e : list A -> res (list B)) : Prop := exists f, forall l, e l = Ok (map f l).
(** [X'] consists of the [m] first rows of [X], in another order. *)
Definition shuffled {B} (m : nat) (X X' : nat -> nat -> B) : Prop :=
  exists p, Permutation (map p (seq 0 m)) (seq 0 m) /\ forall i j, X' i j = X (p i) j.
