(** Specification vocabulary for self-labelling (DASVM) and gradual domain adaptation (C56-C59, C93-C97). *)
From Coq Require Import List ZArith Bool Arith Lia Reals Lra.
From Verif Require Import Np Labels RVec Spec.
Import ListNotations.
Local Open Scope nat_scope.

(** [i] is flagged in the mask [l]. *)
Definition flagged (l : list bool) (i : nat) : Prop := nth i l false = true.
Definition flags_count (l : list bool) : nat := length (filter (fun b => b) l).
(** [i] has the largest value of [d] among the candidates, the first one on ties. *)
Definition best (cand : nat -> Prop) (d : nat -> R) (i : nat) : Prop :=
  cand i /\ (forall j, cand j -> d j <= d i)%R /\ (forall j, cand j -> d j = d i -> i <= j).
(** The entries of [xs] whose flag is set. *)
Definition picked {A} (m : list bool) (xs : list A) : list A := map snd (filter (fun p => fst p) (combine m xs)).

(** [i] is the candidate with the largest signed decision value, or the one with the smallest. *)
Definition extreme (cand : nat -> Prop) (d : nat -> R) (i : nat) : Prop := best cand d i \/ best cand (fun j => - d j)%R i.
(** Decision value strictly inside the margin, on either side. *)
Definition within_margin (t : R) : Prop := (0 < Rabs t < 1)%R.

(** The classifiers DASVM goes through: the first one is trained on the source samples with their labels, each further one on some of
    the source samples with their labels and some of the target samples labelled by the previous classifier. *)
Inductive self_trained {Row Est} (fit : list Row -> list val -> res Est) (predict : Est -> Row -> val)
          (Xs Xt : list Row) (ys : list val) : nat -> Est -> Prop :=
| st_first e : fit Xs ys = Ok e -> self_trained fit predict Xs Xt ys 0 e
| st_next n e sm tm e' : self_trained fit predict Xs Xt ys n e -> length sm = length Xs -> length tm = length Xt ->
    fit (picked sm Xs ++ picked tm Xt) (picked sm ys ++ map (predict e) (picked tm Xt)) = Ok e' ->
    self_trained fit predict Xs Xt ys (S n) e'.

(** ** Gradual adaptation *)
(** Point at fraction [t / n] of the way from [a] to [b]. *)
Definition between (n t : nat) (a b : list R) : list R :=
  map2 (fun x y => (1 - INR t / INR n) * x + INR t / INR n * y)%R a b.
(** Entry of a matrix; pairs of positions whose entry is set, row by row. *)
Definition entry {A} (d : A) (M : list (list A)) (i j : nat) : A := nth j (nth i M []) d.
Definition set_pairs (M : list (list bool)) (n m : nat) : list (nat * nat) :=
  filter (fun p => entry false M (fst p) (snd p)) (list_prod (seq 0 n) (seq 0 m)).

(** The classifiers of gradual adaptation after [t] steps: trained on the sources, then at each step on the data [gen t] labelled by
    the previous classifier, with [mi t] as max_iter. *)
Inductive gradually_trained {Row Est} (fit : nat -> list Row -> list val -> res Est) (predict : Est -> Row -> val)
          (mi : nat -> nat) (Xs : list Row) (ys : list val) (gen : nat -> list Row) : nat -> Est -> Prop :=
| gt_first e : fit (mi 0) Xs ys = Ok e -> gradually_trained fit predict mi Xs ys gen 0 e
| gt_next t e e' : gradually_trained fit predict mi Xs ys gen t e ->
    fit (mi (S t)) (gen (S t)) (map (predict e) (gen (S t))) = Ok e' -> gradually_trained fit predict mi Xs ys gen (S t) e'.
