(** Small specification vocabulary used in theorem statements. It does not use the models. *)
From Coq Require Import List ZArith Bool Arith.
Import ListNotations.

(** A sample is a source sample iff its domain label is non-negative. *)
Definition is_source (d : Z) : bool := (0 <=? d)%Z.
Definition is_target (d : Z) : bool := (d <? 0)%Z.

(** The rows of [xs] whose domain label satisfies [p], in input order. *)
Definition rows_of {A} (p : Z -> bool) (sd : list Z) (xs : list A) : list A :=
  map snd (filter (fun q => p (fst q)) (combine sd xs)).

(** The positions (in increasing order) at which [p] holds. *)
Definition positions {A} (p : A -> bool) (l : list A) : list nat :=
  map fst (filter (fun q => p (snd q)) (combine (seq 0 (length l)) l)).

(** Number of positions at which [p] holds. *)
Definition how_many {A} (p : A -> bool) (l : list A) : nat := length (filter p l).
