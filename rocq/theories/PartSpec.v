(** Vocabulary of C170: giving an adapter a part of the samples. *)
From Coq Require Import List ZArith Reals.
From Verif Require Import Np Labels Spec.
Import ListNotations.

(** The elements of [l] whose flag in [keep] is set, in order. *)
Definition part {A} (keep : list bool) (l : list A) : list A := map snd (filter fst (combine keep l)).
Definition part_arr (keep : list bool) (X : arr) : arr := mkArr (a_dt X) (a_tail X) (part keep (a_rows X)).
(** The same values up to one positive factor. *)
Definition proportional (w w' : list R) : Prop := exists c, (0 < c)%R /\ w = map (Rmult c) w'.
