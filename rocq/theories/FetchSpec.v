(** What the loaders of real data sets should return. *)
From Coq Require Import List ZArith Bool Arith Permutation.
From Verif Require Import FetchModel.
Import ListNotations.
Local Open Scope nat_scope.

(** The files of a domain the user asked for. *)
Definition wanted {Row} (dom : Z) (cats : option (list Z)) (f : ofile Row) : Prop :=
  of_dom Row f = dom /\ of_match Row f = true /\ match cats with None => True | Some l => In (of_cat Row f) l end.

(** [l'] selects the elements of [l] satisfying [P], in any order, each as often as it occurs. *)
Inductive selects {A B} (P : A -> Prop) (g : A -> B) : list A -> list B -> Prop :=
| sel_nil : selects P g [] []
| sel_yes : forall x l b1 b2, P x -> selects P g l (b1 ++ b2) -> selects P g (x :: l) (b1 ++ g x :: b2)
| sel_no : forall x l b, ~ P x -> selects P g l b -> selects P g (x :: l) b.

(** A shuffling: the positions 0 .. n-1 in some order. *)
Definition shuffling (pm : nat -> list nat) : Prop := forall n, Permutation (pm n) (seq 0 n).
