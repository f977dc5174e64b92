(** Specification vocabulary for the views of a DeepDADataset and its histories. *)
From Coq Require Import List ZArith QArith Bool Arith Reals.
From Verif Require Import Np Labels DeepModel DeepSpec ViewModel.
Import ListNotations.
Local Open Scope nat_scope.

(** Two datasets with the same samples, labels, domains and weights. *)
Definition same_content {Row} (a b : ds Row) : Prop :=
  t_X _ a = t_X _ b /\ t_y _ a = t_y _ b /\ t_sd _ a = t_sd _ b /\ t_w _ a = t_w _ b.

(** One label, one domain per sample, label flags set where the label is known, accepted rows; nothing is said of weights and numbers. *)
Record rows_aligned {Row} (row_ok : Row -> bool) (d : ds Row) : Prop := mkAligned {
  ra_y : length (t_y _ d) = length (t_X _ d);
  ra_sd : length (t_sd _ d) = length (t_X _ d);
  ra_has : t_has_y _ d = map (fun v => negb (val_eqb_q v (inject_Z (-1)))) (t_y _ d);
  ra_rows : forall x, In x (t_X _ d) -> row_ok x = true }.

(** The datasets merged by a history, in order. *)
Definition merged {Row} (os : list (op Row)) : list (ds Row) := flat_map (fun o => match o with OpMerge b _ => [b] | _ => [] end) os.
(** Only consistent datasets are merged. *)
Definition sane {Row} (row_ok : Row -> bool) (os : list (op Row)) : Prop := Forall (consistent row_ok) (merged os).
(** The calls of the history that raise nothing. *)
Fixpoint all_succeed {Row} (os : list (op Row)) (d : ds Row) : Prop :=
  match os with [] => True | o :: os => snd (step d o) = Ok tt /\ all_succeed os (fst (step d o)) end.
