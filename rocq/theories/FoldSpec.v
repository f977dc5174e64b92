(** Specification vocabulary for C209: folds holding samples of both sides, and the documented behaviour of
    scikit-learn's allocation of samples to groups. *)
From Coq Require Import List ZArith Bool Arith.
From Verif Require Import Np SplitModel SplitSpec.
Import ListNotations.
Local Open Scope nat_scope.

(** The indices contain a source sample and a target sample. *)
Definition both_sides (sd : list Z) (l : list nat) : Prop :=
  (exists i, In i l /\ i < length sd /\ (0 <= label sd i)%Z) /\ (exists j, In j l /\ j < length sd /\ (label sd j < 0)%Z).

(** Both parts of a fold do. *)
Definition whole_fold (sd : list Z) (r : list nat * list nat) : Prop := both_sides sd (fst r) /\ both_sides sd (snd r).

(** [out] shares [n] samples between groups of sizes [counts] as sklearn.utils.extmath._approximate_mode does: every
    group gets its proportional share rounded down, and those samples still missing go one by one to the groups with the
    largest fractional parts. The order among equal fractional parts (a random choice) is left open. *)
Definition mode_of (counts : list nat) (n : nat) (out : list nat) : Prop :=
  length out = length counts /\ total out = n /\
  exists extra : list nat, length extra = length counts /\
    (forall k, k < length counts ->
       nth k extra 0 <= 1 /\ nth k out 0 = n * nth k counts 0 / total counts + nth k extra 0) /\
    (forall k l, k < length counts -> l < length counts -> nth k extra 0 = 1 -> nth l extra 0 = 0 ->
       (n * nth l counts 0) mod total counts <= (n * nth k counts 0) mod total counts).

(** One draw of StratifiedDomainShuffleSplit whose allocations are those: the training samples are shared between the
    groups, then the test samples between what remains of them. *)
Definition fair_draw (rows gs : list (Z * Z)) (n_train n_test : nat) (d : strat_draw) : Prop :=
  draw_ok rows gs n_train n_test d /\
  mode_of (map (group_size rows) gs) n_train (dr_n d) /\
  mode_of (map (fun p => group_size rows (fst p) - snd p) (combine gs (dr_n d))) n_test (dr_t d).
