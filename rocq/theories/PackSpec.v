(** What packing should give. *)
From Coq Require Import List ZArith QArith Bool Arith.
From Verif Require Import Np Labels PackModel.
Import ListNotations.
Local Open Scope nat_scope.
Local Open Scope list_scope.

Section PackSpec.
  Context {Row : Type}.
  (** Every domain holds tensors, with one label for every row. *)
  Definition tensors (l : list (nat * tdom Row)) : Prop :=
    Forall (fun p => x_kind (snd p) = KTensor /\ exists dt y, y_given (snd p) = Some (KTensor, dt, y) /\ length y = length (x_rows (snd p))) l.
  Definition arrays (l : list (nat * tdom Row)) : Prop := Forall (fun p => x_kind (snd p) = KNumpy) l.
  (** Features, labels and domain labels of the domains one after the other. *)
  Definition features (l : list (nat * tdom Row)) : list Row := flat_map (fun p => x_rows (snd p)) l.
  Definition labels (l : list (nat * tdom Row)) : list val := flat_map (fun p => match y_given (snd p) with Some (_, _, y) => y | None => [] end) l.
  Definition signed (s : Z) (l : list (nat * tdom Row)) : list Z := flat_map (fun p => repeat (s * Z.of_nat (fst p))%Z (length (x_rows (snd p)))) l.
End PackSpec.
