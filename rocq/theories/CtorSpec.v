(** Specification vocabulary for the life of an estimator's parameters (C131-C135). *)
From Coq Require Import String List ZArith QArith Bool Arith Lia.
From Verif Require Import Np CtorModel.
Import ListNotations.
Local Open Scope nat_scope.
Local Open Scope list_scope.

(** What a user means by an argument list: the value given, else the default. *)
Definition setting (ps : dict string (option pv)) (args : dict string pv) (k : string) : option pv :=
  match dict_get String.eqb k args with
  | Some v => Some v
  | None => match dict_get String.eqb k ps with Some d => d | None => None end
  end.
(** Only named parameters are given, and the required ones are. *)
Definition acceptable (ps : dict string (option pv)) (args : dict string pv) : Prop :=
  (forall k v, In (k, v) args -> In k (map fst ps)) /\
  (forall k, In (k, None) ps -> exists v, dict_get String.eqb k args = Some v).
Definition all_named (ps : dict string (option pv)) (args : dict string pv) : Prop := forall k v, In (k, v) args -> In k (map fst ps).

(** The history of pipelines: how many have been built, and the settings the user gave to the p-th one. *)
Fixpoint built (ops : list op) : nat := match ops with [] => 0 | Build :: l => S (built l) | SetParam _ _ _ :: l => built l end.
Fixpoint own_settings (default : dict string pv) (n p : nat) (ops : list op) (d : dict string pv) : dict string pv :=
  match ops with
  | [] => d
  | Build :: l => own_settings default (S n) p l (if n =? p then default else d)
  | SetParam q k v :: l => own_settings default n p l (if (q =? p) && (p <? n) then dict_set String.eqb k v d else d)
  end.
