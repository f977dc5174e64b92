(** Specification vocabulary for the shorthands. *)
From Coq Require Import String List ZArith QArith Bool.
From Verif Require Import Np CtorModel FactModel.
Import ListNotations.
Local Open Scope list_scope.
Local Open Scope string_scope.

(** The shorthand called [n]. *)
Definition provided (n : string) (f : factory) : Prop := In (n, f) factories.
(** What the user gives under the name [k]. *)
Definition given (args : dict string pv) (k : string) : option pv := dict_get String.eqb k args.
(** The two parameters for which a value that counts as false stands for a default estimator. *)
Definition takes_estimator (k : string) : Prop := k = "weight_estimator" \/ k = "domain_classifier".
(** The regularisation LinearOTMapping documents as its default, _mapping.py line 494. *)
Definition documented_linear_reg : pv := PNum (1 # 100000000).
