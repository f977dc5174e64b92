(** What a user expects of deep modules and nets, independently of hooks, dictionaries and copies. *)
From Coq Require Import String List ZArith QArith Bool Arith Reals.
From Verif Require Import Np RVec.
Import ListNotations.
Local Open Scope nat_scope.
Local Open Scope list_scope.

(** [out] is the output of the last call of the layer [l] among the calls listed in [calls]. *)
Definition last_output {T} (l : string) (calls : list (string * T)) (out : T) : Prop :=
  exists pre post, calls = pre ++ (l, out) :: post /\ ~ In l (map fst post).

(** Rows of probabilities. *)
Definition probabilities (r : list R) : Prop := Forall (fun p => 0 <= p <= 1)%R r /\ vsum r = 1%R.

(** [k] is the position of the first largest entry of a row. *)
Definition first_largest (r : list R) (k : nat) : Prop :=
  exists x, nth_error r k = Some x /\
            (forall j y, nth_error r j = Some y -> (y <= x)%R) /\
            (forall j y, j < k -> nth_error r j = Some y -> (y < x)%R).
