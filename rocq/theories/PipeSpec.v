(** Specification vocabulary for pipelines. *)
From Coq Require Import String Ascii List Bool Arith.
From Verif Require Import Np PipeModel.
Import ListNotations.
Local Open Scope nat_scope.
Local Open Scope list_scope.

(** How often [n] occurs in a list of names. *)
Definition occurrences (n : string) (names : list string) : nat := count_occ string_dec names n.

(** The documented name of the step at position [i]: the class name if it occurs once, else the class name, a dash
    and the rank of the occurrence (1, 2, 3, ... in pipeline order). *)
Definition auto_name (names : list string) (i : nat) : string :=
  let n := nth i names EmptyString in
  if occurrences n names =? 1 then n
  else String.append n (String.append "-" (string_of_nat (occurrences n (firstn (S i) names)))).

Fixpoint has_dash (s : string) : Prop :=
  match s with EmptyString => False | String c s' => c = "-"%char \/ has_dash s' end.

(** The flat sequence of (user name, wrapped estimator or existing selector) a list of steps stands for. *)
Definition flat_step (s : step) : list (option string * item) :=
  match s with
  | SEst n e => [(n, IEst e)]
  | SSel n i => [(n, ISel i)]
  | SPipe n p => map (fun ni => (Some (match n with
                                       | Some m => String.append m (String.append "__" (fst ni))
                                       | None => fst ni end), ISel (snd ni))) p
  end.

(** The selector objects already existing among the steps (through nested pipelines). *)
Definition nested_ids (steps : list step) : list nat :=
  flat_map (fun s => match s with SPipe _ p => map snd p | SSel _ i => [i] | SEst _ _ => [] end) steps.

Definition no_bare_selector (steps : list step) : Prop :=
  forall n i, ~ In (SSel n i) steps.

(** Masking setting of the wrapped estimators in order: the given setting until the first estimator that predicts
    target labels, off from there on. *)
Definition no_predictor_upto (items : list item) (i : nat) : Prop :=
  forall j e, j <= i -> nth_error items j = Some (IEst e) -> e_predicts e = false.
