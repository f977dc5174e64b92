(** Specification vocabulary for the prediction methods of the provided estimators. *)
From Coq Require Import String List Bool.
From Verif Require Import Np Sel2Model WrapModel.
Import ListNotations.
Local Open Scope list_scope.

(** An ordinary sklearn estimator: [score] takes a sample_weight (None by default), the other methods take no keyword argument. *)
Definition ordinary {V Out} (result : meth -> option V -> Out) (i : inner V Out) : Prop :=
  forall m kws, i_call i m kws =
    match m with
    | MScore => if forallb (fun kv => String.eqb (fst kv) "sample_weight") kws then Ok (result MScore (given "sample_weight" kws)) else Err TypeError
    | _ => match kws with [] => Ok (result m None) | _ => Err TypeError end
    end.
(** The methods a class documents. *)
Definition documented (c : est_class) (m : meth) : Prop :=
  match c, m with
  | JdotReg, (MPredict | MScore) | JdotClf, (MPredict | MProba | MScore) | Dasvm, (MPredict | MProba | MDecision | MScore)
  | Gradual, (MPredict | MProba | MLogProba | MScore) => True
  | _, _ => False
  end.
(** Domain information: the only keywords are sample_domain and allow_source. *)
Definition domain_info {V} (ps : kwargs V) : Prop := Forall (fun kv => fst kv = "sample_domain"%string \/ fst kv = "allow_source"%string) ps.
