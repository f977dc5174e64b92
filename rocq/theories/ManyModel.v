(** Several parameters set in one call (set_params(a=..., b__c=...), as done by every grid search): the selectors of /repo/skada/base.py lines 260-280 inside
    scikit-learn's Pipeline and BaseEstimator. Objects and paths as in NestModel; the arguments in the order in which they are given. *)
From Coq Require Import String List Bool Arith.
From Verif Require Import Np NestModel.
Import ListNotations.
Local Open Scope string_scope.
Local Open Scope list_scope.

Section Many.
  Variable V : Type.
  Notation obj := (obj V).
  Notation settings := (list (list string * obj)).

  (** The arguments "k__rest" for the name [k], without it. *)
  Definition tails (k : string) (kvs : settings) : settings :=
    flat_map (fun kv => match fst kv with h :: ((_ :: _) as r) => if String.eqb h k then [(r, snd kv)] else [] | _ => [] end) kvs.
  (** The names k of the arguments "k__rest", in the order in which they first occur. *)
  Definition heads (kvs : settings) : list string :=
    rev (nodup string_dec (rev (flat_map (fun kv => match fst kv with h :: _ :: _ => [h] | _ => [] end) kvs))).
  (** BaseEstimator.set_params: unknown names are refused; arguments without "__" are assigned at once (Pipeline: replaces the step). *)
  Fixpoint direct (kvs : settings) (l : list (string * obj)) : res (list (string * obj)) :=
    match kvs with
    | [] => Ok l
    | ([], _) :: t => direct t l
    | (k :: r, v) :: t => match dict_get String.eqb k l with
                          | None => Err ValueError
                          | Some _ => direct t (match r with [] => dict_set String.eqb k v l | _ => l end)
                          end
    end.
  (** The others are then passed on, name by name. *)
  Fixpoint nested (sub : settings -> obj -> res obj) (ks : list string) (kvs : settings) (l : list (string * obj)) : res (list (string * obj)) :=
    match ks with
    | [] => Ok l
    | k :: t => match dict_get String.eqb k l with
                | None => Err KeyError
                | Some x => x' <- sub (tails k kvs) x ;; nested sub t kvs (dict_set String.eqb k x' l)
                end
    end.
  Definition level (sub : settings -> obj -> res obj) (kvs : settings) (o : obj) : res obj :=
    let on l := l1 <- direct kvs l ;; nested sub (heads kvs) kvs l1 in
    match o with
    | Est l => l' <- on l ;; Ok (Est l')
    | Pipe l => l' <- on l ;; Ok (Pipe l')
    | _ => Err AttributeError
    end.
  (** Lines 277-279: a selector takes base_estimator (not None) first and then sets the other arguments on the estimator it has now. *)
  Definition new_base (kvs : settings) (b : obj) : obj :=
    match find (fun kv => is_base (fst kv)) kvs with None | Some (_, NoneObj) => b | Some (_, v) => v end.
  Definition others (kvs : settings) : settings := filter (fun kv => negb (is_base (fst kv))) kvs.
  (** [fuel]: one more than the length of the longest path, so that it is never used up. *)
  Fixpoint set_many (fuel : nat) (kvs : settings) (o : obj) : res obj :=
    match fuel with
    | 0 => Err RuntimeError
    | S n => match o with
             | Sel b => r <- within (level (set_many n) (others kvs)) (new_base kvs b) ;; Ok (Sel r)
             | _ => level (set_many n) kvs o
             end
    end.
  Definition set_params (kvs : settings) (o : obj) : res obj := set_many (S (list_max (map (fun kv => length (fst kv)) kvs))) kvs o.
End Many.
Arguments tails {V} k kvs. Arguments heads {V} kvs. Arguments direct {V} kvs l. Arguments nested {V} sub ks kvs l. Arguments level {V} sub kvs o.
Arguments new_base {V} kvs b. Arguments others {V} kvs. Arguments set_many {V} fuel kvs o. Arguments set_params {V} kvs o.
