(** Vocabulary for the public fetch functions. *)
From Coq Require Import String Ascii List ZArith QArith Bool Arith.
From Verif Require Import Np Labels PipeModel DataModel.
Import ListNotations.
Local Open Scope nat_scope.
Local Open Scope list_scope.

(** The dataset holds exactly these domains, in this order: the i-th one has the number i. *)
Definition holds {Row} (s : @dataset Row) (l : list (string * @dom Row)) : Prop :=
  map fst (ds_names s) = map fst l /\
  forall i v d, nth_error l i = Some (v, d) -> nth_error (ds_names s) i = Some (v, S i) /\ get_domain s v = Ok d.

(** Two characters that differ at most in case: equal, or a capital ASCII letter and the small one. *)
Definition capital (c : ascii) : Prop := 65 <= nat_of_ascii c <= 90.
Inductive same_but_case : string -> string -> Prop :=
| sbc_end : same_but_case EmptyString EmptyString
| sbc_same : forall c s t, same_but_case s t -> same_but_case (String c s) (String c t)
| sbc_capital : forall c c' s t, capital c -> nat_of_ascii c' = nat_of_ascii c + 32 -> same_but_case s t -> same_but_case (String c s) (String c' t).

(** The labels of the domains called [names]. *)
Definition labels_under {Row} (s : @dataset Row) (names : list string) (y : list val) : Prop :=
  exists ds, Forall2 (fun n d => get_domain s n = Ok d) names ds /\ y = concat (map (fun d => match d_y d with Some l => snd l | None => [] end) ds).
