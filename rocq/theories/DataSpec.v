(** Specification vocabulary for datasets. *)
From Coq Require Import String List ZArith QArith Bool Arith.
From Verif Require Import Np Labels PipeModel DataModel.
Import ListNotations.
Local Open Scope nat_scope.
Local Open Scope list_scope.

Section DataSpec.
  Context {R : Type}.
  Notation dom := (@dom R).
  Notation dataset := (@dataset R).

  (** The calls a user makes on a dataset. *)
  Inductive op := OAdd (d : dom) (name : option string) | OMerge (other : dataset) (mapping : option (dict string string)).

  Definition run_op (s : dataset) (o : op) : res dataset :=
    match o with OAdd d n => add_domain s d n | OMerge other m => merge s other m end.
  Definition run (ops : list op) : res dataset :=
    fold_left (fun r o => s <- r ;; run_op s o) ops (Ok empty_ds).

  (** The (name, data) pairs the calls register, in order: an unnamed domain is called "_" followed by its number. *)
  Definition new_name (mapping : option (dict string string)) (n : string) : string :=
    match mapping with
    | None => n
    | Some m => match dict_get String.eqb n m with Some x => x | None => n end
    end.
  Definition registered_by (before : list (string * dom)) (o : op) : list (string * dom) :=
    match o with
    | OAdd d (Some n) => [(n, d)]
    | OAdd d None => [(String.append "_" (string_of_nat (length before + 1)), d)]
    | OMerge other m =>
        flat_map (fun ni => match nth_error (ds_domains other) (snd ni - 1) with
                            | Some d => [(new_name m (fst ni), d)] | None => [] end) (ds_names other)
    end.
  Definition history (ops : list op) : list (string * dom) :=
    fold_left (fun h o => h ++ registered_by h o) ops [].

  (** Names given explicitly by the user. *)
  Definition explicit_names (o : op) : list string :=
    match o with
    | OAdd _ (Some n) => [n] | OAdd _ None => []
    | OMerge other m => map (fun ni => new_name m (fst ni)) (ds_names other)
    end.
  (** "_" followed by a number. *)
  Definition looks_generated (n : string) : Prop := exists k, n = String.append "_" (string_of_nat k).

  (** Datasets obtained by calls. *)
  Definition reachable (s : dataset) : Prop := exists ops, run ops = Ok s.

  (** [n] is the name of the domain registered [k]-th, with data [d]. *)
  Definition known (s : dataset) (n : string) (k : nat) (d : dom) : Prop :=
    In (n, k) (ds_names s) /\ 1 <= k /\ nth_error (ds_domains s) (k - 1) = Some d.

  (** Features and labels of a domain have the same length. *)
  Definition aligned (d : dom) : Prop :=
    match d_y d with Some y => length (snd y) = length (d_X d) | None => True end.

  (** Labels of a domain as packed without masking. *)
  Definition plain_labels (d : dom) : list val :=
    match d_y d with Some y => snd y | None => repeat (VNum (inject_Z (-1))) (length (d_X d)) end.

  (** The value that hides target labels: the user's mask, else -1 if the first target domain holds integers (or no
      labels), NaN if it holds floats. *)
  Definition mask_value (mask : option val) (tgts : list dom) : option val :=
    match mask with
    | Some m => Some m
    | None => match tgts with
              | [] => None
              | d :: _ => match d_y d with
                          | None => Some (VNum (inject_Z (-1)))
                          | Some (YInt, _) => Some (VNum (inject_Z (-1)))
                          | Some (YFloat, _) => Some VNan
                          | Some (YOther, _) => None
                          end
              end
    end.
End DataSpec.
