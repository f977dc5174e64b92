(** Specification vocabulary for selectors (from SelectModel only the data types are used). *)
From Coq Require Import String List ZArith QArith Bool Arith Lia.
From Verif Require Import Np Labels Spec UtilsModel SelectModel.
Import ListNotations.
Local Open Scope nat_scope.
Local Open Scope list_scope.

(** The entries of [xs] at the positions where the corresponding entry of [bs] satisfies [p]. *)
Definition filter_by {A B} (p : B -> bool) (bs : list B) (xs : list A) : list A :=
  map snd (filter (fun q => p (fst q)) (combine bs xs)).

(** A label that is kept: not the mask -1 (discrete) / finite (continuous). *)
Definition keep_discrete (v : val) : bool :=
  match v with VNum q => negb (Qeq_bool q (inject_Z (-1))) | _ => true end.
Definition keep_continuous (v : val) : bool := match v with VNum _ => true | _ => false end.

(** A parameter after keeping the positions of [bs] satisfying [p]: per-sample arrays are filtered, anything
    else is unchanged. *)
Definition param_filter {B} (p : B -> bool) (bs : list B) (v : pval) : pval :=
  match v with
  | PArr l => if length l =? length bs then PArr (filter_by p bs l) else v
  | PDom l => if length l =? length bs then PDom (filter_by p bs l) else v
  | _ => v
  end.
Definition params_filter {B} (p : B -> bool) (bs : list B) (ps : params) : params :=
  map (fun kv => (fst kv, param_filter p bs (snd kv))) ps.

(** The domain labels are among the parameters an estimator receives. *)
Definition gets_domains (ps : params) : Prop := In "sample_domain"%string (map fst ps).

(** No Python list of exactly [n] elements among the parameters. *)
Definition no_pylist (n : nat) (ps : params) : Prop := forall k l, In (k, PPyList l) ps -> length l <> n.

(** Every parameter is an array with one entry per sample. *)
Definition per_sample (n : nat) (v : pval) : Prop :=
  match v with PArr l => length l = n | PDom l => length l = n | _ => False end.

(** The labels after masking the target samples. *)
Definition mask_targets (mask : val) (sd : list Z) (y : list val) : list val :=
  map (fun dv => if is_source (fst dv) then snd dv else mask) (combine sd y).

(** The sample positions addressed by a domain index; a usable index addresses distinct positions below n. *)
Definition index_list (i : dindex) : list nat :=
  match i with IInt l => l | IMask m => flatnonzero m end.

Definition good_index (n : nat) (i : dindex) : Prop :=
  match i with IInt l => NoDup l /\ Forall (fun j => j < n) l | IMask m => length m = n end.

(** The part of a per-sample parameter that belongs to domain [d]. *)
Definition param_rows (d : Z) (sd : list Z) (v : pval) : pval :=
  match v with PArr l => PArr (rows_of (Z.eqb d) sd l) | PDom l => PDom (rows_of (Z.eqb d) sd l) | _ => v end.

Definition params_rows (d : Z) (sd : list Z) (ps : params) : params :=
  map (fun kv => (fst kv, param_rows d sd (snd kv))) ps.

(** Which domain labels a SelectSource ([true]) / SelectTarget ([false]) step keeps. *)
Definition side_of (side : bool) : Z -> bool := if side then is_source else is_target.

(** Parts of a step output; the last value given to a parameter, and the labels in force, after a sequence of
    step outputs. *)
Definition out_X {R} (o : @step_out R) : list R :=
  match o with OArr X => X | OPair X _ => X | OTriple X _ _ => X end.
Definition out_params {R} (o : @step_out R) : params :=
  match o with OArr _ => [] | OPair _ ps => ps | OTriple _ _ ps => ps end.

Fixpoint last_param {R} (k : string) (outs : list (@step_out R)) : option pval :=
  match outs with
  | [] => None
  | o :: outs' => match last_param k outs' with
                  | Some v => Some v
                  | None => dict_get String.eqb k (out_params o)
                  end
  end.

Fixpoint last_labels {R} (outs : list (@step_out R)) (y : option (list val)) : option (list val) :=
  match outs with
  | [] => y
  | OTriple _ y' _ :: outs' => last_labels outs' y'
  | _ :: outs' => last_labels outs' y
  end.

(** Both label vectors are discrete, or both are continuous. *)
Definition same_kind (is_discrete is_continuous : list val -> Prop) (y1 y2 : list val) : Prop :=
  (is_discrete y1 /\ is_discrete y2) \/ (is_continuous y1 /\ is_continuous y2).
