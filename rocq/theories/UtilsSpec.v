(** Specification vocabulary for the utils theorems (from UtilsModel only the argument types are used). *)
From Coq Require Import List ZArith QArith Bool Arith.
From Verif Require Import Np Labels Spec UtilsModel.
Import ListNotations.
Local Open Scope nat_scope.

(** A finite integer-valued label / a finite label that is not an integer. *)
Definition int_label (v : val) : Prop := exists q z, v = VNum q /\ (q == inject_Z z)%Q.
Definition finite_label (v : val) : Prop := exists q, v = VNum q.

(** Discrete labels: all finite integers. Continuous labels: some NaN, or all finite and one not an integer. *)
Definition discrete_labels (l : list val) : Prop := Forall int_label l.
Definition continuous_labels (l : list val) : Prop :=
  In VNan l \/ (Forall finite_label l /\ Exists (fun v => ~ int_label v) l).

(** Contents of an integer array are integers. *)
Definition int_rows (rows : list (list val)) : Prop :=
  Forall (Forall (fun v => exists z, v = VNum (inject_Z z))) rows.
Definition wf_arr (a : arr) : Prop := a_dt a = DInt -> int_rows (a_rows a).

(** [m] is the merge of [s] and [t] along [sd]: as many rows as labels, the source rows at the source
    positions in order, the target rows at the target positions in order. *)
Definition merged (sd : list Z) (s t m : list (list val)) : Prop :=
  length m = length sd /\ rows_of is_source sd m = s /\ rows_of is_target sd m = t.

(** Arrays of a pair list in the calling convention of source_target_merge. *)
Definition interleave (ps : list (arr * arr)) : list (option arr) :=
  flat_map (fun p => [Some (fst p); Some (snd p)]) ps.

(** Two distinct labels satisfying [p] occur. *)
Definition multi (p : Z -> bool) (sd : list Z) : Prop :=
  exists a b, a <> b /\ In a sd /\ In b sd /\ p a = true /\ p b = true.
Definition some_label (p : Z -> bool) (sd : list Z) : Prop := exists a, In a sd /\ p a = true.
(** Some label is used with both signs. *)
Definition common_idx (sd : list Z) : Prop := exists d, d <> 0%Z /\ In d sd /\ In (- d)%Z sd.

(** Expected output of the split for one array. *)
Definition split_spec {A} (sd : list Z) (a : option (list A)) : list (option (list A)) :=
  match a with
  | None => [None; None]
  | Some xs => [Some (rows_of is_source sd xs); Some (rows_of is_target sd xs)]
  end.

(** Both arrays of the pair are non-empty and have the same trailing shape. *)
Definition good_pair (p : arr * arr) : Prop :=
  0 < a_size (fst p) /\ 0 < a_size (snd p) /\ a_tail (fst p) = a_tail (snd p).

(** None, or an array without rows. *)
Definition is_missing (a : option arr) : Prop := match a with None => True | Some x => a_len x = 0 end.

(** One row per label, at least one entry per row, integer dtype means integer contents. *)
Definition splittable (sd : list Z) (a : arr) : Prop :=
  a_len a = length sd /\ 0 < prod_tail (a_tail a) /\ wf_arr a.

(** The mask of each kind of labels. *)
Definition mask_of (ty : y_type) : val := match ty with DISCRETE => VNum (inject_Z (-1)) | CONTINUOUS => VNan end.

(** An integer 1-D array contains integers. *)
Definition wf_vals (dt : dtype) (l : list val) : Prop := dt = DInt -> Forall (fun v => exists z, v = VNum (inject_Z z)) l.

(** What the flag checks actually accept. *)
Definition flags_accept (f : flags) (sd : list Z) : Prop :=
  (f_source f = false -> ~ some_label is_source sd) /\
  (f_target f = false -> ~ some_label is_target sd) /\
  (f_multi_source f = false -> ~ multi is_source sd) /\
  (f_multi_target f = false -> ~ multi is_source sd) /\
  (f_common f = false -> ~ common_idx sd).

(** The labels in [allow_domains], literally or through the wildcard of their side. *)
Definition allowed (l : list adom) (d : Z) : Prop :=
  In (ADom d) l \/ ((0 <= d)%Z /\ In APosInf l) \/ ((d < 0)%Z /\ In ANegInf l).

(** Effective labels of check_X_domain. *)
Definition eff_domain (n : nat) (sd : sd_arg) : list Z :=
  match sd with SDNone => repeat (-1)%Z n | SDScalar z => repeat z n | SDArr l => l end.

(** The rows of one domain. *)
Definition domain_rows {A} (sd : list Z) (d : Z) (a : option (list A)) : option (list A) :=
  match a with None => None | Some xs => Some (rows_of (Z.eqb d) sd xs) end.

(** What the documentation of the flags says. *)
Definition flags_documented (f : flags) (sd : list Z) : Prop :=
  (f_source f = false -> ~ some_label is_source sd) /\
  (f_target f = false -> ~ some_label is_target sd) /\
  (f_multi_source f = false -> ~ multi is_source sd) /\
  (f_multi_target f = false -> ~ multi is_target sd) /\
  (f_common f = false -> ~ common_idx sd).
