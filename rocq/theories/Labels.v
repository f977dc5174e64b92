(** Label values and numeric arrays with a dtype; model of label typing and masking.
    Models /repo/skada/_utils.py lines 25-171. *)
From Coq Require Import List ZArith QArith Bool Arith Lia.
From Verif Require Import Np.
Import ListNotations.

(** A numpy float/int scalar: a finite number, NaN, +inf or -inf.
    Simplification: finite numbers are exact rationals (no rounding, no overflow). *)
Inductive val := VNum (q : Q) | VNan | VInf (neg : bool).

(** dtype kinds that matter for masking and merging. *)
Inductive dtype := DInt | DFloat.

(** An array: dtype, shape[1:], and the rows, each flattened. A 1-D array has [a_tail = []] and
    one-element rows. *)
Record arr := mkArr { a_dt : dtype; a_tail : list nat; a_rows : list (list val) }.

Definition prod_tail (t : list nat) : nat := fold_right Nat.mul 1%nat t.
Definition a_len (a : arr) : nat := length (a_rows a).
(** [np.size(a)] *)
Definition a_size (a : arr) : nat := (a_len a * prod_tail (a_tail a))%nat.

(** 1-D array of labels. *)
Definition arr1 (dt : dtype) (l : list val) : arr := mkArr dt [] (map (fun v => [v]) l).

Definition is_nan (v : val) : bool := match v with VNan => true | _ => false end.
Definition is_finite (v : val) : bool := match v with VNum _ => true | _ => false end.

Definition q_integral (q : Q) : bool := (Z.rem (Qnum q) (Zpos (Qden q)) =? 0)%Z.
(** [v == v.astype(int)] *)
Definition is_integral (v : val) : bool := match v with VNum q => q_integral q | _ => false end.

(** numpy comparisons with a rational constant (NaN compares false). *)
Definition val_eqb_q (v : val) (q : Q) : bool := match v with VNum p => Qeq_bool p q | _ => false end.
Definition val_ltb_q (v : val) (q : Q) : bool :=
  match v with
  | VNum p => negb (Qle_bool q p)
  | VNan => false
  | VInf neg => neg
  end.

(** Cast of a scalar to a dtype on assignment (C truncation; NaN and infinities become the minimal
    int64, numpy on x86-64). *)
Definition cast (dt : dtype) (v : val) : val :=
  match dt, v with
  | DFloat, _ => v
  | DInt, VNum q => VNum (inject_Z (Z.quot (Qnum q) (Zpos (Qden q))))
  | DInt, _ => VNum (inject_Z (- 2 ^ 63))
  end.

(** Default domain labels and masks: /repo/skada/_utils.py lines 25-34. *)
Definition default_target_domain : Z := (-2)%Z.
Definition default_source_domain : Z := 1%Z.
Definition default_target_only_domain : Z := (-1)%Z.
Definition mask_cls_q : Q := inject_Z (-1).
Definition mask_cls : val := VNum mask_cls_q.
Definition mask_reg : val := VNan.

(** Y_Type, /repo/skada/_utils.py lines 37-39. *)
Inductive y_type := CONTINUOUS | DISCRETE.

(** [_find_y_type], /repo/skada/_utils.py lines 92-127, with sklearn's [type_of_target] inlined for
    real numeric arrays: an array whose first row does not exist is an IndexError ([y[0]]); more than two
    dimensions is 'unknown'; any non-integral float makes it 'continuous' (after a finiteness assertion,
    ValueError); otherwise 1-D and single-column arrays are 'binary'/'multiclass', and several columns
    'multilabel-indicator' or 'multiclass-multioutput', both rejected. *)
Definition find_y_type (y : arr) : res y_type :=
  let vs := concat (a_rows y) in
  if existsb is_nan vs then
    match a_tail y with [] => Ok CONTINUOUS | _ => Err ValueError end
  else
    match a_tail y with
    | _ :: _ :: _ => Err ValueError
    | _ =>
      if (a_len y =? 0)%nat then Err IndexError
      else if existsb (fun v => negb (is_integral v)) vs then
        if forallb is_finite vs then Ok CONTINUOUS else Err ValueError
      else match a_tail y with
           | [] => Ok DISCRETE
           | k :: _ => if (k =? 1)%nat then Ok DISCRETE else Err ValueError
           end
    end.

(** [_find_y_type] on a 1-D label array. *)
Definition find_y_type1 (y : list val) : res y_type := find_y_type (arr1 DFloat y).

(** [_check_y_masking], /repo/skada/_utils.py lines 59-89 (1-D labels). *)
Definition check_y_masking (y : list val) : res y_type :=
  t <- find_y_type1 y ;;
  match t with
  | CONTINUOUS => if existsb is_nan y then Ok CONTINUOUS else Err ValueError
  | DISCRETE =>
      if existsb (fun v => val_ltb_q v mask_cls_q) y || negb (existsb (fun v => val_eqb_q v mask_cls_q) y)
      then Err ValueError else Ok DISCRETE
  end.
