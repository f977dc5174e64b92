(** OTLabelPropAdapter.fit_transform on labels as they are given, /repo/skada/_ot.py lines 811-857: the values of the source
    labels decide (line 828) between the two branches modelled in OTModel. *)
From Coq Require Import List ZArith QArith Qround Qreals Bool Arith Reals.
From Verif Require Import Np Labels UtilsModel SelectModel RVec OTModel.
Import ListNotations.
Local Open Scope list_scope.

(** A label as a class, line 830, and as a number, line 842. The labels of the targets are not read: NaN stands for 0 there. *)
Definition val_class (v : val) : Z := match v with VNum q => Qfloor q | _ => 0%Z end.
Definition val_number (v : val) : R := match v with VNum q => Q2R q | _ => 0%R end.
(** Lines 811-857; the labels returned, None for NaN. [plan]: lines 825-826. *)
Definition otlp_transform {Xrow} (plan : list Xrow -> list Xrow -> list R -> list R -> res (list (list R)))
           (X : list Xrow) (y : list val) (sw : option (list R)) (sd : list Z) : res (list (option R)) :=
  p <- otlp_parts X y sw sd ;;
  let '(_, _, ys, _, _) := p in
  ty <- find_y_type1 ys ;;
  match ty with
  | DISCRETE => r <- otlp_discrete plan X (map val_class y) sw sd ;; Ok (map (fun z => Some (IZR z)) r)
  | CONTINUOUS => otlp_regression plan X (map val_number y) sw sd
  end.
