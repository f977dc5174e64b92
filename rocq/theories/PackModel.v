(** Model of DomainAwareDataset.pack in /repo/skada/datasets/_base.py lines 285-413 for numpy arrays and torch tensors, with every
    return type. The names are already replaced by the number of the domain and its data (DataModel has the table of names); device
    placement is not modelled, labels are one-dimensional. *)
From Coq Require Import List ZArith QArith Bool Arith Lia.
From Verif Require Import Np Labels DataModel DeepModel.
Import ListNotations.
Local Open Scope nat_scope.
Local Open Scope list_scope.

Inductive kind := KNumpy | KTensor.
Definition is_tensor (k : kind) : bool := match k with KTensor => true | KNumpy => false end.
(** np.concatenate: tensors are converted to arrays; nothing to concatenate is a ValueError. *)
Definition np_concatenate {A} (l : list (kind * list A)) : res (list A) :=
  match l with [] => Err ValueError | _ => Ok (concat (map snd l)) end.
(** torch.cat: only tensors; an empty list is a RuntimeError. *)
Definition torch_cat {A} (l : list (kind * list A)) : res (list A) :=
  match l with [] => Err RuntimeError | _ => if forallb (fun b => is_tensor (fst b)) l then Ok (concat (map snd l)) else Err TypeError end.

Section Pack.
  Variable Row : Type.
  Variable row_ok : Row -> bool.
  (** One domain: features, and labels with the type of container and of entries. *)
  Record tdom := mkT { x_kind : kind; x_rows : list Row; y_given : option (kind * ydt * list val) }.
  (** Lines 304-310 and 321-329: a domain without labels gets a numpy array. *)
  Definition t_labels (d : tdom) : kind * ydt * list val :=
    match y_given d with
    | Some y => y
    | None => (KNumpy, YInt, repeat (VNum (inject_Z (-1))) (length (x_rows d)))
    end.
  (** Lines 330-340. The dtype of a tensor is not among the numpy types listed. *)
  Definition t_mask (st : option val * option ydt) (d : tdom) : (kind * list val) * (option val * option ydt) :=
    let n := length (x_rows d) in
    let '(k, dt, y) := t_labels d in
    match fst st with
    | Some m => ((KNumpy, repeat (match snd st with Some YInt => cast DInt m | _ => m end) n), st)
    | None =>
        match k, dt with
        | KNumpy, YInt => ((KNumpy, repeat (VNum (inject_Z (-1))) n), (Some (VNum (inject_Z (-1))), Some YInt))
        | KNumpy, YFloat => ((KNumpy, repeat VNan n), (Some VNan, Some YFloat))
        | _, _ => ((k, y), st)
        end
    end.
  Definition block := (kind * list Row * (kind * list val) * list Z)%type.
  (** Lines 301-315. *)
  Definition source_block (p : nat * tdom) : block :=
    let '(k, _, y) := t_labels (snd p) in
    (x_kind (snd p), x_rows (snd p), (k, y), repeat (Z.of_nat (fst p)) (length y)).
  (** Lines 317-345. *)
  Fixpoint target_blocks (masking : bool) (st : option val * option ydt) (l : list (nat * tdom)) : list block :=
    match l with
    | [] => []
    | (i, d) :: l' =>
        let '(y, st') := if masking then t_mask st d else (let '(k, _, y) := t_labels d in (k, y), st) in
        (x_kind d, x_rows d, y, repeat (- Z.of_nat i)%Z (length (snd y))) :: target_blocks masking st' l'
    end.
  Inductive rtype := RAuto | RArray | RTensor | RDeep | RBunch | RInvalid.
  Inductive pk := PkArrays (X : list Row) (y : list val) (sd : list Z) | PkTensors (X : list Row) (y : list val) (sd : list Z)
                | PkBunch (X : list Row) (y : list val) (sd : list Z) | PkDeep (d : ds Row).
  (** Lines 349-413; sample domains are numpy arrays, lines 374-380 turn them into tensors. *)
  Definition cat3 (cat : forall A, list (kind * list A) -> res (list A)) (b : list block) : res (list Row * list val * list Z) :=
    X <- cat Row (map (fun t : block => fst (fst t)) b) ;;
    y <- cat val (map (fun t : block => snd (fst t)) b) ;;
    Ok (X, y, concat (map snd b)).
  Definition pack_any (sources targets : list (nat * tdom)) (masking : bool) (rt : rtype) (mask : option val) : res pk :=
    let b := map source_block sources ++ target_blocks masking (mask, None) targets in
    let rt := match rt with
              | RAuto => match b with (KTensor, _, _, _) :: _ => RTensor | _ => RArray end
              | _ => rt
              end in
    match rt with
    | RAuto => Err ValueError
    | RArray => r <- cat3 (@np_concatenate) b ;; let '(X, y, sd) := r in Ok (PkArrays X y sd)
    | RTensor => r <- cat3 (@torch_cat) b ;; let '(X, y, sd) := r in Ok (PkTensors X y sd)
    | RDeep => r <- cat3 (@torch_cat) b ;; let '(X, y, sd) := r in d <- dataset Row row_ok X (Some y) (DomArr sd) None ;; Ok (PkDeep d)
    | RBunch => r <- cat3 (@np_concatenate) b ;; let '(X, y, sd) := r in Ok (PkBunch X y sd)
    | RInvalid => Err ValueError
    end.
End Pack.
Arguments mkT {Row}. Arguments x_kind {Row}. Arguments x_rows {Row}. Arguments y_given {Row}. Arguments pack_any {Row}.
Arguments PkArrays {Row}. Arguments PkTensors {Row}. Arguments PkBunch {Row}. Arguments PkDeep {Row}.
