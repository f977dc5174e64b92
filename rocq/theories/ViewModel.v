(** Model of /repo/skada/deep/base.py: the array and dict views of a DeepDADataset, add_domain, and its operations that change the
    object, with the state they leave when they raise. *)
From Coq Require Import List ZArith Bool Arith Reals.
From Verif Require Import Np Labels RVec DeepModel.
Import ListNotations.
Local Open Scope nat_scope.
Local Open Scope list_scope.

Section View.
  Variable Row : Type.
  Variable row_ok : Row -> bool.
  Notation ds := (ds Row).

  (** base.py lines 1243-1267: a tuple of three or four tensors. *)
  Definition as_arrays (d : ds) (return_weights : bool) : list Row * list val * list Z * option (list R) :=
    (t_X _ d, t_y _ d, t_sd _ d, if has_weights _ d && return_weights then Some (t_w _ d) else None).

  (** Lines 1216-1241; a dict whose keys are among these five. *)
  Record dict := mkDict { k_X : option (list Row); k_y : option (list val); k_sd : option dom_arg; k_w : option (list R); k_idx : option (list nat) }.
  Definition as_dict (d : ds) (sample_indices : bool) : dict :=
    mkDict (Some (t_X _ d)) (Some (t_y _ d)) (Some (DomArr (t_sd _ d))) (if has_weights _ d then Some (t_w _ d) else None)
           (if sample_indices then Some (t_idx _ d) else None).

  (** Lines 976-978, 1005-1010 and 1012-1041: DeepDADataset(dict). An empty dict gives an empty dataset, a dict without "X" a
      ValueError; "sample_idx" is not read. *)
  Definition of_dict (k : dict) : res ds :=
    match k with
    | mkDict None None None None None => finish Row (mkDs Row [] [] [] [] [] [])
    | mkDict None _ _ _ _ => Err ValueError
    | mkDict (Some X) y sd w _ => dataset_dict Row row_ok X y sd w None DomNone None
    end.

  (** Lines 1182-1199. An iterable that is neither a dict nor a dataset is unpacked into the arguments of the constructor
      (at most the first four here: simplification); anything that cannot be unpacked is a TypeError. *)
  Inductive domain_arg :=
  | DSet (b : ds) | DDict (k : dict) | DTuple (X : list Row) (y : option (list val)) (sd : dom_arg) (w : option (list R)) | DNoIter.
  Definition add_domain (d : ds) (a : domain_arg) : res ds :=
    b <- match a with
         | DSet b => Ok b
         | DDict k => of_dict k
         | DTuple X y sd w => dataset Row row_ok X y sd w
         | DNoIter => Err TypeError
         end ;;
    merge Row row_ok d b false.

  (** Lines 1162-1168, 1148-1149, 1269-1277 (torch.unique sorts). *)
  Definition len (d : ds) : res nat := if is_correct Row d then Ok (length (t_X _ d)) else Err AssertionError.
  Definition is_empty (d : ds) : res bool := n <- len d ;; Ok (n =? 0).
  Definition domains (d : ds) : list Z := unique (t_sd _ d).

  (** ** Operations that change the object, with the state afterwards. *)
  Inductive op :=
  | OpMerge (b : ds) (keep_weights : bool) (* merge(b, keep_weights, out=False) *)
  | OpMergeOther                           (* merge of something that is not a DeepDADataset *)
  | OpAddWeights (w : option (list R))     (* None: check_array refuses the argument *)
  | OpRemoveWeights.
  (** Lines 1133-1146, 1464-1474, 1484-1487: the attributes are assigned before the assertion. *)
  Definition step (d : ds) (o : op) : ds * res unit :=
    match o with
    | OpMerge b kw =>
        let d' := mkDs Row (t_X _ d ++ t_X _ b) (t_y _ d ++ t_y _ b) (t_sd _ d ++ t_sd _ b) (merged_w Row kw d b)
                       (t_has_y _ d ++ t_has_y _ b) (t_idx _ d) in
        (d', if is_correct Row d' then Ok tt else Err AssertionError)
    | OpMergeOther => (d, Err TypeError)
    | OpAddWeights None => (d, Err ValueError)
    | OpAddWeights (Some w) =>
        let d' := mkDs Row (t_X _ d) (t_y _ d) (t_sd _ d) w (t_has_y _ d) (t_idx _ d) in
        (d', if is_correct Row d' then Ok tt else Err AssertionError)
    | OpRemoveWeights => (remove_weights Row d, Ok tt)
    end.
  (** A history in which the caller catches the exceptions. *)
  Definition run (os : list op) (d : ds) : ds := fold_left (fun d o => fst (step d o)) os d.
End View.
Arguments as_arrays {Row}. Arguments as_dict {Row}. Arguments of_dict {Row}. Arguments add_domain {Row}. Arguments len {Row}.
Arguments is_empty {Row}. Arguments domains {Row}. Arguments step {Row}. Arguments run {Row}.
Arguments DSet {Row}. Arguments DDict {Row}. Arguments DTuple {Row}. Arguments DNoIter {Row}.
Arguments OpMerge {Row}. Arguments OpMergeOther {Row}. Arguments OpAddWeights {Row}. Arguments OpRemoveWeights {Row}.
Arguments mkDict {Row}. Arguments k_X {Row}. Arguments k_y {Row}. Arguments k_sd {Row}. Arguments k_w {Row}. Arguments k_idx {Row}.
