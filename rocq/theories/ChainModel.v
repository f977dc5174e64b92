(** Model of fitting a pipeline of arbitrary selectors: those of /repo/skada/base.py composed by scikit-learn's Pipeline. *)
From Coq Require Import String List ZArith Bool Arith.
From Verif Require Import Np Labels UtilsModel SelectModel.
Import ListNotations.
Local Open Scope nat_scope.
Local Open Scope list_scope.

(** A step: the selector class, the parameters its estimators ask for ([_prepare_routing], /repo/skada/base.py lines 320-348), whether they
    have a transform method, mask_target_labels, and the value returned by the calls on the wrapped estimators, merged into one output
    ([_merge_domain_outputs], /repo/skada/_utils.py lines 174-215) for PerDomain and SelectSourceTarget. Routing and behaviour are oracles.
    [StShared]: lines 401-451; [StPerDomain]: 454-533; [StSource], [StTarget]: 536-600; [StBoth]: SelectSourceTarget, 603-764. *)
Inductive sel_step (R : Type) : Type :=
| StShared (route : params -> res params) (transformer mask : bool) (run : @call R -> res (@step_out R))
| StPerDomain (route : params -> res params) (transformer mask : bool) (run : dict Z (list nat * @call R) -> res (@step_out R))
| StSource (route : params -> res params) (transformer mask : bool) (run : @call R -> res (@step_out R))
| StTarget (route : params -> res params) (transformer : bool) (run : @call R -> res (@step_out R))
| StBoth (route_s route_t : params -> res params) (transformer : bool) (run : @call R * @call R -> res (@step_out R)).
Arguments StShared {R}. Arguments StPerDomain {R}. Arguments StSource {R}. Arguments StTarget {R}. Arguments StBoth {R}.

(** One fit_transform: the calls made on wrapped estimators, the label array of the caller afterwards (masking is in place; SelectSource and
    SelectTarget mask a copy) and the container handed to the next step. *)
Definition sel_step_fit {R} (s : sel_step R) (c : @container R) (y : option (list val)) (ps : params)
  : res (list (@call R) * option (list val) * @container R) :=
  match s with
  | StShared route tr mask run =>
      r <- shared_fit route tr mask c y ps ;;
      o <- run (snd r) ;;
      Ok ([snd r], fst r, merge_in c o)
  | StPerDomain route tr mask run =>
      r <- per_domain_fit route tr mask c y ps ;;
      o <- run (snd r) ;;
      Ok (map (fun dc => snd (snd dc)) (snd r), fst r, merge_in c o)
  | StSource route tr mask run =>
      r <- select_domain_fit route tr true mask c y ps ;;
      o <- run (snd r) ;;
      Ok ([snd r], y, merge_in (fst r) o)
  | StTarget route tr run =>
      r <- select_domain_fit route tr false false c y ps ;;
      o <- run (snd r) ;;
      Ok ([snd r], y, merge_in (fst r) o)
  | StBoth rs rt tr run =>
      r <- sst_fit rs rt tr c y ps ;;
      o <- run r ;;
      Ok ([fst r; snd r], y, merge_in c o)
  end.

(** scikit-learn's Pipeline._fit (external code): fit_transform of every step on the output of the previous one, with the same label array
    and parameters. Simplifications: every step receives the same parameters; the last step is treated like the others (its output is
    ignored). The result is the list of all calls on wrapped estimators. *)
Fixpoint sel_chain {R} (steps : list (sel_step R)) (c : @container R) (y : option (list val)) (ps : params) : res (list (list (@call R))) :=
  match steps with
  | [] => Ok []
  | s :: steps' =>
      r <- sel_step_fit s c y ps ;;
      let '(calls, y', c') := r in
      ks <- sel_chain steps' c' y' ps ;;
      Ok (calls :: ks)
  end.
