(** Model of the masking helpers of /repo/skada/_utils.py (lines 130-215), of the metadata container and of the
    selectors of /repo/skada/base.py (lines 154-787).

    Rows of X are of an abstract type [R]; labels are 1-D. The sklearn metadata routing is an oracle
    [route : params -> res params]. Fitting is described by the arguments of the call made on the wrapped
    estimator. *)
From Coq Require Import String List ZArith QArith Bool Arith Lia.
From Verif Require Import Np Labels UtilsModel.
Import ListNotations.
Local Open Scope nat_scope.
Local Open Scope list_scope.

(** Value of a keyword parameter: a numeric ndarray, an ndarray of domain labels, a Python list, or an object
    without [__len__] (scalar, bool, None). *)
Inductive pval := PArr (l : list val) | PDom (l : list Z) | PPyList (l : list val) | POther (z : Z).

Definition params := dict string pval.

Definition p_get := @dict_get string pval String.eqb.

(** [len(v)] when defined. *)
Definition pv_len (v : pval) : option nat :=
  match v with
  | PArr l => Some (length l) | PDom l => Some (length l) | PPyList l => Some (length l) | POther _ => None
  end.

(** [v[masks]] for a boolean ndarray: a Python list does not support it. *)
Definition pv_select (m : list bool) (v : pval) : res pval :=
  match v with
  | PArr l => r <- np_select m l ;; Ok (PArr r)
  | PDom l => r <- np_select m l ;; Ok (PDom r)
  | PPyList _ => Err TypeError
  | POther _ => Err TypeError
  end.

(** [v[idx]] for an integer ndarray. *)
Definition pv_take (idx : list nat) (v : pval) : res pval :=
  match v with
  | PArr l => r <- np_take idx l ;; Ok (PArr r)
  | PDom l => r <- np_take idx l ;; Ok (PDom r)
  | PPyList _ => Err TypeError
  | POther _ => Err TypeError
  end.

Definition opt_map {A B} (f : A -> res B) (o : option A) : res (option B) :=
  match o with None => Ok None | Some a => b <- f a ;; Ok (Some b) end.

(** Map over the values of a parameter dictionary. *)
Definition map_params (f : pval -> res pval) (ps : params) : res params :=
  mapM (fun kv => v <- f (snd kv) ;; Ok (fst kv, v)) ps.

Section Row.
  Context {R : Type}.

  (** [_apply_domain_masks], /repo/skada/_utils.py lines 130-138. *)
  Definition apply_domain_masks (X : list R) (y : option (list val)) (ps : params) (m : list bool)
    : res (list R * option (list val) * params) :=
    X' <- np_select m X ;;
    y' <- opt_map (np_select m) y ;;
    ps' <- map_params (fun v => match pv_len v with
                                | Some k => if k =? length m then pv_select m v else Ok v
                                | None => Ok v
                                end) ps ;;
    Ok (X', y', ps').

  (** [_remove_masked], /repo/skada/_utils.py lines 141-171. *)
  Definition remove_masked (X : list R) (y : list val) (ps : params)
    : res (list R * option (list val) * params) :=
    ty <- find_y_type1 y ;;
    let m := match ty with
             | DISCRETE => map (fun v => negb (val_eqb_q v mask_cls_q)) y
             | CONTINUOUS => map is_finite y
             end in
    apply_domain_masks X (Some y) ps m.

  (** ** Merging per-domain outputs *)

  (** The index of a domain output: an integer array (PerDomain) or a boolean mask (SelectSourceTarget). *)
  Inductive dindex := IInt (idx : list nat) | IMask (m : list bool).

  (** [out[idx] = vals]. *)
  Definition set_index {A} (i : dindex) (vals out : list A) : res (list A) :=
    match i with IInt idx => np_setidx idx vals out | IMask m => np_setmask m vals out end.

  Fixpoint scatter_all {A} (outs : list (dindex * list A)) (out : list A) : res (list A) :=
    match outs with
    | [] => Ok out
    | (i, vals) :: outs' => o <- set_index i vals out ;; scatter_all outs' o
    end.

  (** [_merge_domain_outputs] on ndarray outputs, /repo/skada/_utils.py lines 174-176 and 208-215. [zero] is
      the zero row. *)
  Definition merge_domain_outputs {A} (zero : A) (n : nat) (outs : list (dindex * list A)) : res (list A) :=
    if length outs =? 0 then Err AssertionError
    else scatter_all outs (repeat zero n).

  (** A container output (X, y or None, params); the 2-tuple form has no y. *)
  Record cont_out := mkCO { co_X : list R; co_y : option (list val); co_params : dict string (list val) }.

  (** Loop body of /repo/skada/_utils.py lines 182-206 for y and one params entry: allocate zeros at the first
      occurrence, then scatter. *)
  Definition scatter_opt {A} (zero : A) (n : nat) (i : dindex) (v : list A) (cur : option (list A))
    : res (list A) :=
    set_index i v (match cur with Some o => o | None => repeat zero n end).

  Fixpoint scatter_params (n : nat) (i : dindex) (ps : dict string (list val)) (acc : dict string (list val))
    : res (dict string (list val)) :=
    match ps with
    | [] => Ok acc
    | (k, v) :: ps' =>
        o <- scatter_opt (VNum 0) n i v (dict_get String.eqb k acc) ;;
        scatter_params n i ps' (dict_set String.eqb k o acc)
    end.

  Fixpoint scatter_containers (zero : R) (n : nat) (outs : list (dindex * cont_out))
           (accX : list R) (accy : option (list val)) (accp : dict string (list val)) : res cont_out :=
    match outs with
    | [] => Ok (mkCO accX accy accp)
    | (i, c) :: outs' =>
        oX <- set_index i (co_X c) accX ;;
        oy <- match co_y c with
              | None => Ok accy
              | Some v => o <- scatter_opt (VNum 0) n i v accy ;; Ok (Some o)
              end ;;
        op <- scatter_params n i (co_params c) accp ;;
        scatter_containers zero n outs' oX oy op
    end.

  (** [_merge_domain_outputs] on container outputs with allow_containers=True, /repo/skada/_utils.py
      lines 177-207. *)
  Definition merge_domain_containers (zero : R) (n : nat) (outs : list (dindex * cont_out)) : res cont_out :=
    if length outs =? 0 then Err AssertionError
    else scatter_containers zero n outs (repeat zero n) None [].

  (** ** Metadata container, /repo/skada/base.py lines 154-202 *)

  Record container := mkC { c_X : list R; c_labels : option (list val); c_meta : params }.

  (** [from_input] on an array, lines 170-172. *)
  Definition from_array (X : list R) : container := mkC X None [].

  (** Output of a step's fit_transform: a bare array, (X, params), or (X, y, params); lines 175-191. *)
  Inductive step_out :=
  | OArr (X : list R)
  | OPair (X : list R) (ps : params)
  | OTriple (X : list R) (y : option (list val)) (ps : params).

  (** [merge_in], lines 175-191. Other output types raise ValueError in the code and are not representable. *)
  Definition merge_in (c : container) (o : step_out) : container :=
    match o with
    | OArr X => mkC X (c_labels c) (c_meta c)
    | OPair X ps => mkC X (c_labels c) (dict_update String.eqb (c_meta c) ps)
    | OTriple X y ps => mkC X y (dict_update String.eqb (c_meta c) ps)
    end.

  (** [merge_out], lines 193-196. *)
  Definition merge_out (c : container) (y : option (list val)) (ps : params)
    : list R * option (list val) * params :=
    (c_X c, match c_labels c with Some l => Some l | None => y end, dict_update String.eqb ps (c_meta c)).

  (** ** Selectors *)

  (** The [sample_domain] entry, when present and not None. *)
  Definition get_sd (ps : params) : option (list Z) :=
    match p_get "sample_domain"%string ps with Some (PDom l) => Some l | _ => None end.

  Definition has_key (k : string) (ps : params) : bool := match p_get k ps with Some _ => true | None => false end.

  (** [BaseSelector._auto_mask_target_labels], /repo/skada/base.py lines 350-358. The result is the content of
      the *same* label array after the call: the assignment is in place. *)
  Definition auto_mask (y : option (list val)) (ps : params) : res (option (list val)) :=
    match y, get_sd ps with
    | Some l, Some sd =>
        ty <- find_y_type1 l ;;
        m <- extract_source_indices sd ;;
        l' <- np_setmask_scalar (map negb m) (match ty with DISCRETE => mask_cls | CONTINUOUS => mask_reg end) l ;;
        Ok (Some l')
    | _, _ => Ok y
    end.

  (** [BaseSelector._remove_masked], /repo/skada/base.py lines 360-398. *)
  Definition sel_remove_masked (is_transformer : bool) (X : list R) (y : option (list val)) (rp : params)
    : res (list R * option (list val) * params) :=
    match y with
    | Some l => if negb is_transformer && negb (has_key "sample_domain" rp) then remove_masked X l rp
                else Ok (X, y, rp)
    | None => Ok (X, y, rp)
    end.

  (** The arguments of the call made on the (cloned) wrapped estimator. *)
  Record call := mkCall { k_X : list R; k_y : option (list val); k_params : params }.

  Section Selectors.
    (** Oracle: the parameters requested by the wrapped estimator's method among those given
        ([_prepare_routing], lines 320-348). *)
    Variable route : params -> res params.
    (** Does the wrapped estimator have a [transform] method. *)
    Variable is_transformer : bool.

    (** [Shared._fit], /repo/skada/base.py lines 426-439. Result: the caller's label array after the call, and
        the call made on the wrapped estimator. *)
    Definition shared_fit (mask : bool) (c : container) (y : option (list val)) (ps : params)
      : res (option (list val) * call) :=
      y1 <- (if mask then auto_mask y ps else Ok y) ;;
      let '(X, y2, ps2) := merge_out c y1 ps in
      rp <- route ps2 ;;
      r <- sel_remove_masked is_transformer X y2 rp ;;
      let '(X3, y3, rp3) := r in
      Ok (y1, mkCall X3 y3 rp3).

    (** Loop body of [PerDomain._fit], /repo/skada/base.py lines 477-485: the call for one domain. *)
    Definition domain_call (X : list R) (y : option (list val)) (rp : params) (sd : list Z) (d : Z)
      : res (Z * (list nat * call)) :=
      let idx := flatnonzero (map (fun x => (x =? d)%Z) sd) in
      X' <- np_take idx X ;;
      y' <- opt_map (np_take idx) y ;;
      rp' <- map_params (pv_take idx) rp ;;
      Ok (d, (idx, mkCall X' y' rp')).

    (** [PerDomain._fit], /repo/skada/base.py lines 466-488: one call per distinct label. A missing
        sample_domain is a KeyError. *)
    Definition per_domain_fit (mask : bool) (c : container) (y : option (list val)) (ps : params)
      : res (option (list val) * dict Z (list nat * call)) :=
      y1 <- (if mask then auto_mask y ps else Ok y) ;;
      let '(X, y2, ps2) := merge_out c y1 ps in
      sd <- match get_sd ps2 with Some sd => Ok sd | None => Err KeyError end ;;
      rp <- route ps2 ;;
      r <- sel_remove_masked is_transformer X y2 rp ;;
      let '(X3, y3, rp3) := r in
      calls <- mapM (domain_call X3 y3 rp3 sd) (unique sd) ;;
      Ok (y1, calls).

    (** [PerDomain._route_to_estimator] without y, /repo/skada/base.py lines 507-533. [ests] are the fitted
        estimators, [meth] the method (an oracle on the domain's rows and parameters). *)
    Definition per_domain_route {Est A} (zero : A) (meth : Est -> list R -> params -> res (list A))
               (ests : dict Z Est) (X : list R) (ps : params) : res (list A) :=
      rp <- route ps ;;
      sd <- match get_sd ps with Some sd => Ok sd | None => Err KeyError end ;;
      outs <- mapM (fun d =>
                match dict_get Z.eqb d ests with
                | None => Err ValueError
                | Some est =>
                    let idx := flatnonzero (map (fun x => (x =? d)%Z) sd) in
                    X' <- np_take idx X ;;
                    rp' <- map_params (pv_take idx) rp ;;
                    o <- meth est X' rp' ;;
                    Ok (IInt idx, o)
                end) (unique sd) ;;
      merge_domain_outputs zero (length X) outs.

    (** [_BaseSelectDomain._pre_filter] followed by [Shared._fit], /repo/skada/base.py lines 564-568; [side] is
        true for SelectSource (lines 580-584) and false for SelectTarget (lines 587-600).
        [extract_source_indices(None)] is a TypeError. The caller's label array is not modified since the mask
        indexing makes a copy. *)
    Definition select_domain_fit (side : bool) (mask : bool) (c : container) (y : option (list val)) (ps : params)
      : res (container * call) :=
      let '(X, y1, ps1) := merge_out c y ps in
      m <- match get_sd ps1 with Some sd => extract_source_indices sd | None => Err TypeError end ;;
      let fm := if side then m else map negb m in
      r <- apply_domain_masks X y1 ps1 fm ;;
      let '(X2, y2, ps2) := r in
      let c2 := merge_in c (OTriple X2 y2 ps2) in
      r2 <- shared_fit mask c2 y2 ps2 ;;
      Ok (c2, snd r2).

    (** Constructor check of SelectTarget and SelectSourceTarget, lines 594-595 and 612-613. *)
    Definition select_target_ctor (mask : bool) : res bool :=
      if mask then Err ValueError else Ok mask.
  End Selectors.

  Section SourceTarget.
    (** Routing oracles of the source and of the target estimator. *)
    Variables route_s route_t : params -> res params.
    Variable is_transformer : bool.

    Definition all_flags : flags := mkFlags None true true true true true true.

    (** The domain check of lines 696-699 / 742-745 (all flags default). *)
    Definition sst_domains (X : list R) (y : option (list val)) (ps : params) : res (list Z) :=
      let sda := match get_sd ps with Some l => SDArr l | None => SDNone end in
      match y with
      | Some l => check_X_y_domain (length X) l sda true all_flags
      | None => check_X_domain (length X) sda all_flags
      end.

    (** One iteration of the loop of lines 704-723. *)
    Definition sst_side (route : params -> res params) (X : list R) (y : option (list val)) (ps : params)
               (m : list bool) : res call :=
      if count m =? 0 then Err ValueError
      else
        r <- apply_domain_masks X y ps m ;;
        let '(X1, y1, ps1) := r in
        rp <- route ps1 ;;
        r2 <- sel_remove_masked is_transformer X1 y1 rp ;;
        let '(X2, y2, rp2) := r2 in
        Ok (mkCall X2 y2 rp2).

    (** [SelectSourceTarget._fit], /repo/skada/base.py lines 694-725: the calls on the source and on the target
        estimator. *)
    Definition sst_fit (c : container) (y : option (list val)) (ps : params) : res (call * call) :=
      let '(X, y1, ps1) := merge_out c y ps in
      sd <- sst_domains X y1 ps1 ;;
      let ps2 := dict_set String.eqb "sample_domain"%string (PDom sd) ps1 in
      m <- extract_source_indices sd ;;
      a <- sst_side route_s X y1 ps2 m ;;
      b <- sst_side route_t X y1 ps2 (map negb m) ;;
      Ok (a, b).

    (** One iteration of the loop of lines 749-763 for the prediction methods (no y): skipped when the side is
        absent. *)
    Definition sst_out {A} (route : params -> res params) (meth : list R -> params -> res (list A))
               (X : list R) (ps : params) (m : list bool) : res (list (dindex * list A)) :=
      if count m =? 0 then Ok []
      else
        r <- apply_domain_masks X None ps m ;;
        let '(X1, _, ps1) := r in
        rp <- route ps1 ;;
        o <- meth X1 rp ;;
        Ok [(IMask m, o)].

    (** [SelectSourceTarget._route_to_estimator] without y, /repo/skada/base.py lines 740-764. *)
    Definition sst_route {A} (zero : A) (meth_s meth_t : list R -> params -> res (list A))
               (X : list R) (ps : params) : res (list A) :=
      sd <- sst_domains X None ps ;;
      let ps2 := dict_set String.eqb "sample_domain"%string (PDom sd) ps in
      m <- extract_source_indices sd ;;
      a <- sst_out route_s meth_s X ps2 m ;;
      b <- sst_out route_t meth_t X ps2 (map negb m) ;;
      merge_domain_outputs zero (length X) (a ++ b).
  End SourceTarget.
End Row.

(** [_merge_domain_outputs] on ndarray outputs with their dtypes, /repo/skada/_utils.py lines 208-215: the
    result array has the dtype and trailing shape of the first output, and assignments cast to it. *)
Definition merge_domain_arrays (n : nat) (outs : list (dindex * arr)) : res arr :=
  match outs with
  | [] => Err AssertionError
  | (_, a0) :: _ =>
      r <- scatter_all (map (fun iv => (fst iv, map (map (cast (a_dt a0))) (a_rows (snd iv)))) outs)
                       (repeat (repeat (VNum 0) (fold_right Nat.mul 1 (a_tail a0))) n) ;;
      Ok (mkArr (a_dt a0) (a_tail a0) r)
  end.

(** Fitting a sequence of Shared steps as sklearn's Pipeline does (Pipeline._fit calls fit_transform of each
    step with the container returned by the previous one and with the *same* y object and parameters; external
    code). A step is (routing oracle, is_transformer, mask_target_labels, behaviour of the wrapped estimator as a
    function of the call it receives); see /repo/skada/base.py lines 412-424. The result is the list of calls.
    Simplification: every step receives the same parameters. *)
Record shared_step (R : Type) := mkStep {
  s_route : params -> res params; s_transformer : bool; s_mask : bool; s_run : @call R -> res (@step_out R) }.
Arguments mkStep {R}. Arguments s_route {R}. Arguments s_transformer {R}. Arguments s_mask {R}. Arguments s_run {R}.

Fixpoint shared_chain {R} (steps : list (shared_step R)) (c : @container R) (y : option (list val)) (ps : params)
  : res (list (@call R)) :=
  match steps with
  | [] => Ok []
  | s :: steps' =>
      r <- shared_fit (s_route s) (s_transformer s) (s_mask s) c y ps ;;
      let '(y', k) := r in
      o <- s_run s k ;;
      ks <- shared_chain steps' (merge_in c o) y' ps ;;
      Ok (k :: ks)
  end.
