(** Model of /repo/skada/utils.py lines 26-602. *)
From Coq Require Import List ZArith QArith Bool Arith Lia.
From Verif Require Import Np Labels.
Import ListNotations.

(** [extract_source_indices], /repo/skada/utils.py lines 235-256. [check_array] rejects an empty array
    (ensure_min_samples=1). The cast to int32 is not modelled. *)
Definition source_mask (sd : list Z) : list bool := map (fun d => (0 <=? d)%Z) sd.
Definition extract_source_indices (sd : list Z) : res (list bool) :=
  if (length sd =? 0)%nat then Err ValueError else Ok (source_mask sd).

(** [extract_domains_indices] with split_source_target=False, /repo/skada/utils.py lines 259-299.
    The dictionary is an association list in insertion (= sorted label) order. *)
Definition extract_domains_indices (sd : list Z) : res (dict Z (list nat)) :=
  if (length sd =? 0)%nat then Err ValueError
  else Ok (map (fun d => (d, flatnonzero (map (fun x => (x =? d)%Z) sd))) (unique sd)).

(** [extract_domains_indices] with split_source_target=True, /repo/skada/utils.py lines 293-297. *)
Definition extract_domains_indices_st (sd : list Z)
  : res (dict Z (list nat) * dict Z (list nat)) :=
  d <- extract_domains_indices sd ;;
  Ok (filter (fun kv => (0 <=? fst kv)%Z) d, filter (fun kv => (fst kv <? 0)%Z) d).

Section Split.
  (** [A]: an array; [sel]: indexing it with a boolean mask; [tk]: indexing it with integers. *)
  Context {A : Type} (sel : list bool -> A -> res A) (tk : list nat -> A -> res A).

  (** [(a[source_idx], a[~source_idx])], or (None, None), /repo/skada/utils.py lines 329-332. *)
  Definition split_one (m : list bool) (a : option A) : res (list (option A)) :=
    match a with
    | None => Ok [None; None]
    | Some xs => s <- sel m xs ;; t <- sel (map negb m) xs ;; Ok [Some s; Some t]
    end.

  (** [source_target_split], /repo/skada/utils.py lines 302-333. [check_consistent_length(arrays)]
      receives the tuple as one single object and never fails, hence is absent. *)
  Definition split_gen (arrays : list (option A)) (sd : list Z) : res (list (option A)) :=
    raise_if (length arrays =? 0)%nat ValueError
      (m <- extract_source_indices sd ;;
       parts <- mapM (split_one m) arrays ;;
       Ok (concat parts)).

  (** [a[idx] if a is not None else None], /repo/skada/utils.py lines 371-379. *)
  Definition take_opt (idx : list nat) (a : option A) : res (option A) :=
    match a with None => Ok None | Some xs => r <- tk idx xs ;; Ok (Some r) end.

  (** [per_domain_split], /repo/skada/utils.py lines 335-381. *)
  Definition per_domain_gen (arrays : list (option A)) (sd : list Z)
    : res (dict Z (list (option A)) * dict Z (list (option A))) :=
    raise_if (length arrays =? 0)%nat ValueError
      (di <- extract_domains_indices sd ;;
       parts <- mapM (fun kv => r <- mapM (take_opt (snd kv)) arrays ;; Ok (fst kv, r)) di ;;
       Ok (filter (fun kv => (0 <=? fst kv)%Z) parts,
           filter (fun kv => negb (0 <=? fst kv)%Z) parts)).
End Split.

(** The two functions on arrays seen as lists of rows of an arbitrary type. *)
Definition source_target_split {A} := @split_gen (list A) np_select.
Definition per_domain_split {A} := @per_domain_gen (list A) np_take.

(** [a[m]] on an array with dtype. *)
Definition arr_select (m : list bool) (a : arr) : res arr :=
  r <- np_select m (a_rows a) ;; Ok (mkArr (a_dt a) (a_tail a) r).

(** [source_target_split] on arrays with dtype. *)
Definition source_target_split_arr := split_gen arr_select.

(** ** source_target_merge *)

(** [np.array([])] *)
Definition empty_arr : arr := mkArr DFloat [] [].

Definition tail_eqb (a b : list nat) : bool :=
  if list_eq_dec Nat.eq_dec a b then true else false.

(** Normalisation of one array, /repo/skada/utils.py lines 455-459: None or zero rows becomes
    [np.array([])]. *)
Definition norm_arr (a : option arr) : arr :=
  match a with
  | None => empty_arr
  | Some x => if (a_len x =? 0)%nat then empty_arr else x
  end.

(** First loop body, /repo/skada/utils.py lines 454-469. *)
Definition check_pair (p : option arr * option arr) : res (arr * arr) :=
  let s := norm_arr (fst p) in
  let t := norm_arr (snd p) in
  if (a_size s =? 0)%nat && (a_size t =? 0)%nat then Err ValueError
  else if negb (a_size s =? 0)%nat && negb (a_size t =? 0)%nat && negb (tail_eqb (a_tail s) (a_tail t))
       then Err ValueError
       else Ok (s, t).

(** [np.zeros_like(template, dtype=dt)] with [n] rows. *)
Definition zero_rows (tl : list nat) (n : nat) : list (list val) :=
  repeat (repeat (VNum 0) (prod_tail tl)) n.

(** [_merge_arrays], /repo/skada/utils.py lines 562-602. [np.concatenate] needs equal trailing shapes.
    Assigned values are cast to the dtype of the output. *)
Definition merge_arrays (s t : arr) (sd : list Z) : res arr :=
  let ms := source_mask sd in
  let mt := map (fun d => (d <? 0)%Z) sd in
  let castr dt rows := map (map (cast dt)) rows in
  if (0 <? a_len s)%nat && (0 <? a_len t)%nat then
    if tail_eqb (a_tail s) (a_tail t) then
      o1 <- np_setmask ms (castr (a_dt s) (a_rows s)) (zero_rows (a_tail s) (a_len s + a_len t)) ;;
      o2 <- np_setmask mt (castr (a_dt s) (a_rows t)) o1 ;;
      Ok (mkArr (a_dt s) (a_tail s) o2)
    else Err ValueError
  else if (0 <? a_len s)%nat then
    o <- np_setmask ms (castr (a_dt s) (a_rows s)) (zero_rows (a_tail s) (a_len s)) ;;
    Ok (mkArr (a_dt s) (a_tail s) o)
  else
    o <- np_setmask mt (castr (a_dt t) (a_rows t)) (zero_rows (a_tail t) (a_len t)) ;;
    Ok (mkArr (a_dt t) (a_tail t) o).

(** Value filled in for a missing half, /repo/skada/utils.py lines 519-533: a float array of masks. *)
Definition fill_missing (given : arr) (n_missing : nat) : res arr :=
  ty <- find_y_type given ;;
  let m := match ty with DISCRETE => mask_cls | CONTINUOUS => mask_reg end in
  Ok (mkArr DFloat (a_tail given) (repeat (repeat m (prod_tail (a_tail given))) n_missing)).

(** Second loop body, /repo/skada/utils.py lines 501-548. When both tests of lines 505-509 fire the
    second one wins, so the target half is the one that is completed. *)
Definition merge_pair (sd : list Z) (p : arr * arr) : res arr :=
  let (s, t) := p in
  let n := length sd in
  st <- (if (a_size t =? 0)%nat then
           if (0 <? n - a_len s)%nat then (t' <- fill_missing s (n - a_len s) ;; Ok (s, t')) else Ok (s, t)
         else if (a_size s =? 0)%nat then
           if (0 <? n - a_len t)%nat then (s' <- fill_missing t (n - a_len t) ;; Ok (s', t)) else Ok (s, t)
         else Ok (s, t)) ;;
  let (s', t') := st : arr * arr in
  if negb (a_len s' =? count (source_mask sd))%nat
     || negb (a_len t' =? count (map negb (source_mask sd)))%nat
  then Err ValueError
  else merge_arrays s' t' sd.

Fixpoint pairs_of {A} (l : list A) : list (A * A) :=
  match l with a :: b :: l' => (a, b) :: pairs_of l' | _ => [] end.

(** Inferred sample_domain, /repo/skada/utils.py lines 472-490. *)
Definition infer_domain (ps : list (arr * arr)) (sd : option (list Z)) : list Z :=
  let dflt := match ps with
              | (s, t) :: _ => repeat default_source_domain (a_len s)
                               ++ repeat default_target_domain (a_len t)
              | [] => []
              end in
  match sd with
  | None => dflt
  | Some l => if (length l =? 0)%nat then dflt else l
  end.

(** [source_target_merge], /repo/skada/utils.py lines 384-550. The warning is not modelled. *)
Definition source_target_merge (arrays : list (option arr)) (sd : option (list Z))
  : res (list arr * list Z) :=
  if (length arrays <? 2)%nat then Err ValueError
  else if negb (length arrays mod 2 =? 0)%nat then Err ValueError
  else
    ps <- mapM check_pair (pairs_of arrays) ;;
    let sd' := infer_domain ps sd in
    _m <- extract_source_indices sd' ;;
    ms <- mapM (merge_pair sd') ps ;;
    Ok (ms, sd').

(** ** check_X_y_domain / check_X_domain *)

(** The [sample_domain] argument: None, a scalar, or an array. *)
Inductive sd_arg := SDNone | SDScalar (z : Z) | SDArr (l : list Z).

(** Element of the [allow_domains] set: a label or one of the wildcards +inf / -inf. *)
Inductive adom := ADom (z : Z) | APosInf | ANegInf.

Definition adom_eqb (a b : adom) : bool :=
  match a, b with
  | ADom x, ADom y => (x =? y)%Z
  | APosInf, APosInf | ANegInf, ANegInf => true
  | _, _ => false
  end.

Record flags := mkFlags {
  f_domains : option (list adom);
  f_source : bool;
  f_multi_source : bool;
  f_target : bool;
  f_multi_target : bool;
  f_common : bool;
  f_auto : bool
}.

(** Number of distinct labels selected by a mask: [np.unique(sample_domain[m]).shape[0]]. *)
Definition n_unique_where (m : list bool) (sd : list Z) : nat := length (unique (select m sd)).

(** The flag checks shared by both functions, /repo/skada/utils.py lines 100-127 and 206-230. Note that
    the multi-target test looks at the number of *sources*. *)
Definition check_flags (f : flags) (sd : list Z) : res (list Z) :=
  let ns := n_unique_where (source_mask sd) sd in
  let nt := n_unique_where (map negb (source_mask sd)) sd in
  raise_if (negb (f_source f) && (0 <? ns)%nat) ValueError
  (raise_if (negb (f_target f) && (0 <? nt)%nat) ValueError
  (raise_if (negb (f_multi_source f) && (1 <? ns)%nat) ValueError
  (raise_if (negb (f_multi_target f) && (1 <? ns)%nat) ValueError
  (raise_if (negb (f_common f) &&
             negb (length (unique sd) =? length (unique (map Z.abs (unique sd))))%nat) ValueError
  (Ok sd))))).

(** The [allow_domains] check, /repo/skada/utils.py lines 198-203. *)
Definition check_allow_domains (f : flags) (sd : list Z) : bool :=
  match f_domains f with
  | None => true
  | Some l =>
      forallb (fun d => existsb (adom_eqb (ADom d)) l
                        || existsb (adom_eqb (if (0 <=? d)%Z then APosInf else ANegInf)) l) (unique sd)
  end.

(** [check_X_domain], /repo/skada/utils.py lines 133-232; [n] is the number of rows of X, the only thing
    about X that matters here ([check_array] rejects n = 0); the returned X is the argument. *)
Definition check_X_domain (n : nat) (sd : sd_arg) (f : flags) : res (list Z) :=
  if (n =? 0)%nat then Err ValueError
  else
    sd0 <- match sd with
           | SDNone => if f_auto f then Ok (repeat default_target_only_domain n) else Err ValueError
           | SDScalar z => Ok (repeat z n)
           | SDArr l => Ok l
           end ;;
    _m <- extract_source_indices sd0 ;;
    if negb (length sd0 =? n)%nat then Err ValueError
    else if negb (check_allow_domains f sd0) then Err ValueError
    else check_flags f sd0.

(** [check_X_y_domain], /repo/skada/utils.py lines 26-129, for 1-D labels. There is no [allow_domains]
    parameter ([f_domains] is ignored) and no length check of [sample_domain]. *)
Definition check_X_y_domain (n : nat) (y : list val) (sd : sd_arg) (allow_label_masks : bool) (f : flags)
  : res (list Z) :=
  if (n =? 0)%nat then Err ValueError
  else if (length y =? 0)%nat then Err ValueError
  else if negb allow_label_masks && negb (forallb is_finite y) then Err ValueError
  else if negb (n =? length y)%nat then Err ValueError
  else
    sd0 <- match sd with
           | SDNone =>
               if f_auto f then
                 ty <- check_y_masking y ;;
                 let m := match ty with
                          | DISCRETE => map (fun v => val_eqb_q v mask_cls_q) y
                          | CONTINUOUS => map is_nan y
                          end in
                 np_setmask_scalar m default_target_domain (repeat default_source_domain (length y))
               else Err ValueError
           | SDScalar z => Ok (repeat z (length y))
           | SDArr l => Ok l
           end ;;
    _m <- extract_source_indices sd0 ;;
    check_flags f sd0.
