(** Domain labels as the caller writes them: Python sequences and arrays, before the conversion to int32 that the other models leave out.
    Models /repo/skada/utils.py lines 80-129, 133-299 and 384-490 as far as they depend on how sample_domain is given. *)
From Coq Require Import List ZArith QArith Qabs Bool Arith Lia.
From Verif Require Import Np Labels UtilsModel.
Import ListNotations.
Local Open Scope nat_scope.
Local Open Scope list_scope.

(** The argument sample_domain: left out, a number, a numpy array or a Python list/tuple of numbers. *)
Inductive dom_given := GNone | GScalar (v : val) | GArray (l : list val) | GList (l : list val).

(** C conversion of a finite number to int32: the fraction is cut off and the number taken modulo 2^32 (numpy's astype of an integer array).
    For floats beyond the range of int32 the C standard leaves the result open; the theorems use the conversion within the range and for integers. *)
Definition wrap32 (z : Z) : Z := ((z + 2 ^ 31) mod 2 ^ 32 - 2 ^ 31)%Z.
Definition int32 (v : val) : Z := match v with VNum q => wrap32 (Z.quot (Qnum q) (Zpos (Qden q))) | _ => 0%Z end.

(** [check_array(sample_domain, dtype=np.int32, ensure_2d=False)], lines 248-253 and 280-285: an empty argument and NaN or infinite entries are refused (external code of sklearn). *)
Definition to_int32 (l : list val) : res (list Z) :=
  if length l =? 0 then Err ValueError else if forallb is_finite l then Ok (map int32 l) else Err ValueError.

(** [extract_source_indices], lines 235-256: [array-like]. *)
Definition source_indices (l : list val) : res (list bool) := z <- to_int32 l ;; Ok (map (fun d => (0 <=? d)%Z) z).
(** [extract_domains_indices], lines 259-299, split_source_target=False. *)
Definition domains_indices (l : list val) : res (dict Z (list nat)) := z <- to_int32 l ;; extract_domains_indices z.

(** np.unique of finite numbers, as a set: only the number of different entries and their membership matter below. *)
Definition val_same (a b : val) : bool := match a, b with VNum p, VNum q => Qeq_bool p q | _, _ => false end.
Fixpoint distinct (l : list val) : list val := match l with [] => [] | x :: l' => if existsb (val_same x) l' then distinct l' else x :: distinct l' end.
Definition val_abs (v : val) : val := match v with VNum q => VNum (Qabs q) | VNan => VNan | VInf _ => VInf false end.

(** Lines 100-129 and 210-230: the tests on the labels as they were given, with the roles found after the conversion. *)
Definition given_flags (f : flags) (m : list bool) (l : list val) : res (list val) :=
  let ns := length (distinct (select m l)) in
  let nt := length (distinct (select (map negb m) l)) in
  raise_if (negb (f_source f) && (0 <? ns)) ValueError
  (raise_if (negb (f_target f) && (0 <? nt)) ValueError
  (raise_if (negb (f_multi_source f) && (1 <? ns)) ValueError
  (raise_if (negb (f_multi_target f) && (1 <? ns)) ValueError
  (raise_if (negb (f_common f) && negb (length (distinct l) =? length (distinct (map val_abs (distinct l))))) ValueError
  (Ok l))))).

(** [domain not in allow_domains and wildcard not in allow_domains], lines 203-208. *)
Definition given_allowed (f : flags) (l : list val) : bool :=
  match f_domains f with
  | None => true
  | Some ds => forallb (fun v => existsb (fun a => match a with ADom z => val_same v (VNum (inject_Z z)) | _ => false end) ds
                                 || existsb (adom_eqb (if val_ltb_q v 0 then ANegInf else APosInf)) ds) l
  end.

(** [sample_domain[source_idx]], lines 106 and 210: a list or tuple cannot be indexed with an array. *)
Definition index_given (g : dom_given) : res unit := match g with GList _ => Err TypeError | _ => Ok tt end.

(** [check_X_domain], lines 133-232; a scalar beyond the range of int32 is not modelled (numpy 2 refuses it). *)
Definition check_X_given (n : nat) (g : dom_given) (f : flags) : res (list val) :=
  if n =? 0 then Err ValueError
  else
    l <- match g with
         | GNone => if f_auto f then Ok (repeat (VNum (inject_Z default_target_only_domain)) n) else Err ValueError
         | GScalar v => Ok (repeat v n)
         | GArray l | GList l => Ok l
         end ;;
    m <- source_indices l ;;
    if negb (length l =? n) then Err ValueError
    else if negb (given_allowed f l) then Err ValueError
    else _u <- index_given g ;; given_flags f m l.

(** [check_X_y_domain], lines 26-129, when sample_domain is given (otherwise see [UtilsModel.check_X_y_domain]); labels are 1-D. *)
Definition check_X_y_given (n : nat) (y : list val) (g : dom_given) (allow_label_masks : bool) (f : flags) : res (list val) :=
  if n =? 0 then Err ValueError
  else if length y =? 0 then Err ValueError
  else if negb allow_label_masks && negb (forallb is_finite y) then Err ValueError
  else if negb (n =? length y) then Err ValueError
  else match g with
       | GNone => sd <- check_X_y_domain n y SDNone allow_label_masks f ;; Ok (map (fun z => VNum (inject_Z z)) sd)
       | GScalar v => let l := repeat v (length y) in m <- source_indices l ;; given_flags f m l
       | GArray l => m <- source_indices l ;; given_flags f m l
       | GList l => m <- source_indices l ;; Err TypeError
       end.

(** [source_target_split], lines 302-333, on one array. *)
Definition split_given {A} (xs : list A) (l : list val) : res (list A * list A) :=
  m <- source_indices l ;; s <- np_select m xs ;; t <- np_select (map negb m) xs ;; Ok (s, t).

(** [source_target_merge], lines 474-475: [sample_domain.shape[0]] of a list is an AttributeError; then the array is converted as above. The rows are placed by the labels as given (lines 588-600), which agrees for labels within the range of int32, the only ones used below. *)
Definition merge_given (arrays : list (option arr)) (g : dom_given) : res (list arr) :=
  match g with
  | GNone => r <- source_target_merge arrays None ;; Ok (fst r)
  | GArray l => if length l =? 0 then r <- source_target_merge arrays None ;; Ok (fst r) else z <- to_int32 l ;; r <- source_target_merge arrays (Some z) ;; Ok (fst r)
  | GScalar _ | GList _ => if length arrays <? 2 then Err ValueError else if negb (length arrays mod 2 =? 0) then Err ValueError else _p <- mapM check_pair (pairs_of arrays) ;; Err AttributeError
  end.
