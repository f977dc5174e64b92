(** Model of DomainAwareDataset, /repo/skada/datasets/_base.py lines 84-597, for numpy data with 1-D labels.
    Torch tensors and the DeepDADataset return type are not modelled here. *)
From Coq Require Import String List ZArith QArith Bool Arith Lia.
From Verif Require Import Np Labels PipeModel.
Import ListNotations.
Local Open Scope nat_scope.
Local Open Scope list_scope.

(** Label dtypes as the masking code distinguishes them (lines 333, 337): int32/int64, float32/float64, any other
    (int8, uint8, bool, object, ...). *)
Inductive ydt := YInt | YFloat | YOther.

Section Data.
  Context {R : Type}.

  (** One registered domain: [(X, y)] or [(X,)]. *)
  Record dom := mkDom { d_X : list R; d_y : option (ydt * list val) }.

  (** The attributes [domains_] and [domain_names_]. *)
  Record dataset := mkDS { ds_domains : list dom; ds_names : dict string nat }.

  Definition empty_ds : dataset := mkDS [] [].

  (** The generated name, line 147. *)
  Definition auto_domain_name (k : nat) : string := String.append "_" (string_of_nat k).

  (** [add_domain], lines 122-151. *)
  Definition add_domain (s : dataset) (d : dom) (name : option string) : res dataset :=
    n <- match name with
         | Some n => match dict_get String.eqb n (ds_names s) with Some _ => Err AssertionError | None => Ok n end
         | None => Ok (auto_domain_name (length (ds_names s) + 1))
         end ;;
    let domain_id := length (ds_domains s) + 1 in
    Ok (mkDS (ds_domains s ++ [d]) (dict_set String.eqb n domain_id (ds_names s))).

  (** [get_domain], lines 181-196. *)
  Definition get_domain (s : dataset) (n : string) : res dom :=
    k <- dict_getitem String.eqb n (ds_names s) ;;
    match nth_error (ds_domains s) (k - 1) with Some d => Ok d | None => Err IndexError end.

  (** [merge], lines 153-179: [X, y = get_domain(...)] is a ValueError on an X-only domain. The two datasets are
      different objects. [names_mapping] maps names to names (None values are not modelled). *)
  Fixpoint merge_names (s other : dataset) (mapping : option (dict string string)) (names : list string) : res dataset :=
    match names with
    | [] => Ok s
    | n :: names' =>
        d <- get_domain other n ;;
        match d_y d with
        | None => Err ValueError
        | Some _ =>
            let n' := match mapping with
                      | None => n
                      | Some m => match dict_get String.eqb n m with Some x => x | None => n end
                      end in
            s' <- add_domain s d (Some n') ;;
            merge_names s' other mapping names'
        end
    end.
  Definition merge (s other : dataset) (mapping : option (dict string string)) : res dataset :=
    merge_names s other mapping (map fst (ds_names other)).

  (** The constructor on a list of tuples, lines 105-120: [C2]/[C3] tuples of length 2/3, [CBad] any other length. The
      loop variables keep their value from the previous iteration ([prev]). *)
  Inductive ctor_dom := C2 (d : dom) | C3 (d : dom) (name : option string) | CBad.
  Fixpoint ctor_loop (s : dataset) (prev : option (dom * option string)) (l : list ctor_dom) : res dataset :=
    match l with
    | [] => Ok s
    | c :: l' =>
        p <- match c, prev with
             | C2 d, _ => Ok (d, None)
             | C3 d n, _ => Ok (d, n)
             | CBad, Some p => Ok p
             | CBad, None => Err UnboundLocalError
             end ;;
        s' <- add_domain s (fst p) (snd p) ;;
        ctor_loop s' (Some p) l'
    end.
  Definition make_dataset (l : list ctor_dom) : res dataset := ctor_loop empty_ds None l.

  (** ** pack, lines 220-413 *)

  (** [-np.ones(X.shape[0], dtype=np.int32)] for an X-only domain, lines 306 and 325. *)
  Definition labels_of (d : dom) : ydt * list val :=
    match d_y d with
    | Some y => y
    | None => (YInt, repeat (VNum (inject_Z (-1))) (length (d_X d)))
    end.

  (** The accumulated lists Xs, ys, sample_domains and the dictionary domain_labels, already concatenated. *)
  Record acc := mkAcc { p_X : list R; p_y : list val; p_sd : list Z; p_names : dict string Z }.

  (** Loop over the sources, lines 301-315. [np.ones_like(y, dtype=int) * domain_id] has the length of y. *)
  Fixpoint pack_sources (s : dataset) (names : list string) (a : acc) : res acc :=
    match names with
    | [] => Ok a
    | n :: names' =>
        k <- dict_getitem String.eqb n (ds_names s) ;;
        d <- get_domain s n ;;
        let y := snd (labels_of d) in
        pack_sources s names'
          (mkAcc (p_X a ++ d_X d) (p_y a ++ y) (p_sd a ++ repeat (Z.of_nat k) (length y))
                 (dict_set String.eqb n (Z.of_nat k) (p_names a)))
    end.

  (** Masking of one target domain, lines 330-340: the new labels and the (mask, dtype) pair reused afterwards. *)
  Definition mask_target (st : option val * option ydt) (d : dom) : list val * (option val * option ydt) :=
    let n := length (d_X d) in
    match fst st with
    | Some m => (repeat (match snd st with Some YInt => cast DInt m | _ => m end) n, st)
    | None =>
        match fst (labels_of d) with
        | YInt => (repeat (VNum (inject_Z (-1))) n, (Some (VNum (inject_Z (-1))), Some YInt))
        | YFloat => (repeat VNan n, (Some VNan, Some YFloat))
        | YOther => (snd (labels_of d), st)
        end
    end.

  (** Loop over the targets, lines 317-345. *)
  Fixpoint pack_targets (s : dataset) (masking : bool) (st : option val * option ydt) (names : list string) (a : acc)
    : res acc :=
    match names with
    | [] => Ok a
    | n :: names' =>
        k <- dict_getitem String.eqb n (ds_names s) ;;
        d <- get_domain s n ;;
        let '(y, st') := if masking then mask_target st d else (snd (labels_of d), st) in
        pack_targets s masking st' names'
          (mkAcc (p_X a ++ d_X d) (p_y a ++ y) (p_sd a ++ repeat (- Z.of_nat k)%Z (length y))
                 (dict_set String.eqb n (- Z.of_nat k)%Z (p_names a)))
    end.

  Inductive return_type := RTAuto | RTArray | RTBunch | RTInvalid.
  Inductive packed := PArrays (X : list R) (y : list val) (sd : list Z)
                    | PBunch (X : list R) (y : list val) (sd : list Z) (names : dict string Z).

  (** [pack]: the deprecated arguments return_X_y and train override return_type and mask_target_labels (lines
      287-300); [np.concatenate] of no array is a ValueError (lines 362-364, 400-402). *)
  Definition pack (s : dataset) (as_sources as_targets : list string) (masking : bool) (return_X_y : option bool)
             (rt : return_type) (train : option bool) (mask : option val) : res packed :=
    let rt1 := match return_X_y with Some true => RTArray | Some false => RTBunch | None => rt end in
    let masking1 := match train with Some b => b | None => masking end in
    a1 <- pack_sources s as_sources (mkAcc [] [] [] []) ;;
    a <- pack_targets s masking1 (mask, None) as_targets a1 ;;
    let none := (length as_sources + length as_targets =? 0) in
    match rt1 with
    | RTAuto | RTArray => if none then Err ValueError else Ok (PArrays (p_X a) (p_y a) (p_sd a))
    | RTBunch => if none then Err ValueError else Ok (PBunch (p_X a) (p_y a) (p_sd a) (p_names a))
    | RTInvalid => Err ValueError
    end.

  (** [pack_train], [pack_test], [pack_lodo], lines 416-555. *)
  Definition pack_train s srcs tgts rxy mask := pack s srcs tgts true (Some rxy) RTAuto None mask.
  Definition pack_test s tgts rxy := pack s [] tgts false (Some rxy) RTAuto None None.
  Definition pack_lodo s rxy rt := pack s (map fst (ds_names s)) (map fst (ds_names s)) true rxy rt None None.
End Data.

(** [select_domain], lines 587-597: [functools.reduce] over no element is a TypeError. *)
Definition select_domain (names : dict string Z) (sd : list Z) (domains : list string) : res (list bool) :=
  let col n := k <- dict_getitem String.eqb n names ;; Ok (map (fun x => (x =? k)%Z) sd) in
  match domains with
  | [] => Err TypeError
  | n :: ns =>
      m0 <- col n ;;
      fold_left (fun acc n' => a <- acc ;; m <- col n' ;; Ok (map (fun p => fst p || snd p) (combine a m))) ns (Ok m0)
  end.
