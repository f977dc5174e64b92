(** Model of /repo/skada/_pipeline.py and of the selector attributes it reads and writes
    (/repo/skada/base.py lines 205-288).

    Selector objects live in a heap (a list; an object is its index), since make_da_pipeline mutates the selectors
    of nested pipelines. *)
From Coq Require Import String List ZArith Bool Arith Lia Decimal DecimalString DecimalNat.
From Verif Require Import Np.
Import ListNotations.
Local Open Scope nat_scope.
Local Open Scope list_scope.
Local Open Scope string_scope.

(** A plain estimator: lower-cased class name, attribute [predicts_target_labels] (false when absent), and an
    arbitrary identity standing for its parameters. *)
Record est := mkEst { e_class : string; e_predicts : bool; e_id : nat }.

Inductive selcls := CShared | CPerDomain | CSelectSource | CSelectTarget | CSourceTarget.

(** A selector object, /repo/skada/base.py lines 209-215 and 605-620. *)
Record sel := mkSel { sl_cls : selcls; sl_base : est; sl_mask : bool; sl_final : bool }.

Definition heap := list sel.

Definition set_final (b : bool) (s : sel) : sel := mkSel (sl_cls s) (sl_base s) (sl_mask s) b.

(** [_mark_as_final] / [_unmark_as_final], /repo/skada/base.py lines 282-288, on the object [i]. *)
Definition mark (b : bool) (i : nat) (h : heap) : heap :=
  match nth_error h i with Some s => update i (set_final b s) h | None => h end.

(** A step argument of make_da_pipeline, optionally named: a plain estimator, a selector object, or a DA pipeline
    (a Pipeline whose first step is a selector; the model assumes all its steps are). [None] steps and
    'passthrough' are not modelled. *)
Inductive step :=
| SEst (name : option string) (e : est)
| SSel (name : option string) (i : nat)
| SPipe (name : option string) (p : list (string * nat)).

Inductive item := IEst (e : est) | ISel (i : nat).

(** Loop of /repo/skada/_pipeline.py lines 87-99. *)
Fixpoint flatten (steps : list step) (h : heap) : heap * list (option string * item) :=
  match steps with
  | [] => (h, [])
  | s :: steps' =>
      match s with
      | SEst n e => let '(h', r) := flatten steps' h in (h', (n, IEst e) :: r)
      | SSel n i => let '(h', r) := flatten steps' h in (h', (n, ISel i) :: r)
      | SPipe n p =>
          let h1 := fold_left (fun a ni => mark false (snd ni) a) p h in
          let '(h', r) := flatten steps' h1 in
          (h', (map (fun ni => (Some (match n with Some m => m ++ "__" ++ fst ni | None => fst ni end)%string, ISel (snd ni))) p ++ r)%list)
      end
  end.

(** The [default_selector] argument: a name, a callable (which returns a selector, or something else), or an object
    of another type. *)
Inductive selarg :=
| SelName (s : string)
| SelCall (f : est -> bool -> option sel)
| SelOther.

(** [_wrap_with_selector] on a plain estimator, /repo/skada/_pipeline.py lines 112-135. For an unknown name the
    error message itself fails ([dict_keys.join]), an AttributeError. *)
Definition wrap_est (a : selarg) (mask : bool) (e : est) : res sel :=
  match a with
  | SelCall f => match f e mask with Some s => Ok s | None => Err ValueError end
  | SelName s =>
      if String.eqb s "shared" then Ok (mkSel CShared e mask false)
      else if String.eqb s "per_domain" then Ok (mkSel CPerDomain e mask false)
      else Err AttributeError
  | SelOther => Err ValueError
  end.

(** [_wrap_with_selectors], /repo/skada/_pipeline.py lines 138-153. A selector has no [predicts_target_labels]
    attribute of its own, so only plain estimators switch masking off. *)
Fixpoint wrap_all (a : selarg) (mask : bool) (items : list item) (h : heap) : res (heap * list nat) :=
  match items with
  | [] => Ok (h, [])
  | IEst e :: items' =>
      let mask' := if e_predicts e then false else mask in
      s <- wrap_est a mask' e ;;
      r <- wrap_all a mask' items' (h ++ [s])%list ;;
      Ok (fst r, length h :: snd r)
  | ISel i :: items' =>
      r <- wrap_all a mask items' h ;;
      Ok (fst r, i :: snd r)
  end.

(** Decimal notation of "%d". *)
Definition string_of_nat (n : nat) : string := NilEmpty.string_of_uint (Nat.to_uint n).

(** Lines 167-179: the base name of a selector. SelectSourceTarget has no [base_estimator]. *)
Definition base_name (s : sel) : string :=
  match sl_cls s with
  | CSourceTarget => "selectsourcetarget"
  | CPerDomain => "perdomain_" ++ e_class (sl_base s)
  | _ => e_class (sl_base s)
  end.

(** Lines 181-183. *)
Definition name_counts (names : list string) : dict string nat :=
  fold_left (fun d n => dict_set String.eqb n (S (match dict_get String.eqb n d with Some k => k | None => 0 end)) d)
            names [].

(** Lines 189-193: the loop over the names in reverse order; input and output are reversed lists. *)
Fixpoint number_rev (rnames : list string) (cnt : dict string nat) : list string :=
  match rnames with
  | [] => []
  | n :: rest =>
      match dict_get String.eqb n cnt with
      | Some k => (n ++ "-" ++ string_of_nat k) :: number_rev rest (dict_set String.eqb n (k - 1) cnt)
      | None => n :: number_rev rest cnt
      end
  end.

(** [_name_estimators], lines 156-195, on the base names; lines 185-187 delete the names counted once. *)
Definition name_estimators (names : list string) : list string :=
  List.rev (number_rev (List.rev names) (filter (fun kv : string * nat => negb (Nat.eqb (snd kv) 1)) (name_counts names))).

(** [make_da_pipeline], /repo/skada/_pipeline.py lines 23-109. The result is the heap and the named steps. *)
Definition make_da_pipeline (steps : list step) (a : selarg) (mask : bool) (h : heap)
  : res (heap * list (string * nat)) :=
  match steps with
  | [] => Err TypeError
  | _ =>
      let '(h1, items) := flatten steps h in
      r <- wrap_all a mask (map snd items) h1 ;;
      let '(h2, ids) := r in
      names <- mapM (fun i => match nth_error h2 i with Some s => Ok (base_name s) | None => Err AttributeError end) ids ;;
      let named := map (fun q => (match fst (fst q) with Some n => n | None => snd (fst q) end, snd q))
                       (combine (combine (map fst items) (name_estimators names)) ids) in
      match List.rev ids with
      | [] => Err IndexError
      | i :: _ => Ok (mark true i h2, named)
      end
  end.

(** ** Cloning *)

(** sklearn's [clone] of a selector: [klass] called with get_params() only, each parameter cloned
    (/repo/skada/base.py lines 239-256: [mask_target_labels] is not among the parameters). The default of
    [mask_target_labels] is True for Shared, PerDomain and SelectSource, False for SelectTarget (lines 209, 590);
    [_is_final] is reset. For SelectSourceTarget get_params (lines 646-661) fails: it reads the attribute
    [mask_target_labels], which the constructor (lines 605-620) never sets. *)
Definition clone_sel (s : sel) : res sel :=
  match sl_cls s with
  | CSourceTarget => Err AttributeError
  | _ => Ok (mkSel (sl_cls s) (sl_base s)
                   (match sl_cls s with CShared | CPerDomain | CSelectSource => true | _ => false end)
                   false)
  end.
