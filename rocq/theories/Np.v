(** Array library: the fragment of numpy (and of Python errors) the models use.
    A 1-D array, or the list of rows of an n-D array, is a [list]; a boolean mask is a [list bool];
    a non-negative integer index array is a [list nat].
    These definitions describe numpy, not code of /repo: they belong to the trusted base. *)
From Coq Require Import List ZArith Bool Arith Lia Sorting.Sorted Sorting.Permutation.
Import ListNotations.

(** Python exceptions that the modelled code can raise. *)
Inductive exn :=
| ValueError | TypeError | IndexError | KeyError | AttributeError | AssertionError
| NotImplementedError | ZeroDivisionError | UnboundLocalError | NotFittedError | RuntimeError.

(** Result of a Python call: a value or an exception. *)
Inductive res (A : Type) := Ok (a : A) | Err (e : exn).
Arguments Ok {A} a.
Arguments Err {A} e.

Definition bind {A B} (r : res A) (f : A -> res B) : res B :=
  match r with Ok a => f a | Err e => Err e end.
Notation "x <- r ;; k" := (bind r (fun x => k)) (at level 61, r at next level, right associativity).

(** [raise_if b e k]: [if b: raise e] followed by [k]. *)
Definition raise_if {A} (b : bool) (e : exn) (k : res A) : res A := if b then Err e else k.

(** Left-to-right evaluation of a list of calls, stopping at the first exception. *)
Fixpoint mapM {A B} (f : A -> res B) (l : list A) : res (list B) :=
  match l with
  | [] => Ok []
  | x :: l' => y <- f x ;; ys <- mapM f l' ;; Ok (y :: ys)
  end.

(** Number of [True] entries of a mask ([np.count_nonzero]). *)
Fixpoint count (m : list bool) : nat :=
  match m with [] => 0 | b :: m' => (if b then 1 else 0) + count m' end.

(** Boolean-mask selection on lists of equal length (the raw operation). *)
Fixpoint select {A} (m : list bool) (xs : list A) : list A :=
  match m, xs with
  | b :: m', x :: xs' => if b then x :: select m' xs' else select m' xs'
  | _, _ => []
  end.

(** [xs[m]] for a boolean array [m]: IndexError when the lengths differ. *)
Definition np_select {A} (m : list bool) (xs : list A) : res (list A) :=
  if length m =? length xs then Ok (select m xs) else Err IndexError.

(** [xs[idx]] for an array of non-negative integers: IndexError when out of range. *)
Definition np_take {A} (idx : list nat) (xs : list A) : res (list A) :=
  mapM (fun i => match nth_error xs i with Some x => Ok x | None => Err IndexError end) idx.

(** Python/numpy integer indexing with possibly negative index. *)
Definition py_index (n : nat) (i : Z) : res nat :=
  if ((0 <=? i) && (i <? Z.of_nat n))%Z then Ok (Z.to_nat i)
  else if ((i <? 0) && (- Z.of_nat n <=? i))%Z then Ok (Z.to_nat (Z.of_nat n + i))
  else Err IndexError.

(** [xs[idx]] for an integer array that may contain negative indices. *)
Definition np_take_z {A} (idx : list Z) (xs : list A) : res (list A) :=
  js <- mapM (py_index (length xs)) idx ;; np_take js xs.

(** Writing successive values at the [True] positions (raw operation). *)
Fixpoint place {A} (m : list bool) (vals out : list A) : list A :=
  match m, out with
  | b :: m', o :: out' =>
      if b then match vals with
                | v :: vals' => v :: place m' vals' out'
                | [] => o :: place m' [] out'
                end
      else o :: place m' vals out'
  | _, _ => out
  end.

(** [out[m] = vals] for a boolean mask. IndexError when the mask has the wrong length; a single row is
    broadcast; any other count mismatch is a ValueError. *)
Definition np_setmask {A} (m : list bool) (vals out : list A) : res (list A) :=
  if length m =? length out then
    if length vals =? count m then Ok (place m vals out)
    else match vals with
         | [v] => Ok (place m (repeat v (count m)) out)
         | _ => Err ValueError
         end
  else Err IndexError.

(** [out[m] = v] for a scalar. *)
Definition np_setmask_scalar {A} (m : list bool) (v : A) (out : list A) : res (list A) :=
  np_setmask m [v] out.

(** [out[i] = v] (raw; out of range leaves [out] unchanged). *)
Fixpoint update {A} (i : nat) (v : A) (out : list A) : list A :=
  match out, i with
  | [], _ => []
  | _ :: out', 0 => v :: out'
  | o :: out', S i' => o :: update i' v out'
  end.

(** Successive writes [out[i_k] = v_k]. *)
Fixpoint place_idx {A} (idx : list nat) (vals out : list A) : list A :=
  match idx, vals with
  | i :: idx', v :: vals' => place_idx idx' vals' (update i v out)
  | _, _ => out
  end.

(** [out[idx] = vals] for an integer index array: IndexError when out of range; a single row is
    broadcast; any other count mismatch is a ValueError. *)
Definition np_setidx {A} (idx : list nat) (vals out : list A) : res (list A) :=
  if forallb (fun i => i <? length out) idx then
    if length vals =? length idx then Ok (place_idx idx vals out)
    else match vals with
         | [v] => Ok (place_idx idx (repeat v (length idx)) out)
         | _ => Err ValueError
         end
  else Err IndexError.

(** Positions (counted from [k]) of the [True] entries. *)
Fixpoint where_from (k : nat) (m : list bool) : list nat :=
  match m with
  | [] => []
  | b :: m' => if b then k :: where_from (S k) m' else where_from (S k) m'
  end.

(** [np.flatnonzero(m)]. *)
Definition flatnonzero (m : list bool) : list nat := where_from 0 m.

(** Insertion into a strictly sorted list without duplication. *)
Fixpoint insert_uniq (z : Z) (l : list Z) : list Z :=
  match l with
  | [] => [z]
  | h :: t => if (z <? h)%Z then z :: h :: t
              else if (z =? h)%Z then h :: t
              else h :: insert_uniq z t
  end.

(** [np.unique] on an integer array: sorted, without repetition. *)
Definition unique (l : list Z) : list Z := fold_right insert_uniq [] l.

(** Python dictionary with insertion order, as an association list. *)
Definition dict (K V : Type) := list (K * V).

Fixpoint dict_get {K V} (eqb : K -> K -> bool) (k : K) (d : dict K V) : option V :=
  match d with
  | [] => None
  | (k', v) :: d' => if eqb k k' then Some v else dict_get eqb k d'
  end.

(** [d[k] = v]: overwrites in place or appends. *)
Fixpoint dict_set {K V} (eqb : K -> K -> bool) (k : K) (v : V) (d : dict K V) : dict K V :=
  match d with
  | [] => [(k, v)]
  | (k', v') :: d' => if eqb k k' then (k', v) :: d' else (k', v') :: dict_set eqb k v d'
  end.

(** [{**d, **e}]: later entries win. *)
Definition dict_update {K V} (eqb : K -> K -> bool) (d e : dict K V) : dict K V :=
  fold_left (fun acc kv => dict_set eqb (fst kv) (snd kv) acc) e d.

(** [d[k]]: KeyError when absent. *)
Definition dict_getitem {K V} (eqb : K -> K -> bool) (k : K) (d : dict K V) : res V :=
  match dict_get eqb k d with Some v => Ok v | None => Err KeyError end.
