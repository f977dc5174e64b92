(** Real vectors: the fragment of numpy's float arithmetic the numeric models use, over the real numbers
    (rounding, overflow, NaN and infinities are not modelled).
    These definitions describe numpy, not code of /repo: they belong to the trusted base. *)
From Coq Require Import List ZArith Bool Arith Lia Reals Lra.
From Verif Require Import Np.
Import ListNotations.
Local Open Scope nat_scope.

(** Float comparisons. *)
Definition Rleb (x y : R) : bool := if Rle_dec x y then true else false.
Definition Rltb (x y : R) : bool := if Rlt_dec x y then true else false.
Definition Reqb (x y : R) : bool := if Req_EM_T x y then true else false.

(** Elementwise binary operation (raw) and with numpy's shape check. Broadcasting of length-1 operands is not
    modelled: it is a ValueError here. *)
Fixpoint map2 {A B C} (f : A -> B -> C) (u : list A) (v : list B) : list C :=
  match u, v with x :: u', y :: v' => f x y :: map2 f u' v' | _, _ => [] end.
Definition np_map2 {A B C} (f : A -> B -> C) (u : list A) (v : list B) : res (list C) :=
  if length u =? length v then Ok (map2 f u v) else Err ValueError.

Fixpoint vsum (l : list R) : R := match l with [] => 0%R | x :: l' => (x + vsum l')%R end.
Definition dot (u v : list R) : R := vsum (map2 Rmult u v).
Definition vscale (a : R) (u : list R) : list R := map (Rmult a) u.
Definition vadd (u v : list R) : list R := map2 Rplus u v.
Definition vsub (u v : list R) : list R := map2 Rminus u v.

(** [u @ v], [M @ x]: ValueError on a shape mismatch. *)
Definition np_dot (u v : list R) : res R := if length u =? length v then Ok (dot u v) else Err ValueError.
Definition np_matvec (M : list (list R)) (x : list R) : res (list R) := mapM (fun r => np_dot r x) M.
Definition matvec (M : list (list R)) (x : list R) : list R := map (fun r => dot r x) M.

(** [u.mean()]; 0/0 on an empty vector (NaN in numpy). *)
Definition mean (u : list R) : R := (vsum u / INR (length u))%R.

(** [np.argmin] of a vector: the first index of a smallest entry; ValueError on an empty vector. *)
Fixpoint argmin_aux (best : R) (bi k : nat) (l : list R) : nat :=
  match l with
  | [] => bi
  | x :: l' => if Rltb x best then argmin_aux x k (S k) l' else argmin_aux best bi (S k) l'
  end.
Definition np_argmin (l : list R) : res nat :=
  match l with [] => Err ValueError | x :: l' => Ok (argmin_aux x 0 1 l') end.
(** [np.argmax]. *)
Definition np_argmax (l : list R) : res nat := np_argmin (map Ropp l).
