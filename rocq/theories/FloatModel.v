(** Computations of skada in floating point: the models of the other files take numbers to be exact; here every operation is followed by a rounding. *)
From Coq Require Import List ZArith Reals Lra Arith.
From Flocq Require Import Core.
From Verif Require Import Np RVec.
Import ListNotations.
Local Open Scope nat_scope.

(** IEEE binary64 (Python's and numpy's float64): 53 bits, smallest positive number 2^-1074, round to nearest, ties to even. Overflow to infinity is
    not modelled: the largest finite number is about 1.8e308. *)
Definition f64 (x : R) : R := round radix2 (FLT_exp (-1074) 53) ZnearestE x.
Definition is_f64 (x : R) : Prop := generic_format radix2 (FLT_exp (-1074) 53) x.

(** [int(len(v) * frac)], /repo/skada/model_selection.py lines 552 and 558 (under_sampling); the same expression with the factors exchanged in
    /repo/skada/datasets/_mnist_usps.py lines 79 and 105 (n_samples), and [int(8 * n_samples_target * ratio)] in
    /repo/skada/datasets/_samples_generator.py line 534 for the size 8 * n_samples_target. An int below 2^53 converts to a float exactly; [int] truncates. *)
Definition int_times (n : Z) (frac : R) : Z := Ztrunc (f64 (IZR n * frac)).
(** The two group sizes of the target shift, lines 534-535. *)
Definition target_shift_sizes (n : Z) (ratio : R) : Z * Z := let n1 := int_times (8 * n) ratio in (n1, 8 * n - n1)%Z.
(** [int(min(self.alpha * (n + m), gamma.size - 1))], /repo/skada/_gradual_da.py line 150. *)
Definition max_index (alpha : R) (n m : Z) : Z := Ztrunc (Rmin (f64 (alpha * IZR (n + m))) (IZR (n * m - 1))).

Section Rounded.
  (** The rounding after each operation. *)
  Variable rnd : R -> R.
  (** [frank_wolfe] with rounding, /repo/skada/utils.py lines 948-966; compare FWModel.v, which is this with the identity as rounding. The
      gradient is whatever the caller's function returns. *)
  Definition fwr_vertex (c : list R) (clb cub : R) (grad : list R) : res (list R) :=
    let inv_c := map (fun t => rnd (1 / t)) c in
    product <- np_map2 (fun a b => rnd (a * b)) grad inv_c ;;
    index <- np_argmin product ;;
    let zeros := repeat 0%R (length c) in
    if Rleb 0 (nth index product 0%R) then Ok (update index (rnd (nth index inv_c 0 * clb))%R zeros)
    else Ok (update index (rnd (nth index inv_c 0 * cub))%R zeros).
  Definition fwr_step (jac : list R -> res (list R)) (c : list R) (clb cub : R) (k : nat) (x : list R) : res (list R) :=
    grad <- jac x ;;
    vect <- fwr_vertex c clb cub grad ;;
    let lr := rnd (2 / rnd (INR k + 1))%R in
    np_map2 (fun a b => rnd (a + b)) (map (fun t => rnd (rnd (1 - lr) * t)) x) (map (fun t => rnd (lr * t)) vect).
  Fixpoint fwr_loop jac c clb cub (k n : nat) (x : list R) : res (list R) :=
    match n with
    | 0 => Ok x
    | S n' => x' <- fwr_step jac c clb cub k x ;; fwr_loop jac c clb cub (S k) n' x'
    end.
  Definition frank_wolfe_r (jac : list R -> res (list R)) (c : list R) (clb cub : R) (x0 : option (list R)) (max_iter : nat) : res (list R) :=
    let x := match x0 with
             | Some x => x
             | None => map (fun ic => rnd (rnd (ic * rnd (rnd (cub - clb) / 2)) / INR (length c)))%R (map (fun t => rnd (1 / t)) c)
             end in
    fwr_loop jac c clb cub 1 max_iter x.

  (** One coordinate of the interpolation of generate_data_at_step, /repo/skada/_gradual_da.py lines 198-201:
      (n_steps - step) * x / n_steps + step * y / n_steps; the integers convert to floats exactly. *)
  Definition interpolate_r (n_steps step : Z) (x y : R) : R :=
    rnd (rnd (rnd (IZR (n_steps - step) * x) / IZR n_steps) + rnd (rnd (IZR step * y) / IZR n_steps)).

  (** [weights.sum()] adds in an order numpy chooses (pairwise summation): any tree of additions. *)
  Inductive addition := Leaf (w : R) | Node (a b : addition).
  Fixpoint leaves (t : addition) : list R := match t with Leaf w => [w] | Node a b => leaves a ++ leaves b end.
  Fixpoint add_up (t : addition) : R := match t with Leaf w => w | Node a b => rnd (add_up a + add_up b) end.
  (** [if weights.sum() != 0: weights /= weights.sum()], /repo/skada/metrics.py lines 191-192. *)
  Definition normalise_r (t : addition) : list R :=
    let s := add_up t in if Reqb s 0 then leaves t else map (fun w => rnd (w / s)) (leaves t).
End Rounded.
