(** Computations of skada in floating point with infinities and nan. *)
From Coq Require Import List ZArith Reals Arith.
From Flocq Require Import Core.
From Verif Require Import RVec FloatModel.
Import ListNotations.
Local Open Scope nat_scope.

(** A float64: finite, an infinity or nan. The sign of a zero is not kept: nothing below divides by a zero. *)
Inductive xf := Fin (x : R) | PInf | NInf | XNan.
(** Rounding with overflow: from 2^1024 on the result is infinite. *)
Definition xround (x : R) : xf :=
  let v := f64 x in if Rleb (bpow radix2 1024) v then PInf else if Rleb v (- bpow radix2 1024) then NInf else Fin v.
Definition xopp (a : xf) : xf := match a with Fin x => Fin (- x) | PInf => NInf | NInf => PInf | XNan => XNan end.
Definition xadd (a b : xf) : xf :=
  match a, b with
  | Fin x, Fin y => xround (x + y)
  | XNan, _ | _, XNan | PInf, NInf | NInf, PInf => XNan
  | PInf, _ | _, PInf => PInf
  | NInf, _ | _, NInf => NInf
  end.
Definition xsub (a b : xf) : xf := xadd a (xopp b).
Definition inf_times (pos : bool) (y : R) : xf := if Reqb y 0 then XNan else if Bool.eqb pos (Rltb 0 y) then PInf else NInf.
Definition xmul (a b : xf) : xf :=
  match a, b with
  | Fin x, Fin y => xround (x * y)
  | XNan, _ | _, XNan => XNan
  | PInf, Fin y | Fin y, PInf => inf_times true y
  | NInf, Fin y | Fin y, NInf => inf_times false y
  | PInf, PInf | NInf, NInf => PInf
  | PInf, NInf | NInf, PInf => NInf
  end.
Definition xdiv (a b : xf) : xf :=
  match a, b with
  | Fin x, Fin y => if Reqb y 0 then (if Reqb x 0 then XNan else if Rltb 0 x then PInf else NInf) else xround (x / y)
  | XNan, _ | _, XNan => XNan
  | Fin _, _ => Fin 0
  | PInf, Fin y => if Rleb 0 y then PInf else NInf
  | NInf, Fin y => if Rleb 0 y then NInf else PInf
  | _, _ => XNan
  end.
(** numpy's exp and log, taken to be correctly rounded (they are within a few units in the last place; the bounds below leave room for that). *)
Definition xexp (a : xf) : xf := match a with Fin x => xround (exp x) | PInf => PInf | NInf => Fin 0 | XNan => XNan end.
Definition xlog (a : xf) : xf :=
  match a with Fin x => if Rltb 0 x then xround (ln x) else if Reqb x 0 then NInf else XNan | PInf => PInf | NInf => XNan | XNan => XNan end.
(** [a != 0] *)
Definition xnonzero (a : xf) : bool := match a with Fin x => negb (Reqb x 0) | _ => true end.

(** [np.sum] adds in an order of numpy's choice. *)
Inductive xtree := XLeaf (w : xf) | XNode (a b : xtree).
Fixpoint xleaves (t : xtree) : list xf := match t with XLeaf w => [w] | XNode a b => xleaves a ++ xleaves b end.
Fixpoint xadd_up (t : xtree) : xf := match t with XLeaf w => w | XNode a b => xadd (xadd_up a) (xadd_up b) end.
Definition adds_up (sum : list xf -> xf) : Prop := forall l, l <> [] -> exists t, xleaves t = l /\ sum l = xadd_up t.

Section Sums.
  Variable sum : list xf -> xf.
  Definition count (l : list xf) : xf := Fin (IZR (Z.of_nat (length l))).
  Definition xmean (l : list xf) : xf := xdiv (sum l) (count l).
  (** The fallback [np.ones_like(w) / len(w)]. *)
  Definition uniform (w : list xf) : list xf := map (fun _ => xdiv (Fin 1) (count w)) w.

  (** The weights of the source samples from their log densities, DensityReweightAdapter.compute_weights, /repo/skada/_reweight.py lines 134-142.
      The warning of the fallback is left out. *)
  Definition density_x (ws wt : list xf) : list xf :=
    let w := map xexp (map2 xsub wt ws) in
    if xnonzero (xmean w) then map (fun a => xdiv a (xmean w)) w else uniform w.
  (** ImportanceWeightedScorer._score, /repo/skada/metrics.py lines 187-195. *)
  Definition importance_x (ws wt : list xf) : list xf :=
    let w := map xexp (map2 xsub wt ws) in
    if xnonzero (sum w) then map (fun a => xdiv a (sum w)) w else uniform w.

  (** SoftNeighborhoodDensity._score from the products [proba @ proba.T] on, /repo/skada/metrics.py lines 329-334. [scipy.special.softmax] without
      an axis subtracts the largest entry, exponentiates and divides by the sum over the whole matrix. The matrix is given by its rows; [sign] is
      the scorer's sign. *)
  Definition negate_diagonal (A : list (list xf)) : list (list xf) :=
    map2 (fun i r => map2 (fun j a => if i =? j then xopp a else a) (seq 0 (length r)) r) (seq 0 (length A)) A.
  Definition largest (l : list R) : R := match l with [] => 0%R | x :: l' => fold_left Rmax l' x end.
  Definition finite_part (a : xf) : list R := match a with Fin x => [x] | _ => [] end.
  (** The largest entry; all entries are finite when it is used below. *)
  Definition xmax (A : list (list xf)) : xf := Fin (largest (flat_map finite_part (concat A))).
  Definition softmax_x (A : list (list xf)) : list (list xf) :=
    let E := map (map (fun a => xexp (xsub a (xmax A)))) A in map (map (fun e => xdiv e (sum (concat E)))) E.
  Definition snd_score_x (sign temperature : R) (products : list (list R)) : xf :=
    let S := softmax_x (negate_diagonal (map (map (fun s => xdiv (Fin s) (Fin temperature))) products)) in
    let entropy := map (fun r => sum (map (fun s => xmul (xopp s) (xlog s)) r)) S in
    xmul (Fin sign) (xmean entropy).
End Sums.

(** sklearn's KernelDensity for a kernel [k] (bandwidth and normalisation included): [score_samples] is the logarithm of the average of the kernels
    at the training samples, computed in log space, so that it is minus infinity only where the density is zero. Its rounding is taken to be that of
    the exact value. *)
Definition kde_density {Row} (k : Row -> Row -> R) (train : list Row) (x : Row) : R := (vsum (map (k x) train) / INR (length train))%R.
Definition kde_x {Row} (k : Row -> Row -> R) (train : list Row) (x : Row) : xf :=
  if Rltb 0 (kde_density k train x) then xround (ln (kde_density k train x)) else NInf.
