(** Model of the quadratic solvers of /repo/skada/utils.py (lines 605-966), over the real numbers. *)
From Coq Require Import String List ZArith Bool Arith Lia Reals Lra.
From Verif Require Import Np RVec.
Import ListNotations.
Local Open Scope nat_scope.
Local Open Scope list_scope.

(** One iteration of the loop of [frank_wolfe], /repo/skada/utils.py lines 956-965, with iteration number [k].
    [jac] is the caller's gradient function; it may raise. Division by a zero entry of [c] (an infinity in numpy) is
    not modelled. *)
Definition fw_vertex (c : list R) (clb cub : R) (grad : list R) : res (list R) :=
  let inv_c := map Rinv c in
  product <- np_map2 Rmult grad inv_c ;;
  index <- np_argmin product ;;
  let zeros := repeat 0%R (length c) in
  if Rleb 0 (nth index product 0%R) then Ok (update index (nth index inv_c 0 * clb)%R zeros)
  else Ok (update index (nth index inv_c 0 * cub)%R zeros).

Definition fw_step (jac : list R -> res (list R)) (c : list R) (clb cub : R) (k : nat) (x : list R) : res (list R) :=
  grad <- jac x ;;
  vect <- fw_vertex c clb cub grad ;;
  let lr := (2 / (INR k + 1))%R in
  np_map2 Rplus (vscale (1 - lr) x) (vscale lr vect).

(** The loop [for k in range(1, max_iter+1)], lines 955-965: [n] iterations, the next one being number [k]. *)
Fixpoint fw_loop jac c clb cub (k n : nat) (x : list R) : res (list R) :=
  match n with
  | 0 => Ok x
  | S n' => x' <- fw_step jac c clb cub k x ;; fw_loop jac c clb cub (S k) n' x'
  end.

(** [frank_wolfe], lines 918-966. The default starting point is [inv_c * ((cub - clb) / 2) / c.shape[0]]. *)
Definition frank_wolfe (jac : list R -> res (list R)) (c : list R) (clb cub : R) (x0 : option (list R)) (max_iter : nat)
  : res (list R) :=
  let x := match x0 with
           | Some x => x
           | None => map (fun ic => ic * ((cub - clb) / 2) / INR (length c))%R (map Rinv c)
           end in
  fw_loop jac c clb cub 1 max_iter x.

(** The objective and its gradient as built by both solvers, lines 769-780 and 889-900. *)
Definition qp_jac (Q : list (list R)) (c : option (list R)) (x : list R) : res (list R) :=
  g <- np_matvec Q x ;;
  match c with None => Ok g | Some c => np_map2 Rplus g c end.
Definition qp_func (Q : list (list R)) (c : option (list R)) (x : list R) : res R :=
  g <- np_matvec Q x ;; h <- np_dot x g ;;
  match c with None => Ok (1 / 2 * h)%R | Some c => l <- np_dot x c ;; Ok (1 / 2 * h + l)%R end.

(** [np.allclose(u, v)] with the default tolerances. *)
Definition allclose (u v : list R) : res bool :=
  d <- np_map2 (fun a b => Rleb (Rabs (a - b)) (1 / 100000000 + 1 / 100000 * Rabs b)) u v ;;
  Ok (forallb (fun b => b) d).

(** Indexing a vector that may be [None] (TypeError) or too short (IndexError). *)
Definition get {A} (b : option (list A)) (i : nat) : res A :=
  match b with
  | None => Err TypeError
  | Some l => match nth_error l i with Some v => Ok v | None => Err IndexError end
  end.

(** Validation part of [_qp_solve_frank_wolfe], lines 871-888. *)
Definition fw_validate (A : option (list (list R))) (b : option (list R)) (Aeq : option (list (list R))) : res unit :=
  _ <- (match Aeq with Some M => raise_if (1 <? length M) ValueError (Ok tt) | None => Ok tt end) ;;
  match A with
  | None => Ok tt
  | Some M =>
      raise_if (2 <? length M) ValueError
        (match M with
         | [a0; a1] =>
             close <- allclose a0 (map Ropp a1) ;;
             raise_if (negb close) ValueError
               (b0 <- get b 0 ;; b1 <- get b 1 ;; raise_if (Rltb b0 (- b1)) ValueError (Ok tt))
         | _ => Ok tt
         end)
  end.

(** [_qp_solve_frank_wolfe], lines 818-915. *)
Definition qp_solve_fw (Q : list (list R)) (c : option (list R)) (A : option (list (list R))) (b : option (list R))
           (Aeq : option (list (list R))) (beq : option (list R)) (x0 : option (list R)) (max_iter : nat)
  : res (list R * R) :=
  _ <- fw_validate A b Aeq ;;
  let jac := qp_jac Q c in
  x <- (match Aeq with
        | Some M => a0 <- get Aeq 0 ;; v <- get beq 0 ;; frank_wolfe jac a0 v v x0 max_iter
        | None =>
            match A with
            | Some M =>
                if 1 <? length M then
                  a0 <- get A 0 ;; b1 <- get b 1 ;; b0 <- get b 0 ;; frank_wolfe jac a0 (- b1) b0 x0 max_iter
                else a0 <- get A 0 ;; b0 <- get b 0 ;; frank_wolfe jac a0 b0 b0 x0 max_iter
            | None => Err ValueError
            end
        end) ;;
  f <- qp_func Q c x ;; Ok (x, f).

(** The problem that [_qp_solve_scipy] hands to scipy's SLSQP, lines 761-794: linear constraints (matrix, lower,
    upper; a missing side is infinite) and bounds ([None] = infinite). Simplification: [A] comes with [b] and [Aeq] with [beq] (with only the matrix the constraint is
    left out here). *)
Record scipy_problem := mkProblem {
  sp_constraints : list (list (list R) * option (list R) * option (list R));
  sp_bounds : option (list (option R * option R)) }.

Definition scipy_build (A : option (list (list R))) (b : option (list R)) (Aeq : option (list (list R)))
           (beq : option (list R)) (lb ub : option (list R)) : scipy_problem :=
  let c1 := match A, b with Some M, Some v => [(M, None, Some v)] | _, _ => [] end in
  let c2 := match Aeq, beq with Some M, Some v => [(M, Some v, Some v)] | _, _ => [] end in
  let bounds :=
    match lb, ub with
    | None, None => None
    | None, Some u => Some (map (fun b => (None, Some b)) u)
    | Some l, None => Some (map (fun b => (Some b, None)) l)
    | Some l, Some u => Some (map2 (fun b1 b2 => (Some b1, Some b2)) l u)
    end in
  mkProblem (c1 ++ c2) bounds.

(** [qp_solve], lines 605-700. [slsqp]: scipy's minimiser (external) on the problem, objective and starting point; the
    optional third output of [log=True] is not modelled. The frank-wolfe call does not receive [lb], [ub] and [tol]. *)
Definition qp_solve
           (slsqp : scipy_problem -> (list R -> res R) -> list R -> res (list R * R))
           (Q : list (list R)) (c : option (list R)) (A : option (list (list R))) (b : option (list R))
           (Aeq : option (list (list R))) (beq lb ub x0 : option (list R)) (max_iter : nat) (solver : string)
  : res (list R * R) :=
  if String.eqb solver "scipy" then
    slsqp (scipy_build A b Aeq beq lb ub) (qp_func Q c)
          (match x0 with Some x => x | None => repeat 1%R (length Q) end)
  else if String.eqb solver "frank-wolfe" then qp_solve_fw Q c A b Aeq beq x0 max_iter
  else Err ValueError.
