(** Specification vocabulary for the optimal-transport estimators (C52-C55, C88-C93). *)
From Coq Require Import List ZArith Bool Arith Lia Reals Lra Sorted.
From Verif Require Import Np RVec Spec.
Import ListNotations.
Local Open Scope nat_scope.

(** One output per sample: [s] at the source samples, [t] at the target samples, each in sample order. *)
Definition laid_out {A} (sd : list Z) (s t out : list A) : Prop :=
  length out = length sd /\ rows_of is_source sd out = s /\ rows_of is_target sd out = t.

(** Sample weights divided by their total, uniform when there are none. *)
Definition proportions (n : nat) (w : option (list R)) : list R :=
  match w with None => repeat (/ INR n)%R n | Some l => map (fun t => t / vsum l)%R l end.
Definition opt_rows {A} (p : Z -> bool) (sd : list Z) (w : option (list A)) : option (list A) :=
  match w with None => None | Some l => Some (rows_of p sd l) end.

(** Mass the plan [G] sends from the source samples of class [c] to target sample [j]. *)
Definition mass_of (G : list (list R)) (ys : list Z) (c : Z) (j : nat) : R :=
  vsum (map (fun p => nth j (snd p) 0%R) (filter (fun p => (fst p =? c)%Z) (combine ys G))).
(** [c]: the source class sending the largest mass to target sample [j], the smallest one on ties. *)
Definition heaviest (G : list (list R)) (ys : list Z) (j : nat) (c : Z) : Prop :=
  In c ys /\ (forall c', In c' ys -> (mass_of G ys c' j <= mass_of G ys c j)%R) /\
  (forall c', In c' ys -> mass_of G ys c' j = mass_of G ys c j -> (c <= c')%Z).

(** Barycentre of the source labels at target sample [j]. *)
Definition moved_label (G : list (list R)) (ys b : list R) (j : nat) : R :=
  (vsum (map (fun p => fst p * nth j (snd p) 0) (combine ys G)) / nth j b 0)%R.

(** [G]: non-negative, one row per source sample, the columns sum to [b]. *)
Definition moves_onto (G : list (list R)) (ns : nat) (b : list R) : Prop :=
  length G = ns /\ Forall (Forall (fun x => 0 <= x)%R) G /\
  forall j, j < length b -> vsum (map (fun r => nth j r 0%R) G) = nth j b 0%R.

(** ** Stopping rule of JDOT. *)
Definition settled (tol : R) (l : list R) (i : nat) : Prop := 1 <= i /\ (Rabs (nth i l 0 - nth (i - 1) l 0) < tol)%R.
Definition stopping_rule (tol : R) (n : nat) (lot llab : list R) (warned : bool) : Prop :=
  length llab = length lot /\ 1 <= length lot <= n /\
  (forall i, S i < length lot -> ~ settled tol lot i /\ ~ settled tol llab i) /\
  (length lot < n -> settled tol lot (length lot - 1) \/ settled tol llab (length lot - 1)) /\
  (warned = true <-> length lot = n /\ ~ settled tol lot (n - 1) /\ ~ settled tol llab (n - 1)).

(** Iteration of JDOT regression after predictions [prev] (None: first iteration): the plan [T] of value [v] is computed for the
    mixed cost, the estimator is fitted on the barycentric labels and predicts [yp]. *)
Definition reg_iteration {Est} (solve : list (list R) -> list R -> list R -> res (list (list R) * R))
           (fit : list R -> option (list R) -> res (Est * list R)) (alpha : R) (D : list (list R)) (ys a b : list R) (wt : option (list R))
           (prev : option (list R)) (T : list (list R)) (v : R) (est : Est) (yp : list R) (lot llab : R) : Prop :=
  let feat := map (map (fun d => d / mean (concat D))%R) D in
  let cost := map2 (fun y row =>
    match prev with
    | None => map (fun f => (1 - alpha) * f)%R row
    | Some p => map2 (fun f q => (1 - alpha) * f + alpha * ((y - q) * (y - q)))%R row p
    end) ys feat in
  let yth := map (moved_label T ys b) (seq 0 (length b)) in
  solve cost a b = Ok (T, v) /\ fit yth wt = Ok (est, yp) /\
  lot = (match prev with None => v + alpha * vsum (map2 (fun y row => vsum (map (fun t => y * y * t) row)) ys T) | Some _ => v end)%R /\
  llab = (vsum (map2 (fun y q => (y - q) * (y - q)) yth yp) / INR (length b))%R.

(** ** Fitting data of JDOT classification: the triples (sample, label, weight) in row-major order. *)
Definition all_triples {X L} (Xt : list X) (Yth : list (list R)) (labels : list L) : list (X * L * R) :=
  flat_map (fun xr => map (fun lw => (fst xr, fst lw, snd lw)) (combine labels (snd xr))) (combine Xt Yth).
Definition is_max (m : R) (l : list R) : Prop := In m l /\ Forall (fun x => x <= m)%R l.
Definition matrix {A} (n m : nat) (M : list (list A)) : Prop := length M = n /\ Forall (fun r => length r = m) M.

(** ** JCPOT. The label of target sample [x] is the class whose column of the propagated scores [p x] is largest. *)
Definition best_class (scores : list R) (classes : list Z) (c : Z) : Prop :=
  exists k, nth_error classes k = Some c /\ k < length scores /\
    (forall j, j < length scores -> (nth j scores 0 <= nth k scores 0)%R) /\ (forall j, j < k -> (nth j scores 0 < nth k scores 0)%R).
(** Rows of the samples whose domain satisfies [p], domain by domain in increasing order of the labels. *)
Definition domain_by_domain {A} (doms : list Z) (sd : list Z) (xs : list A) : list (list A) :=
  map (fun d => rows_of (Z.eqb d) sd xs) doms.

(** ** Label costs. [r]: column of the class. *)
Definition column_of (ys : list Z) (y : Z) (r : nat) : Prop := nth_error (unique ys) r = Some y.
(** Multi-class hinge loss of the scores [f] for class [r]: one-against-all. *)
Definition hinge_cost (r : nat) (f : list R) : R :=
  vsum (map (fun kf => if fst kf =? r then Rmax 0 (1 - snd kf) else Rmax 0 (1 + snd kf))%R (combine (seq 0 (length f)) f)).

(** A probability vector proportional to the weights (constant without weights). *)
Definition distribution (n : nat) (w : option (list R)) (a : list R) : Prop :=
  length a = n /\ vsum a = 1%R /\
  forall i j, i < n -> j < n ->
    match w with
    | None => nth i a 0%R = nth j a 0%R
    | Some l => (nth i a 0 * nth j l 0 = nth j a 0 * nth i l 0)%R
    end.
