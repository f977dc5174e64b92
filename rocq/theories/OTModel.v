(** Model of /repo/skada/_ot.py over the real numbers. Optimal transport (POT), estimators and kernels are external: they are
    arguments of the functions. Matrices are lists of rows. *)
From Coq Require Import String List ZArith QArith Bool Arith Lia Reals Lra.
From Verif Require Import Np Labels UtilsModel SelectModel RVec.
Import ListNotations.
Local Open Scope nat_scope.
Local Open Scope list_scope.

(** [np.sum], [np.max] of a matrix; [np.max] of an empty array is a ValueError. *)
Fixpoint list_max (x : R) (l : list R) : R := match l with [] => x | y :: l' => list_max (Rmax x y) l' end.
Definition np_max (l : list R) : res R := match l with [] => Err ValueError | x :: l' => Ok (list_max x l') end.
(** Column [j]. *)
Definition col (M : list (list R)) (j : nat) : list R := map (fun r => nth j r 0%R) M.

(** ** get_jdot_class_cost_matrix, lines 23-85. What the estimator predicts for the target samples: class log-probabilities,
    probabilities only, a decision matrix, a 1-D decision, or nothing. *)
Inductive tgt_pred := PLogProba (P : list (list R)) | PProba (P : list (list R)) | PDecision (D : list (list R)) | PDecision1 (d : list R) | PNone.
Inductive jmetric := MMultinomial | MHinge | MUnknown.
Definition eps16 : R := (/ 10000000000000000)%R.

(** The prediction matrix used: lines 57-68 and 70-81. In the hinge branch a 1-D decision is repeated in two columns. *)
Definition pred_matrix (metric : jmetric) (p : tgt_pred) : res (list (list R)) :=
  match metric, p with
  | MMultinomial, PLogProba P => Ok P
  | MMultinomial, PProba P => Ok (map (map (fun x => ln (x + eps16))) P)
  | MHinge, PDecision D => Ok D
  | MHinge, PDecision1 d => Ok (map (fun x => [x; x]) d)
  | _, _ => Err ValueError
  end.
(** The loss of one label row [y] against one prediction row [f]. *)
Definition row_loss (metric : jmetric) (y f : list R) : R :=
  match metric with
  | MHinge => vsum (map2 (fun a b => Rmax 0 (1 - a * b)) (map (fun t => 2 * t - 1) y) f)%R
  | _ => (- vsum (map2 Rmult y f))%R
  end.
(** Broadcasting [Ys[:, None, :] * P[None, :, :]]: the rows must have the same length. *)
Definition class_cost (metric : jmetric) (Ys : list (list R)) (p : tgt_pred) : res (list (list R)) :=
  P <- pred_matrix metric p ;;
  if forallb (fun y => forallb (fun f => length y =? length f) P) Ys then Ok (map (fun y => map (row_loss metric y) P) Ys)
  else Err ValueError.
(** estimator=None, lines 53-55 *)
Definition initial_cost (ns nt : nat) : list (list R) := repeat (repeat 10%R nt) ns.

(** ** get_data_jdot_class, lines 88-132. *)
Definition jdot_data {X L} (Xt : list X) (Yth : list (list R)) (labels : list L) (thr_weights : R) : res (list X * list L * list R) :=
  mx <- np_max (concat Yth) ;;
  let thr := (thr_weights * mx)%R in
  let ncol := length (nth 0 Yth []) in
  let Xh := flat_map (fun x => repeat x ncol) Xt in
  let yh := concat (repeat labels (length Yth)) in
  let wh := concat Yth in
  let ind := map (fun w => Rltb thr w) wh in
  Xh' <- np_select ind Xh ;;
  yh' <- np_select ind yh ;;
  wh' <- np_select ind wh ;;
  Ok (Xh', yh', wh').

(** ** get_tgt_loss_jdot_class, lines 135-196: weighted sum of the row losses on the fitting data; [p]: what the estimator
    predicts on Xh. *)
Definition tgt_loss (metric : jmetric) (yh : list (list R)) (wh : list R) (p : tgt_pred) : res R :=
  P <- pred_matrix metric p ;;
  l <- np_map2 (row_loss metric) yh P ;;
  np_dot l wh.

(** ** The loop shared by solve_jdot_regression (lines 291-335) and solve_jdot_classification (lines 444-495). [step i s]: one
    iteration from state [s]: the new state and the two losses; [s] also holds the last solution. The Boolean: the warning. *)
Section Loop.
  Context {S : Type}.
  Variable step : nat -> S -> res (S * R * R).
  Variable tol : R.
  Variable n_iter_max : nat.
  Definition small_change (x : R) (prev : option R) : bool :=
    match prev with None => false | Some p => Rltb (Rabs (x - p)) tol end.
  Fixpoint jdot_loop (k i : nat) (s : S) (pot plab : option R) : res (S * list R * list R * bool) :=
    match k with
    | 0 => Ok (s, [], [], false)
    | Datatypes.S k' =>
        r <- step i s ;;
        let '(s', lot, llab) := r in
        if small_change lot pot then Ok (s', [lot], [llab], false)
        else if small_change llab plab then Ok (s', [lot], [llab], false)
        else if i =? n_iter_max - 1 then Ok (s', [lot], [llab], true)
        else r' <- jdot_loop k' (Datatypes.S i) s' (Some lot) (Some llab) ;;
             let '(s'', a, b, w) := r' in Ok (s'', lot :: a, llab :: b, w)
    end.
End Loop.

(** Weights of the marginals, lines 276-283 and 427-434. *)
Definition marginal (n : nat) (w : option (list R)) : list R :=
  match w with None => repeat (1 / INR n)%R n | Some l => map (fun t => t / vsum l)%R l end.
(** [Mf / Mf.mean()] *)
Definition norm_mean (M : list (list R)) : list (list R) := map (map (fun t => t / mean (concat M))%R) M.
(** [(1 - alpha) * Mf + alpha * Ml], or only the first term in iteration 0. *)
Definition jdot_cost (alpha : R) (Mf Ml : list (list R)) (i : nat) : list (list R) :=
  if 0 <? i then map2 (map2 (fun f l => (1 - alpha) * f + alpha * l)%R) Mf Ml
  else map (map (fun f => (1 - alpha) * f)%R) Mf.
Definition inner_mat (A B : list (list R)) : R := vsum (map2 (fun a b => dot a b) A B).

(** ** solve_jdot_regression, lines 199-337. [solve M a b]: plan and value; [fit yth]: the estimator fitted on (Xt, yth) and its
    predictions on Xt; [Mf]: the (unnormalised) feature distances; State: label cost and, after an iteration, estimator and plan. *)
Section Regression.
  Context {Est : Type}.
  Variable solve : list (list R) -> list R -> list R -> res (list (list R) * R).
  Variable fit : list R -> option (list R) -> res (Est * list R).
  Definition sqdist (ys yp : list R) : list (list R) := map (fun a => map (fun b => (a - b) * (a - b))%R yp) ys.
  (** [ys.T.dot(T) / b], line 310 *)
  Definition transported (ys : list R) (T : list (list R)) (b : list R) : list R :=
    map (fun jb : nat * R => (dot ys (col T (fst jb)) / snd jb)%R) (combine (seq 0 (length b)) b).
  Definition reg_step (alpha : R) (Mf : list (list R)) (ys : list R) (a b : list R) (wt : option (list R)) (i : nat)
             (s : list (list R) * option (Est * list (list R))) : res ((list (list R) * option (Est * list (list R))) * R * R) :=
    let Ml := fst s in
    sol <- solve (jdot_cost alpha Mf Ml i) a b ;;
    let (T, value) := sol : list (list R) * R in
    let lot := if i =? 0 then (value + alpha * inner_mat Ml T)%R else value in
    let yth := transported ys T b in
    r <- fit yth wt ;;
    let (est, ypred) := r : Est * list R in
    d <- np_map2 (fun x y => (x - y) * (x - y))%R yth ypred ;;
    Ok ((sqdist ys ypred, Some (est, T)), lot, mean d).
  Definition solve_jdot_regression (alpha tol : R) (n_iter_max : nat) (dist : list (list R)) (ys : list R) (nt : nat)
             (ws wt : option (list R)) : res (Est * list R * list R * list (list R) * bool) :=
    let a := marginal (length ys) ws in
    let b := marginal nt wt in
    r <- jdot_loop (reg_step alpha (norm_mean dist) ys a b wt) tol n_iter_max n_iter_max 0 (sqdist ys (repeat 0%R nt), None) None None ;;
    let '(s, lot, llab, w) := r in
    match snd s with Some (est, T) => Ok (est, lot, llab, T, w) | None => Err UnboundLocalError end.
End Regression.

(** ** solve_jdot_classification, lines 340-497. [fit Xh yh wh]; [pred est X]: what the estimator offers on samples X. *)
Section Classification.
  Context {Est Xrow : Type}.
  Variable solve : list (list R) -> list R -> list R -> res (list (list R) * R).
  Variable fit : list Xrow -> list Z -> list R -> res Est.
  Variable pred : Est -> list Xrow -> tgt_pred.
  Definition onehot (labels : list Z) (y : Z) : list R := map (fun c => if (y =? c)%Z then 1%R else 0%R) labels.
  (** [T.T.dot(Ys) * nt], line 463 *)
  Definition label_plan (T Ys : list (list R)) (nt nlab : nat) : list (list R) :=
    map (fun j => map (fun c => (dot (col T j) (col Ys c) * INR nt)%R) (seq 0 nlab)) (seq 0 nt).
  Definition cls_step (metric : jmetric) (alpha thr_weights : R) (Mf : list (list R)) (ys : list Z) (Xt : list Xrow) (a b : list R)
             (i : nat) (s : list (list R) * option (Est * list (list R))) : res ((list (list R) * option (Est * list (list R))) * R * R) :=
    let labels := unique ys in
    let Ys := map (onehot labels) ys in
    let nt := length Xt in
    let Ml := fst s in
    sol <- solve (jdot_cost alpha Mf Ml i) a b ;;
    let (T, value) := sol : list (list R) * R in
    let lot := if i =? 0 then (value + alpha * inner_mat Ml T)%R else value in
    h <- jdot_data Xt (label_plan T Ys nt (length labels)) labels thr_weights ;;
    let '(Xh, yh, wh) := h in
    est <- fit Xh yh wh ;;
    Ml' <- class_cost metric Ys (pred est Xt) ;;
    l <- tgt_loss metric (map (onehot labels) yh) wh (pred est Xh) ;;
    Ok ((Ml', Some (est, T)), lot, (l / INR nt)%R).
  Definition solve_jdot_classification (metric : jmetric) (alpha thr_weights tol : R) (n_iter_max : nat) (dist : list (list R))
             (ys : list Z) (Xt : list Xrow) (ws wt : option (list R)) : res (Est * list R * list R * list (list R) * bool) :=
    let a := marginal (length ys) ws in
    let b := marginal (length Xt) wt in
    r <- jdot_loop (cls_step metric alpha thr_weights (norm_mean dist) ys Xt a b) tol n_iter_max n_iter_max 0
                   (initial_cost (length ys) (length Xt), None) None None ;;
    let '(s, lot, llab, w) := r in
    match snd s with Some (est, T) => Ok (est, lot, llab, T, w) | None => Err UnboundLocalError end.
End Classification.

(** ** JDOTRegressor.fit and JDOTClassifier.fit, lines 573-593 and 701-723: split, solve, store. [solver Xs ys Xt ws wt]. *)
Definition jdot_fit {Xrow L Out} (solver : list Xrow -> list L -> list Xrow -> option (list R) -> option (list R) -> res Out)
           (X : list Xrow) (y : list L) (sw : option (list R)) (sd : list Z) : res Out :=
  px <- source_target_split [Some X] sd ;;
  py <- source_target_split [Some y] sd ;;
  pw <- source_target_split [sw] sd ;;
  match px, py, pw with
  | [Some Xs; Some Xt], [Some ys; _], [ws; wt] => solver Xs ys Xt ws wt
  | _, _, _ => Err ValueError
  end.

(** ** OTLabelPropAdapter.fit_transform, lines 811-857. [sd]: the labels returned by check_X_y_domain; [plan Xs Xt ws wt]: the
    plan of ot.solve. Class labels are integers, the regression labels reals (None: NaN). *)
Section LabelProp.
  Context {Xrow : Type}.
  Variable plan : list Xrow -> list Xrow -> list R -> list R -> res (list (list R)).
  Definition otlp_parts {L} (X : list Xrow) (y : list L) (sw : option (list R)) (sd : list Z)
    : res (list Xrow * list Xrow * list L * list R * list R) :=
    px <- source_target_split [Some X] sd ;;
    py <- source_target_split [Some y] sd ;;
    pw <- source_target_split [sw] sd ;;
    match px, py, pw with
    | [Some Xs; Some Xt], [Some ys; _], [ws; wt] => Ok (Xs, Xt, ys, marginal (length Xs) ws, marginal (length Xt) wt)
    | _, _, _ => Err ValueError
    end.
  (** [G.T.dot(Y)]: mass of each class at target j. *)
  Definition class_mass (G : list (list R)) (ys : list Z) (classes : list Z) (nt : nat) : list (list R) :=
    map (fun j => map (fun c => dot (col G j) (map (fun y => if (y =? c)%Z then 1%R else 0%R) ys)) classes) (seq 0 nt).
  Definition target_mask (sd : list Z) : list bool := map (fun d => (d <? 0)%Z) sd.
  Definition otlp_discrete (X : list Xrow) (y : list Z) (sw : option (list R)) (sd : list Z) : res (list Z) :=
    p <- otlp_parts X y sw sd ;;
    let '(Xs, Xt, ys, ws, wt) := p in
    G <- plan Xs Xt ws wt ;;
    let classes := unique ys in
    idx <- mapM np_argmax (class_mass G ys classes (length Xt)) ;;
    yht <- np_take idx classes ;;
    np_setmask (target_mask sd) yht (repeat (-1)%Z (length y)).
  Definition otlp_regression (X : list Xrow) (y : list R) (sw : option (list R)) (sd : list Z) : res (list (option R)) :=
    p <- otlp_parts X y sw sd ;;
    let '(Xs, Xt, ys, ws, wt) := p in
    G <- plan Xs Xt ws wt ;;
    np_setmask (target_mask sd) (map Some (transported ys G wt)) (repeat None (length y)).

  (** ** JCPOTLabelPropAdapter.fit_transform, lines 949-984. [labels Xs ys Xt]: fit then transform_labels of JCPOTTransport:
      one row per row of Xt, one column per sorted class. *)
  Variable labels : list (list Xrow) -> list (list Z) -> list Xrow -> res (list (list R)).
  Definition values_of {V} (d : dict Z (list (option (list V)))) : list (list V) :=
    map (fun kv => match snd kv with Some l :: _ => l | _ => [] end) d.
  Definition jcpot_fit_transform (X : list Xrow) (y : list Z) (sd : list Z) : res (list Z) :=
    px <- per_domain_split [Some X] sd ;;
    py <- per_domain_split [Some y] sd ;;
    let Xs := values_of (fst px) in
    let ys := values_of (fst py) in
    let twice {A} (l : list A) := if length ys =? 1 then l ++ l else l in
    let Xt := values_of (snd px) in
    if length Xt =? 0 then Err ValueError
    else
      yh <- labels (twice Xs) (twice ys) (concat Xt) ;;
      idx <- mapM np_argmax yh ;;
      np_setmask (target_mask sd) (map Z.of_nat idx) (repeat (-1)%Z (length y)).
End LabelProp.
