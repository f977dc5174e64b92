(** Model of the graph alignment loss of /repo/skada/deep/losses.py (lines 413-478), of SPALoss.forward in
    /repo/skada/deep/_graph_alignment.py (lines 88-135), and of the backward pass through GradientReversalLayer in
    /repo/skada/deep/modules.py (lines 136-153). Batches are lists of rows of real numbers, matrices functions of two indices with
    their size; rounding is not modelled. *)
From Coq Require Import String List ZArith Bool Arith Lia Reals Lra.
From Verif Require Import Np RVec LossModel CallModel.
Import ListNotations.
Local Open Scope nat_scope.
Local Open Scope list_scope.

Inductive metric := MCos | MGauss | MEuc | MOther.
Inductive laplac := Lap1 | Lap2 | Lap3 | LapOther.
(** Lines 413-430, with s = t: the entry of two rows. *)
Definition adj_entry (m : metric) (x y : list R) : R :=
  match m with
  | MCos => dot (f_normalize x) (f_normalize y)
  | MGauss => exp (- (1 / 2) * (euclid x y * euclid x y) / (3 / 2 * (3 / 2)))%R
  | _ => euclid x y
  end.
Definition adj (m : metric) (s : list (list R)) : res (nat -> nat -> R) :=
  match m with MOther => Err ValueError | _ => Ok (fun i j => adj_entry m (nth i s []) (nth j s [])) end.
(** Lines 433-455; [n]: the size. A row sum that makes the square root or the quotient undefined gives an entry that is not finite, on
    which torch.linalg.svd raises LinAlgError, a RuntimeError. *)
Definition eps_lap : R := (1 / 10 ^ 7)%R.
Definition row_sum (n : nat) (A : nat -> nat -> R) (i : nat) : R := vsum (map (A i) (seq 0 n)).
Definition delta (i j : nat) : R := if i =? j then 1%R else 0%R.
Definition laplacian (l : laplac) (n : nat) (A : nat -> nat -> R) : res (nat -> nat -> R) :=
  let v := fun i => (row_sum n A i + eps_lap)%R in
  match l with
  | Lap1 => if existsb (fun i => Reqb (v i) 0) (seq 0 n) then Err RuntimeError else Ok (fun i j => (- (1 / v i) * A i j)%R)
  | Lap2 => Ok (fun i j => (delta i j * row_sum n A i - A i j)%R)
  | Lap3 => if existsb (fun i => Rleb (v i) 0) (seq 0 n) then Err RuntimeError
            else Ok (fun i j => (delta i j - 1 / sqrt (v i) * A i j * (1 / sqrt (v j)))%R)
  | LapOther => Err ValueError
  end.
(** s_v - t_v with torch broadcasting. *)
Definition sub_broadcast (u v : list R) : res (list R) :=
  if length u =? length v then Ok (map2 Rminus u v)
  else match u, v with
       | [a], _ => Ok (map (fun b => a - b)%R v)
       | _, [b] => Ok (map (fun a => a - b)%R u)
       | _, _ => Err RuntimeError
       end.
(** Lines 458-478. [sv n M]: the singular values of the n x n matrix M (torch.linalg.svd), in decreasing order. *)
Definition gda_loss (sv : nat -> (nat -> nat -> R) -> list R) (m : metric) (l : laplac) (s t : list (list R)) : res R :=
  a <- adj m s ;; b <- adj m t ;;
  p <- laplacian l (length s) a ;; q <- laplacian l (length t) b ;;
  d <- sub_broadcast (sv (length s) p) (sv (length t) q) ;;
  Ok (norm2 d).

(** _graph_alignment.py lines 88-135; [crit]: the domain criterion, [nap]: the value of nap_loss, [n]: n_epochs. *)
Definition spa_loss (sv : nat -> (nat -> nat -> R) -> list R) (crit : list R -> list R -> res R) (nap : res R) (reg_adv reg_gsa reg_nap : R)
           (n max_epochs : nat) (domain_pred_s domain_pred_t : list R) (features_s features_t : list (list R)) : res R :=
  if max_epochs =? 0 then Err ZeroDivisionError else
  d <- dann_loss crit domain_pred_s domain_pred_t ;;
  g <- gda_loss sv MGauss Lap1 features_s features_t ;;
  p <- nap ;;
  Ok (reg_adv * scheduler_adv n max_epochs * d + reg_gsa * g + reg_nap * scheduler_nap n max_epochs * p)%R.

(** modules.py lines 149-153. *)
Definition grl_backward (alpha : R) (grad_output : list R) : list R := map (fun g => - g * alpha)%R grad_output.
(** What autograd computes for one parameter of the feature extractor when the total loss is base + reg * domain loss (base.py lines
    126-143): [gz]: gradient of the domain loss at the input of the classifier, [dz]: derivatives of the features, [db]: derivative of
    the base loss. And for one parameter of the domain classifier, [dc]: the derivative of the domain loss. *)
Definition grad_features (reg alpha : R) (db : R) (gz dz : list R) : R := (db + dot (grl_backward alpha (vscale reg gz)) dz)%R.
Definition grad_classifier (reg dc : R) : R := (reg * dc)%R.
