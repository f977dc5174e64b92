(** Model of /repo/skada/deep/losses.py and of the MDD and adversarial losses of /repo/skada/deep/_adversarial.py.
    Tensors are lists of rows of real numbers (rounding is not modelled); gradients are not modelled. *)
From Coq Require Import String List ZArith Bool Arith Lia Reals Lra.
From Verif Require Import Np RVec.
Import ListNotations.
Local Open Scope nat_scope.
Local Open Scope list_scope.

(** ** torch (trusted base) *)

Definition norm2 (u : list R) : R := sqrt (dot u u).
(** torch.cdist(x, y, p=2): Euclidean distances. *)
Definition euclid (x y : list R) : R := norm2 (vsub x y).
Definition cdist (xs ys : list (list R)) : list (list R) := map (fun x => map (euclid x) ys) xs.
(** softmax over the last dimension. *)
Definition softmax (l : list R) : list R := map (fun x => exp x / vsum (map exp l))%R l.
(** CrossEntropyLoss(reduction="none") for one row of logits and a class. *)
Definition cross_entropy (logits : list R) (k : nat) : res R :=
  match nth_error logits k with
  | Some x => Ok (ln (vsum (map exp logits)) - x)%R
  | None => Err IndexError
  end.
(** The column [j] of a matrix. *)
Definition column (M : list (list R)) (j : nat) : list R := map (fun r => nth j r 0%R) M.
(** Mean of all the entries of a matrix. *)
Definition mean_all (M : list (list R)) : R := mean (concat M).
(** torch.median: the lower median. *)
Fixpoint insert_sorted (x : R) (l : list R) : list R :=
  match l with [] => [x] | y :: l' => if Rleb x y then x :: l else y :: insert_sorted x l' end.
Definition sort (l : list R) : list R := fold_right insert_sorted [] l.
Definition median (l : list R) : R := nth ((length l - 1) / 2) (sort l) 0%R.

(** ** losses.py *)

(** The number of columns: [shape[1]]. *)
Definition width (M : list (list R)) : nat := match M with [] => 0 | r :: _ => length r end.

(** torch.cov(M.T): it subtracts the mean of every variable and divides by n - 1. *)
Definition centred (l : list R) : list R := map (fun x => x - mean l)%R l.
Definition cov_entry (M : list (list R)) (j k : nat) : R :=
  (dot (centred (column M j)) (centred (column M k)) / (INR (length M) - 1))%R.
Definition torch_cov (M : list (list R)) : list (list R) :=
  map (fun j => map (cov_entry M j) (seq 0 (width M))) (seq 0 (width M)).
(** features - features.mean(0) *)
Definition sub_mean (M : list (list R)) : list (list R) :=
  map (fun r => vsub r (map (fun j => mean (column M j)) (seq 0 (width M)))) M.
(** Lines 20-52; mse_loss with reduction="sum". *)
Definition sq_sum (A B : list (list R)) : R := vsum (map2 (fun r s => vsum (map2 (fun a b => (a - b) * (a - b))%R r s)) A B).
Definition deepcoral_loss (features features_target : list (list R)) (assume_centered : bool) : R :=
  let f := if assume_centered then features else sub_mean features in
  let t := if assume_centered then features_target else sub_mean features_target in
  (1 / (4 * (INR (width features) * INR (width features))) * sq_sum (torch_cov f) (torch_cov t))%R.

(** Lines 55-127. [crit]: the criterion for one prediction and one label (reduction="none"); [emd2]: ot.emd2.
    Lines 108-113: the input of the criterion has shape (nt, c, nt), its target (ns, ns). *)
Section DeepJDOT.
  Variable Lab : Type.
  Variable crit : list R -> Lab -> res R.
  Variable emd2 : list R -> list R -> list (list R) -> res R.
  Definition label_cost (y_s : list Lab) (y_pred_t : list (list R)) : res (list (list R)) :=
    let ns := length y_s in
    let nt := length y_pred_t in
    if ns =? nt then
      (** out[t][s] = criterion of prediction t and label s, transposed *)
      mapM (fun y => mapM (fun p => crit p y) y_pred_t) y_s
    else Err RuntimeError.
  Definition uniform (n : nat) : list R := repeat (1 / INR n)%R n.
  Definition deepjdot_loss (y_s : list Lab) (y_pred_t features_s features_t : list (list R)) (reg_dist reg_cl : R)
             (sample_weights target_sample_weights : option (list R)) : res R :=
    let dist := map (map (fun d => d * d)%R) (cdist features_s features_t) in
    l <- label_cost y_s y_pred_t ;;
    M <- (if (length dist =? length l) && forallb (fun p => length (fst p) =? length (snd p)) (combine dist l)
          then Ok (map2 (map2 (fun d c => reg_dist * d + reg_cl * c)%R) dist l) else Err RuntimeError) ;;
    let a := match sample_weights with Some w => w | None => uniform (length features_s) end in
    let b := match target_sample_weights with Some w => w | None => uniform (length features_t) end in
    emd2 a b M.
End DeepJDOT.

(** Lines 130-138: despite its name the kernel has the distance, not its square, in the exponent. *)
Definition multi_kernel (sigmas : list R) (x y : list R) : R := vsum (map (fun s => exp (- (1 / s * euclid x y)))%R sigmas).
Definition gaussian_kernel (sigmas : list R) (xs ys : list (list R)) : list (list R) := map (fun x => map (multi_kernel sigmas x) ys) xs.
(** Lines 141-149. *)
Definition mmd (sigmas : list R) (xs ys : list (list R)) : R :=
  (mean_all (gaussian_kernel sigmas xs xs) + mean_all (gaussian_kernel sigmas ys ys) - 2 * mean_all (gaussian_kernel sigmas xs ys))%R.
(** Lines 178-189 and 270-281. *)
Definition default_sigmas (features_s : list (list R)) (eps : R) : list R :=
  map (fun i => / 2 ^ 8 * exp (INR i / 2 * ln 2) * (median (concat (cdist features_s features_s)) + eps))%R (seq 0 33).
Definition the_sigmas (sigmas : option (list R)) (features_s : list (list R)) (eps : R) : list R :=
  match sigmas with Some s => s | None => default_sigmas features_s eps end.
(** Lines 152-195. *)
Definition dan_loss (features_s features_t : list (list R)) (sigmas : option (list R)) (eps : R) : R :=
  mmd (the_sigmas sigmas features_s eps) features_s features_t.

(** Lines 352-410. *)
Definition probability_scaling (T : R) (logits : list (list R)) : list (list R) := map (fun r => softmax (map (fun x => x / T)%R r)) logits.
Definition entropy (eps : R) (p : list R) : R := (- vsum (map (fun x => x * ln (x + eps)) p))%R.
Definition mcc_weights (eps : R) (Y : list (list R)) : list R :=
  let e := map (fun p => 1 + exp (- entropy eps p))%R Y in map (fun v => v / mean e)%R e.
Definition class_correlation (eps : R) (Y : list (list R)) : list (list R) :=
  let Z := map2 vscale (mcc_weights eps Y) Y in
  map (fun j => map (fun k => dot (column Y j) (column Z k)) (seq 0 (width Y))) (seq 0 (width Y)).
Definition row_normalise (C : list (list R)) : list (list R) := map (fun r => map (fun x => x / vsum r)%R r) C.
(** [M - diag(diag(M))], row by row. *)
Definition without_diag (M : list (list R)) : list (list R) :=
  map2 (fun j r => map2 (fun k x => if j =? k then x - x else x)%R (seq 0 (length r)) r) (seq 0 (length M)) M.
Definition mcc_loss (y : list (list R)) (T eps : R) : R :=
  let C := row_normalise (class_correlation eps (probability_scaling T y)) in
  mean (map (fun r => vsum (map Rabs r)) (without_diag C)).

(** ** Contrastive domain discrepancy, lines 198-333 *)

(** F.cosine_similarity (eps=1e-8) of two vectors. *)
Definition cos_eps : R := (1 / 10 ^ 8)%R.
Definition cosine (u v : list R) : R := (dot u v / (Rmax (norm2 u) cos_eps * Rmax (norm2 v) cos_eps))%R.
(** Lines 256-258: shapes (n, 1, d) and (1, k, d), reduced over dimension 1, the default: for every sample and every feature, the
    cosine between the feature repeated k times and that feature of the k centroids. *)
Definition cdd_similarities (x : list R) (centers : list (list R)) : list R :=
  map (fun j => cosine (repeat (nth j x 0%R) (length centers)) (column centers j)) (seq 0 (length x)).
Fixpoint list_max (x : R) (l : list R) : R := match l with [] => x | y :: l' => list_max (Rmax x y) l' end.
Definition max_of (l : list R) : R := match l with [] => 0%R | x :: l' => list_max x l' end.
(** Line 259. *)
Definition confident (threshold : R) (centers : list (list R)) (x : list R) : bool :=
  Rltb (1 / 2 * (1 - max_of (cdd_similarities x centers)))%R threshold.
(** torch.bincount(labels, minlength=n) *)
Definition bincount (labels : list nat) (n : nat) : list nat :=
  map (fun c => length (filter (Nat.eqb c) labels)) (seq 0 (Nat.max n (S (fold_right Nat.max 0 labels) - (if length labels =? 0 then 1 else 0)))).
(** (y == c).float() *)
Definition indicator (y : list nat) (c : nat) : list R := map (fun k => if k =? c then 1%R else 0%R) y.
(** Lines 291-298 and 302-309: the mask of shape (n,) is broadcast over the rows of the kernel matrix. *)
Definition same_term (K : list (list R)) (mask : list R) : R :=
  if Rltb 0 (vsum mask) then (vsum (map (fun r => vsum (map2 Rmult r mask)) K) / (vsum mask * vsum mask))%R else 0%R.
(** Lines 312-322. *)
Definition cross_term (K : list (list R)) (m1 m2 : list R) : R :=
  let total := (vsum m1 * vsum m2)%R in
  if Rltb 0 total then (vsum (map2 (fun a r => a * vsum (map2 Rmult r m2)) m1 K) / (total * total))%R else 0%R.
(** e1 + e2 - 2 e3 for a pair of classes. *)
Definition discrepancy (sigmas : list R) (y_s : list nat) (features_s : list (list R)) (labels_t : list nat) (features_t : list (list R)) (c1 c2 : nat) : R :=
  (same_term (gaussian_kernel sigmas features_s features_s) (indicator y_s c1)
   + same_term (gaussian_kernel sigmas features_t features_t) (indicator labels_t c2)
   - 2 * cross_term (gaussian_kernel sigmas features_s features_t) (indicator y_s c1) (indicator labels_t c2))%R.
Definition n_unique (y : list nat) : nat := length (nodup Nat.eq_dec y).
(** Lines 243-333. [kmeans]: the centroids and the predicted cluster of a sample, if the k-means has been fitted. Python: dividing the
    integer 0 by 0 raises (no pair of different classes), a division of a tensor by 0 would not; [diff]: a tensor was added to interclass. *)
Definition cdd_loss (y_s : list nat) (features_s features_t : list (list R)) (kmeans : option (list (list R) * (list R -> nat)))
           (sigmas : option (list R)) (distance_threshold : R) (class_threshold : nat) (eps : R) : res R :=
  match kmeans with
  | None => Err ValueError
  | Some (centers, predict) =>
      let n_classes := n_unique y_s in
      let ft := filter (confident distance_threshold centers) features_t in
      let counts := bincount (map predict ft) n_classes in
      let valid c := class_threshold <=? nth c counts 0 in
      let ft := filter (fun x => valid (predict x)) ft in
      let sg := the_sigmas sigmas features_s eps in
      let d := discrepancy sg y_s features_s (map predict ft) ft in
      let pairs := flat_map (fun c1 => map (fun c2 => (c1, c2)) (seq c1 (n_classes - c1))) (seq 0 n_classes) in
      let kept := filter (fun p => valid (fst p) && valid (snd p)) pairs in
      let intra := vsum (map (fun p => d (fst p) (snd p)) (filter (fun p => fst p =? snd p) kept)) in
      let inter := filter (fun p => negb (fst p =? snd p)) kept in
      let n := length counts in
      if (n =? 0) || ((n =? 1) && (length inter =? 0)) then Err ZeroDivisionError
      else Ok (intra / INR n - vsum (map (fun p => d (fst p) (snd p)) inter) / (INR n * INR n - INR n))%R
  end.

(** ** Margin disparity discrepancy: _adversarial.py *)

(** Lines 376-420. [None]: log of zero (the result is not a finite number). [smooth_prob[..., target]] has one entry for every
    sample and every target. *)
Definition log1m (p : R) : option R := if Rltb p 1 then Some (ln (1 - p))%R else None.
Fixpoint all_some {A} (l : list (option A)) : option (list A) :=
  match l with [] => Some [] | None :: _ => None | Some x :: l' => match all_some l' with Some r => Some (x :: r) | None => None end end.
Definition smooth (smoothing : R) (row : list R) : list R :=
  map (fun p => (1 - smoothing) * p + smoothing / INR (length row))%R (softmax row).
Definition modified_cross_entropy (smoothing : R) (input : list (list R)) (target : list nat) : res (option R) :=
  picked <- mapM (fun row => mapM (fun t => match nth_error (smooth smoothing row) t with Some p => Ok p | None => Err IndexError end) target) input ;;
  Ok (option_map mean (all_some (map log1m (concat picked)))).
(** CrossEntropyLoss() with reduction="mean". *)
Definition cross_entropy_mean (input : list (list R)) (target : list nat) : res R :=
  l <- np_map2 (fun r t => (r, t)) input target ;;
  v <- mapM (fun rt => cross_entropy (fst rt) (snd rt)) l ;;
  Ok (mean v).
(** Lines 451-471. *)
Definition mdd_loss (gamma smoothing : R) (y_pred_s y_pred_t domain_pred_s domain_pred_t : list (list R)) : res (option R) :=
  ps <- mapM np_argmax y_pred_s ;;
  pt <- mapM np_argmax y_pred_t ;;
  ls <- cross_entropy_mean domain_pred_s ps ;;
  lt <- modified_cross_entropy smoothing domain_pred_t pt ;;
  Ok (option_map (fun v => gamma * ls - v)%R lt).
