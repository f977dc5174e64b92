(** Model of /repo/skada/deep/callbacks.py, of SphericalKMeans in /repo/skada/deep/utils.py, of the domain classifier, of the
    adversarial losses, of the multilinear map of CDAN, and of the schedules and pseudo-label loss of SPA.
    Tensors are lists of rows of real numbers; the features and outputs of the networks are inputs. *)
From Coq Require Import String List ZArith Bool Arith Lia Reals Lra.
From Verif Require Import Np RVec LossModel.
Import ListNotations.
Local Open Scope nat_scope.
Local Open Scope list_scope.

(** ** skada/deep/utils.py, SphericalKMeans *)

(** Lines 292-312 and 314-337: one half of one minus the cosine. *)
Definition dissim (x c : list R) : R := (1 / 2 * (1 - cosine x c))%R.
(** Lines 194 and 169: division of a row by its norm (a zero row would give nan; not modelled). *)
Definition normalise (x : list R) : list R := map (fun a => a / norm2 x)%R x.
(** Lines 245-246, 289-290: index of the closest centroid, the first one on ties. *)
Definition closest (cents : list (list R)) (x : list R) : res nat := np_argmin (map (dissim x) cents).
(** Sum of rows. *)
Definition vsum_rows (d : nat) (rows : list (list R)) : list R := fold_right vadd (repeat 0%R d) rows.
Definition members (k : nat) (labels : list nat) (X : list (list R)) : list (list R) :=
  map snd (filter (fun p => fst p =? k) (combine labels X)).
(** Lines 249-252: the new centroid of cluster [k]: the sum of its samples, zero if it has none. *)
Definition new_centroid (d : nat) (labels : list nat) (X : list (list R)) (k : nat) : list R := vsum_rows d (members k labels X).
(** [new_centroids] has the shape of [centroids]; rows beyond n_clusters stay zero. *)
Definition update (n_clusters d : nat) (labels : list nat) (X cents : list (list R)) : list (list R) :=
  map (fun k => if k <? n_clusters then new_centroid d labels X k else repeat 0%R d) (seq 0 (length cents)).
(** torch.allclose(a, b, atol=tol) with rtol=1e-5. *)
Definition close1 (tol a b : R) : bool := Rleb (Rabs (a - b)) (tol + 1 / 10 ^ 5 * Rabs b)%R.
Definition allclose (tol : R) (A B : list (list R)) : bool := forallb (fun p => forallb (fun q => close1 tol (fst q) (snd q)) (combine (fst p) (snd p))) (combine A B).
(** Lines 242-259: the loop; result: centroids, and the labels and number of the last iteration if there was one. *)
Fixpoint kloop (n_clusters d : nat) (tol : R) (X : list (list R)) (fuel n : nat) (cents : list (list R)) (last : option (list nat * nat))
  : res (list (list R) * option (list nat * nat)) :=
  match fuel with
  | 0 => Ok (cents, last)
  | S fuel' =>
      labels <- mapM (closest cents) X ;;
      let new := update n_clusters d labels X cents in
      if allclose tol cents new then Ok (cents, Some (labels, n)) else kloop n_clusters d tol X fuel' (S n) new (Some (labels, n))
  end.
(** Sum of the dissimilarities to the centroid of the label. *)
Definition inertia_of (X cents : list (list R)) (labels : list nat) : R := vsum (map2 (fun x l => dissim x (nth l cents [])) X labels).
(** Lines 223-264. *)
Definition run_single (n_clusters d max_iter : nat) (tol : R) (X cents : list (list R)) : res (R * list (list R) * nat) :=
  r <- kloop n_clusters d tol X max_iter 0 cents None ;;
  match r with
  | (c, Some (labels, n)) => Ok (inertia_of X c labels, c, n)
  | (_, None) => Err UnboundLocalError
  end.
(** Lines 200-208: the loop over the random initialisations ([inits], the outcomes of lines 163-169). *)
Fixpoint best_of (run : list (list R) -> res (R * list (list R) * nat)) (inits : list (list (list R))) (best : option (R * list (list R) * nat))
  : res (option (R * list (list R) * nat)) :=
  match inits with
  | [] => Ok best
  | c :: rest =>
      r <- run c ;;
      best_of run rest (match best with
                        | None => Some r
                        | Some b => if Rltb (fst (fst r)) (fst (fst b)) then Some r else Some b
                        end)
  end.
(** Lines 171-221; result: inertia_, cluster_centers_, n_iter_. *)
Record fitted := mkFit { f_inertia : R; f_centers : list (list R); f_n_iter : nat }.
Definition kmeans_fit (n_clusters d max_iter : nat) (tol : R) (X : list (list R)) (initial : option (list (list R))) (inits : list (list (list R))) : res fitted :=
  let Xn := map normalise X in
  let run := run_single n_clusters d max_iter tol Xn in
  best <- match initial with
          | None => best_of run inits None
          | Some c => r <- run c ;; Ok (Some r)
          end ;;
  match best with
  | None => Err TypeError
  | Some (i, c, n) => Ok (mkFit i c (n + 1))
  end.
(** Lines 266-290. *)
Definition kmeans_predict (f : fitted) (X : list (list R)) : res (list nat) := mapM (closest (f_centers f)) X.

(** ** skada/deep/callbacks.py *)

(** F.normalize(x, p=2): the norm is clamped from below by 1e-12. *)
Definition f_normalize (x : list R) : list R := map (fun a => a / Rmax (norm2 x) (1 / 10 ^ 12))%R x.
(** Lines 53-64: the source centroids; labels as integers. torch.stack of an empty list raises. *)
Definition unique_count (y : list Z) : nat := length (nodup Z.eq_dec y).
Definition of_label (c : Z) (y : list Z) (F : list (list R)) : list (list R) := map snd (filter (fun p => (fst p =? c)%Z) (combine y F)).
Definition source_centroids (d : nat) (y : list Z) (features_s : list (list R)) : res (list (list R)) :=
  let cs := flat_map (fun c => match of_label (Z.of_nat c) y features_s with
                               | [] => []
                               | rows => [vsum_rows d (map f_normalize rows)]
                               end) (seq 0 (unique_count y)) in
  match cs with [] => Err RuntimeError | _ => Ok cs end.

(** Lines 115-132: the bank at the start of a fit; [draw]: torch.rand. *)
Definition bank_init (draw : list (list R)) (n_classes : nat) : list (list R) * list (list R) :=
  (map normalise draw, map (fun _ => repeat (1 / INR n_classes)%R n_classes) draw).
(** Indexing with an integer tensor, reading and writing (the indices are not negative). *)
Definition gather (mem : list (list R)) (idx : list nat) : res (list (list R)) :=
  mapM (fun i => match nth_error mem i with Some r => Ok r | None => Err IndexError end) idx.
Fixpoint set_nth (mem : list (list R)) (i : nat) (r : list R) : list (list R) :=
  match mem, i with [], _ => [] | _ :: m, 0 => r :: m | x :: m, S i' => x :: set_nth m i' r end.
Fixpoint scatter (mem : list (list R)) (idx : list nat) (rows : list (list R)) : list (list R) :=
  match idx, rows with i :: idx', r :: rows' => scatter (set_nth mem i r) idx' rows' | _, _ => mem end.
(** Lines 159-170, for one of the two banks. The lines 162 and 167 are expression statements: the new value is only
    (1 - momentum) times the old one. [new]: the features (outputs) of the batch, computed and dropped. *)
Definition bank_update (momentum : R) (mem : list (list R)) (idx : list nat) (new : list (list R)) : res (list (list R)) :=
  old <- gather mem idx ;;
  Ok (scatter mem idx (map (vscale (1 - momentum)%R) old)).
Fixpoint bank_run (momentum : R) (mem : list (list R)) (batches : list (list nat * list (list R))) : res (list (list R)) :=
  match batches with
  | [] => Ok mem
  | (idx, new) :: rest => m <- bank_update momentum mem idx new ;; bank_run momentum m rest
  end.

(** skada/deep/base.py lines 1279-1297: the number of every sample within its domain, for the target samples. *)
Definition sample_numbers (sd : list Z) : list nat := map (fun i => length (filter (Z.eqb (nth i sd 0%Z)) (firstn i sd))) (seq 0 (length sd)).
Definition target_numbers (sd : list Z) : list nat := map snd (filter (fun p => (fst p <? 0)%Z) (combine sd (sample_numbers sd))).

(** Lines 173-182: [cb]: the counter of the callback; [crit]: the counter of the criterion, an object that lives as long as the net. *)
Record counters := mkCount { c_cb : nat; c_crit : nat }.
Definition count_train_begin (s : counters) : counters := mkCount 0 (c_crit s).
Definition count_epoch_begin (s : counters) : counters := mkCount (c_cb s) (S (c_crit s)).
(** The values of the criterion counter during the epochs of a fit, and the state after it. *)
Fixpoint count_epochs (n : nat) (s : counters) : list nat * counters :=
  match n with
  | 0 => ([], s)
  | S n' => let s' := count_epoch_begin s in let (l, s'') := count_epochs n' s' in (c_crit s' :: l, s'')
  end.
Definition count_fit (n : nat) (s : counters) : list nat * counters := count_epochs n (count_train_begin s).
Fixpoint count_fits (fits : list nat) (s : counters) : list (list nat) * counters :=
  match fits with
  | [] => ([], s)
  | n :: rest => let (l, s') := count_fit n s in let (ls, s'') := count_fits rest s' in (l :: ls, s'')
  end.

(** ** skada/deep/_graph_alignment.py, lines 76-86 *)

Definition scheduler_adv (n max_epochs : nat) : R :=
  (2 * (1 - 0) / (1 + exp (- 10 * INR n / INR max_epochs)) - (1 - 0) + 0)%R.
Definition scheduler_nap (n max_epochs : nat) : R := (INR n / INR max_epochs)%R.

(** ** skada/deep/modules.py, lines 156-196 (the gradient reversal layer is the identity in the forward pass) *)

(** [hidden]: linear layer, batch normalisation and ReLU; [W], [b]: the last linear layer, with n_classes rows. *)
Definition domain_classifier (hidden : list R -> list R) (W : list (list R)) (b : list R) (x : list R) : list R :=
  softmax (vadd (matvec W (hidden x)) b).
(** torch.nn.BCELoss: logarithms clamped at -100. *)
Definition clamped_log (p : R) : R := if Rltb 0 p then Rmax (ln p) (-100) else (-100)%R.
Definition bce (p t : R) : R := (- (t * clamped_log p + (1 - t) * clamped_log (1 - p)))%R.
Definition bce_loss (p t : list R) : res R := l <- np_map2 bce p t ;; Ok (mean l).
(** skada/deep/_adversarial.py lines 54-75 (and 180-203): source samples have label 0, target samples label 1. *)
Definition dann_loss (criterion : list R -> list R -> res R) (domain_pred_s domain_pred_t : list R) : res R :=
  a <- criterion domain_pred_s (repeat 0%R (length domain_pred_s)) ;;
  b <- criterion domain_pred_t (repeat 1%R (length domain_pred_t)) ;;
  Ok (a + b)%R.

(** ** CDANModule, _adversarial.py lines 244-276, and _RandomLayer, lines 556-589 *)

(** Lines 270-271, for one sample: outer product, flattened. *)
Definition multilinear (y f : list R) : list R := concat (map (fun a => map (Rmult a) f) y).
(** The random number generators: [Gen] its states, [seeded s]: the state after manual_seed(s), [fresh]: the seed drawn by
    torch.Generator().seed(), [randn g n m]: a matrix and the next state. All draws here go through the global generator of torch. *)
Section CDAN.
  Variable Gen : Type.
  Variable seeded : Z -> Gen.
  Variable randn : Gen -> nat -> nat -> list (list R) * Gen.
  (** utils.py lines 38-62 for None ([os]: the seed the system provides) and an integer: both reseed the global generator. *)
  Definition check_generator (seed : option Z) (os : Z) : Gen := match seed with None => seeded os | Some s => seeded s end.
  (** Line 573-589; matrices times vectors from the left. *)
  Definition vecmat (x : list R) (M : list (list R)) (m : nat) : list R := map (fun j => dot x (column M j)) (seq 0 m).
  Definition random_map (out : nat) (R0 R1 : list (list R)) (f y : list R) : list R :=
    map2 Rmult (map (fun a => a / sqrt (INR out))%R (vecmat f R0 out)) (vecmat y R1 out).
  (** One training forward pass: the inputs of the domain classifier for the batch, and the new global generator. *)
  Definition cdan_forward (max_features : nat) (seed : option Z) (os : Z) (g : Gen) (n_features n_classes : nat) (batch : list (list R * list R))
    : list (list R) * Gen :=
    if max_features <? n_features * n_classes then
      let g0 := check_generator seed os in
      let (R0, g1) := randn g0 n_features max_features in
      let (R1, g2) := randn g1 n_classes max_features in
      (map (fun p => random_map max_features R0 R1 (fst p) (snd p)) batch, g2)
    else (map (fun p => multilinear (snd p) (fst p)) batch, g).
End CDAN.

(** ** nap_loss, losses.py lines 481-515 *)

(** Lines 501-502: squared distances to the bank, +inf ([None]) in the columns of the samples of the batch. *)
Definition nap_distances (memory : list (list R)) (sample_idx : list nat) (x : list R) : list (option R) :=
  map (fun j => if existsb (Nat.eqb j) sample_idx then None else Some (euclid x (nth j memory []) * euclid x (nth j memory []))%R) (seq 0 (length memory)).
(** Lines 508-513; [neighbours]: the result of topk for every sample (see CallSpec for what it must be). *)
Definition nap_weights (K mem_size : nat) (idx : list nat) : list R := map (fun j => if existsb (Nat.eqb j) idx then (1 / INR K)%R else 0%R) (seq 0 mem_size).
Definition nap_pseudo (K : nat) (memory_outputs : list (list R)) (idx : list nat) : res (R * nat) :=
  let v := vecmat (nap_weights K (length memory_outputs) idx) memory_outputs (width memory_outputs) in
  k <- np_argmax v ;; Ok (nth k v 0%R, k).
Definition nap_loss (K : nat) (memory_outputs : list (list R)) (neighbours : list (list nat)) (y_pred_t : list (list R)) : res R :=
  p <- mapM (nap_pseudo K memory_outputs) neighbours ;;
  l <- np_map2 (fun r q => (r, q)) y_pred_t p ;;
  v <- mapM (fun rq => c <- cross_entropy (fst rq) (snd (snd rq)) ;; Ok (fst (snd rq) * c)%R) l ;;
  Ok (vsum v / (vsum (map fst p) + 1 / 10 ^ 7))%R.
