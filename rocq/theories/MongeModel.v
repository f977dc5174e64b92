(** The numbers of MultiLinearMongeAlignmentAdapter: covariances, affine maps to the barycentre, and the transformed rows. *)
From Coq Require Import List ZArith Bool Arith Reals.
From Verif Require Import Np MapModel.
Import ListNotations.
Local Open Scope R_scope.

(** _mapping.py lines 522-549, [_get_cov_mean] of an m-row matrix; [w]: the sample weights, or None. *)
Definition get_cov_mean (bias : bool) (w : option (nat -> R)) (m : nat) (X : mat) : mat * (nat -> R) :=
  let w := match w with None => fun _ => 1 | Some w => w end in
  let mean := if bias then fun j => msum m (fun i => w i * X i j) / msum m w else fun _ => 0 in
  let Xc := fun i j => X i j - mean j in
  (fun j l => msum m (fun i => w i * Xc i j * Xc i l) / msum m w, mean).

Section Monge.
  Variable eigh : mat -> (nat -> R) * mat.
  (** [ot.gaussian.bures_wasserstein_mapping(ms, mt, Cs, Ct)] of POT, as documented there: A = Cs^(-1/2) (Cs^(1/2) Ct Cs^(1/2))^(1/2) Cs^(-1/2) and
      b = mt - ms A. POT's square root goes through eigh like [sqrtm]; the inverse of the root is written as the root of the inverse. *)
  Definition bw_mapping (n : nat) (ms mt : nat -> R) (Cs Ct : mat) : mat * (nat -> R) :=
    let S := sqrtm eigh n Cs in
    let S' := invsqrtm eigh n Cs in
    let M := sqrtm eigh n (mmul n (mmul n S Ct) S) in
    let A := mmul n (mmul n S' M) S' in
    (A, fun j => mt j - msum n (fun k => ms k * A k j)).

  (** [ot.gaussian.bures_wasserstein_barycenter(m, C, eps)]: means and covariances to a mean and a covariance. *)
  Variable bary : list (nat -> R) -> list mat -> (nat -> R) * mat.
  (** fit, lines 624-663, after the split into domains (C43 models the split): a domain is its label, its number of rows and its rows; the split
      passes no weights. The dictionary of the sources' maps is updated with the targets'. *)
  Definition domain := (Z * (nat * mat))%type.
  Definition mlm_fit_num (n : nat) (bias : bool) (sources targets : list domain) : list (Z * (mat * (nat -> R))) :=
    let params := fun ds : list domain => map (fun d => (fst d, get_cov_mean bias None (fst (snd d)) (snd (snd d)))) ds in
    let b := bary (map (fun p => snd (snd p)) (params sources)) (map (fun p => fst (snd p)) (params sources)) in
    let maps := fun ps : list (Z * (mat * (nat -> R))) => map (fun p => (fst p, bw_mapping n (snd (snd p)) (fst b) (fst (snd p)) (snd b))) ps in
    dict_update Z.eqb (maps (params sources)) (maps (params targets)).
  (** transform, lines 696-698, the rows [X] of the domain [k]; an unknown domain is a KeyError (line 697). *)
  Definition mlm_transform_num (n : nat) (maps : list (Z * (mat * (nat -> R)))) (k : Z) (X : mat) : res mat :=
    Ab <- dict_getitem Z.eqb k maps ;; Ok (fun i j => mmul n X (fst Ab) i j + snd Ab j).
End Monge.
