(** Model of the quadratic cost of MMDTarSReweightAdapter, /repo/skada/_reweight.py lines 1249-1282, for class labels. The constraints
    (lines 1284-1297) are [tars_problem] of ReweightModel, whose [solve] receives both. *)
From Coq Require Import List ZArith Bool Arith Lia Reals Lra.
From Verif Require Import Np Labels RVec MapModel ReweightModel.
Import ListNotations.
Local Open Scope nat_scope.

Section Cost.
  Variable Row : Type.
  (** Value of [nth] outside the list; never used, all indices are in range. *)
  Variable row0 : Row.
  (** The RBF kernels of lines 1257, 1258 and 1273 on labels and on samples. *)
  Variable lkern : Z -> Z -> R.
  Variable kern : Row -> Row -> R.
  (** np.linalg.inv of a matrix of the given size. *)
  Variable inv : nat -> mat -> mat.
  Variable reg : R.

  Definition delta (i j : nat) : R := if i =? j then 1%R else 0%R.
  (** Line 1257. *)
  Definition tars_L (ys : list Z) : mat := fun i j => lkern (nth i ys 0%Z) (nth j ys 0%Z).
  (** Line 1258. *)
  Definition tars_K (Xs : list Row) : mat := fun i j => kern (nth i Xs row0) (nth j Xs row0).
  (** Line 1259. *)
  Definition tars_omega (ys : list Z) : mat :=
    let m := length ys in mmul m (tars_L ys) (inv m (fun i j => tars_L ys i j + reg * delta i j)%R).
  (** Line 1260. *)
  Definition tars_A (Xs : list Row) (ys : list Z) : mat :=
    let m := length ys in mmul m (mmul m (tars_omega ys) (tars_K Xs)) (mT (tars_omega ys)).
  (** Lines 1264-1267. *)
  Definition tars_R (ys : list Z) : mat := fun i a => if Z.eqb (nth i ys 0%Z) (nth a (unique ys) 0%Z) then 1%R else 0%R.
  (** Lines 1273-1274: the only row of M. *)
  Definition tars_M (Xs Xt : list Row) (ys : list Z) (j : nat) : R :=
    let m := length ys in let n := length Xt in
    msum m (fun l => msum n (fun i => 1 * kern (nth i Xt row0) (nth l Xs row0)) * mT (tars_omega ys) l j)%R.
  (** Lines 1280-1281. *)
  Definition tars_P (Xs : list Row) (ys : list Z) : mat :=
    let m := length ys in
    fun a b => (mmul m (mmul m (mT (tars_R ys)) (tars_A Xs ys)) (tars_R ys) a b + / 1000000000000 * delta a b)%R.
  (** Line 1282. *)
  Definition tars_q (Xs Xt : list Row) (ys : list Z) (a : nat) : R :=
    (- (INR (length ys) / INR (length Xt)) * msum (length ys) (fun j => tars_M Xs Xt ys j * tars_R ys j a))%R.
  (** The objective of qp_solve, utils.py lines 769-773: 0.5 x @ (Q @ x) + x @ c. *)
  Definition tars_cost (Xs Xt : list Row) (ys : list Z) (alpha : list R) : R :=
    let k := length (unique ys) in
    (1 / 2 * msum k (fun a => nth a alpha 0 * msum k (fun b => tars_P Xs ys a b * nth b alpha 0)) +
     msum k (fun a => nth a alpha 0 * tars_q Xs Xt ys a))%R.
End Cost.
