(** Model of the objective of MMDLSConSMappingAdapter, /repo/skada/_mapping.py lines 1027-1097. The optimiser (torch_minimize, modelled in
    the files of C130) receives [ls_func]; here only the function it minimises and its starting point are modelled. Matrices are functions of
    two indices used below their sizes. *)
From Coq Require Import List ZArith Bool Arith Reals.
From Verif Require Import Np Labels RVec MapModel.
Import ListNotations.
Local Open Scope nat_scope.

Section Objective.
  (** torch.linalg.inv of a matrix of the given size. *)
  Variable inv : nat -> mat -> mat.
  Variables gamma reg_k reg_m : R.
  (** Sizes, lines 1050-1051: m sources, n targets, d features. *)
  Variables m n d : nat.
  Variables Xs Xt : mat.

  (** torch.cdist(..., p=2) of two rows. *)
  Definition cdist (x y : nat -> R) : R := sqrt (msum d (fun l => (x l - y l) * (x l - y l))%R).
  (** torch.exp(-self.gamma * torch.cdist(X, Y, p=2)), lines 1054, 1078 and 1079. *)
  Definition ls_kern (x y : nat -> R) : R := exp (- gamma * cdist x y).
  (** Line 1054. *)
  Definition ls_L : mat := fun i j => ls_kern (Xs i) (Xs j).
  (** Line 1055. *)
  Definition ls_omega : mat := mmul m ls_L (inv m (fun i j => ls_L i j + reg_k * (if i =? j then 1 else 0))%R).

  (** Lines 1059-1062: discrete labels; one column per class. *)
  Definition ls_R_discrete (ys : list Z) : mat := fun i c => if Z.eqb (nth i ys 0%Z) (nth c (unique ys) 0%Z) then 1%R else 0%R.
  (** Line 1065: continuous labels. *)
  Definition ls_R_continuous : mat := mmul m ls_L (inv m (fun i j => ls_L i j + reg_k * (if i =? j then 1 else 0))%R).

  (** Line 1070: the number of columns of R. *)
  Variable k : nat.
  Variable R_ : mat.
  (** Lines 1073-1076. *)
  Definition ls_W (G : mat) : mat := mmul k R_ G.
  Definition ls_new (G H : mat) : mat := fun i l => (ls_W G i l * Xs i l + ls_W H i l)%R.
  (** Lines 1072-1085. torch.sum adds all entries. *)
  Definition ls_cons (G H : mat) : R :=
    let K := fun i j => ls_kern (ls_new G H i) (ls_new G H j) in
    let K_cross := fun i j => ls_kern (Xt i) (ls_new G H j) in
    (1 / (INR m * INR m) * msum m (fun i => msum m (fun j => mmul m (mmul m ls_omega K) (mT ls_omega) i j))
     - 2 / (INR m * INR n) * msum n (fun i => msum m (fun j => mmul m K_cross (mT ls_omega) i j)))%R.
  Definition ls_reg (G H : mat) : R :=
    (1 / INR m * (msum m (fun i => msum d (fun l => (ls_W G i l - 1) * (ls_W G i l - 1)))
                  + msum m (fun i => msum d (fun l => ls_W H i l * ls_W H i l))))%R.
  Definition ls_func (G H : mat) : R := (ls_cons G H + reg_m * ls_reg G H)%R.
  (** Lines 1088-1089: where the optimisation starts. *)
  Definition ls_G0 : mat := fun _ _ => 1%R.
  Definition ls_H0 : mat := fun _ _ => 0%R.
End Objective.
