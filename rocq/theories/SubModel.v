(** Model of the fit methods of /repo/skada/_subspace.py (subspace alignment, transfer component analysis, transfer subspace
    learning) and of [torch_minimize], /repo/skada/utils.py. Matrices are functions of two indices, used below their sizes
    (see MapModel); floating point numbers are reals. numpy's and torch's linear algebra (PCA, solve, eigh, argsort, qr, inv,
    cholesky, LBFGS) are arguments, constrained by contracts stated in the theorems. *)
From Coq Require Import String List ZArith Bool Arith Lia Reals Lra.
From Verif Require Import Np RVec MapModel.
Import ListNotations.
Local Open Scope nat_scope.
Local Open Scope list_scope.

Definition delta (i j : nat) : R := if i =? j then 1%R else 0%R.
Definition mtrace (n : nat) (A : mat) : R := msum n (fun i => A i i).

(** ** SubspaceAlignmentAdapter.fit, _subspace.py lines 70-108 *)
Section Alignment.
  (** The fitted [components_] of sklearn's PCA: [pca k rows d X], a k-by-d matrix. *)
  Variable pca : nat -> nat -> nat -> mat -> mat.
  (** [PCA(n_components).fit(X)]: an integer n_components larger than min(rows, features) is a ValueError. *)
  Definition pca_fit (k rows d : nat) (X : mat) : res mat :=
    if k <=? Nat.min rows d then Ok (pca k rows d X) else Err ValueError.

  Record sa_state := mkSA { sa_k : nat; sa_Ps : mat; sa_Pt : mat; sa_M : mat }.
  (** Lines 94-107, after the split into [ns] source and [nt] target rows of [d] features (lines 87-92: every row is one or
      the other, so X has ns + nt rows). The random state is left out: it only matters to PCA's randomised solver. *)
  Definition sa_fit (n_components : option nat) (ns nt d : nat) (Xs Xt : mat) : res sa_state :=
    let k := match n_components with None => Nat.min (ns + nt) d | Some k => k end in
    Ps <- pca_fit k ns d Xs ;;
    Pt <- pca_fit k nt d Xt ;;
    Ok (mkSA k Ps Pt (mmul d Ps (mT Pt))).
End Alignment.

(** ** TransferComponentAnalysisAdapter.fit, _subspace.py lines 257-311 *)
Section Tca.
  (** [np.linalg.solve], [np.linalg.eigh] (eigenvalues; eigenvectors as columns), [np.argsort]; the first argument is the size. *)
  Variable solve : nat -> mat -> mat -> mat.
  Variable eigh : nat -> mat -> (nat -> R) * mat.
  Variable argsort : nat -> (nat -> R) -> list nat.

  (** Lines 284-287: the kernel matrix of the source rows [S] followed by the target rows [T]. *)
  Definition tca_K {Row} (kern : Row -> Row -> R) (ns : nat) (S T : nat -> Row) : mat := fun i j =>
    if i <? ns then if j <? ns then kern (S i) (S j) else kern (S i) (T (j - ns))
    else if j <? ns then kern (S j) (T (i - ns)) else kern (T (i - ns)) (T (j - ns)).
  (** Lines 290-296. *)
  Definition tca_L (ns nt : nat) : mat := fun i j =>
    if i <? ns then if j <? ns then (1 / (INR ns * INR ns))%R else (- (1 / (INR ns * INR nt)))%R
    else if j <? ns then (- (1 / (INR ns * INR nt)))%R else (1 / (INR nt * INR nt))%R.
  Definition tca_H (n : nat) : mat := fun i j => (delta i j - 1 / INR n * 1)%R.
  (** Lines 298-299. *)
  Definition tca_A (ns nt : nat) (mu : R) (K : mat) : mat :=
    let n := ns + nt in fun i j => (delta i j + mmul n (mmul n (fun a b => mu * K a b) (tca_L ns nt)) K i j)%R.
  Definition tca_B (n : nat) (K : mat) : mat := mmul n (mmul n K (tca_H n)) K.
  (** Lines 300-310; [d]: the number of features. The value is the list of the columns of [eigvects_]. *)
  Definition tca_fit (n_components : option nat) (mu : R) (ns nt d : nat) (K : mat) : list (nat -> R) :=
    let n := ns + nt in
    let solution := solve n (tca_A ns nt mu K) (tca_B n K) in
    let (eigvals, eigvects) := eigh n solution in
    let k := match n_components with None => Nat.min n d | Some k => k end in
    let selected_components := firstn k (rev (argsort n (fun a => Rabs (eigvals a)))) in
    map (fun a i => eigvects i a) selected_components.
End Tca.

(** ** TransferSubspaceLearningAdapter, _subspace.py lines 747-911 *)
Inductive base_method := Pca | Flda | Lpp.
(** Lines 747-771: the constructor; [None]: a string that is none of the three. The value: the method and the effective reg. *)
Definition tsl_ctor (m : option base_method) (reg : option R) : res (base_method * R) :=
  match m with
  | None => Err ValueError
  | Some b =>
      match reg with
      | None => Ok (b, 0%R)
      | Some r => if Rltb r 0 || Rltb 1 r then Err ValueError else Ok (b, r)
      end
  end.

Section Tsl.
  Variable reg : R.
  Variable length_scale : R.
  (** [torch.linalg.inv], [torch.linalg.cholesky], [torch.linalg.qr(.)[0]]; the sizes come first. *)
  Variable inv : nat -> mat -> mat.
  Variable cholesky : nat -> mat -> mat.
  Variable qr : nat -> nat -> mat -> mat.

  (** Lines 773-784: [rows]-by-[d] data. *)
  Definition torch_cov (rows d : nat) (X : mat) : mat :=
    let m := col_mean rows X in
    let Xc := fun i j => (X i j - m j)%R in
    let cov := fun a b => (mmul rows (mT Xc) Xc a b / INR rows)%R in
    fun a b => ((1 - reg) * cov a b + reg * mtrace d cov * delta a b)%R.

  (** [torch.cdist]: Euclidean distances between the rows of two matrices with [d] columns. *)
  Definition cdist (d : nat) (A B : mat) : mat :=
    fun i j => sqrt (msum d (fun a => (A i a - B j a) * (A i a - B j a))%R).
  (** [torch.mean] of an n-by-m matrix. *)
  Definition mean2 (n m : nat) (A : mat) : R := (msum n (fun i => msum m (A i)) / (INR n * INR m))%R.

  (** Lines 786-807: [d] features, [k] components. *)
  Definition tsl_D (ns nt d k : nat) (W Xs Xt : mat) : R :=
    let Zs := mmul d Xs W in
    let Zt := mmul d Xt W in
    let s1 := torch_cov ns k Zs in
    let s2 := torch_cov nt k Zt in
    let L11 := cholesky k (inv k (fun a b => 2 * s1 a b)%R) in
    let L12 := cholesky k (inv k (fun a b => s1 a b + s2 a b)%R) in
    let L22 := cholesky k (inv k (fun a b => 2 * s2 a b)%R) in
    let Kss := fun i j => exp (- (1 / 2) * cdist k (mmul k Zs L11) (mmul k Zs L11) i j)%R in
    let Kst := fun i j => exp (- (1 / 2) * cdist k (mmul k Zs L12) (mmul k Zt L12) i j)%R in
    let Ktt := fun i j => exp (- (1 / 2) * cdist k (mmul k Zt L22) (mmul k Zt L22) i j)%R in
    (mean2 ns ns Kss + mean2 nt nt Ktt - 2 * mean2 ns nt Kst)%R.

  (** Lines 816-827, [flda]: class means scaled by the square root of the class sizes. *)
  Definition n_in (n : nat) (y : nat -> Z) (c : Z) : R := msum n (fun i => if Z.eqb (y i) c then 1%R else 0%R).
  Definition class_mean (n : nat) (y : nat -> Z) (X : mat) (c : Z) : nat -> R :=
    fun j => (msum n (fun i => if Z.eqb (y i) c then X i j else 0%R) / n_in n y c)%R.
  Definition scaled_means (n : nat) (y : nat -> Z) (X : mat) : mat := fun a j =>
    let c := nth a (unique (map y (seq 0 n))) 0%Z in (class_mean n y X c j * sqrt (n_in n y c))%R.
  (** [torch.trace(W.T @ S @ W)] *)
  Definition tr_form (d k : nat) (W S : mat) : R := mtrace k (mmul d (mmul d (mT W) S) W).
  (** Lines 828-833, [lpp]. *)
  Definition lpp_E (d : nat) (X : mat) (y : nat -> Z) : mat :=
    fun i j => (exp (- cdist d X X i j / length_scale) * (if Z.eqb (y i) (y j) then 1 else 0))%R.
  Definition lpp_DE (n d : nat) (X : mat) (y : nat -> Z) : mat :=
    fun i j => ((if i =? j then msum n (lpp_E d X y i) else 0) - lpp_E d X y i j)%R.
  (** Lines 809-835. *)
  Definition tsl_F (b : base_method) (n d k : nat) (W X : mat) (y : nat -> Z) : R :=
    match b with
    | Pca => (- tr_form d k W (torch_cov n d X))%R
    | Flda =>
        let S_W := torch_cov (length (unique (map y (seq 0 n)))) d (scaled_means n y X) in
        let S_B := torch_cov n d X in
        (tr_form d k W S_W / tr_form d k W S_B)%R
    | Lpp => (-2 * mtrace k (mmul d (mmul n (mmul n (mmul d (mT W) (mT X)) (lpp_DE n d X y)) X) W))%R
    end.

  (** Lines 894-898: the function given to the optimiser. *)
  Definition tsl_objective (b : base_method) (mu : R) (ns nt d k : nat) (Xs Xt : mat) (ys : nat -> Z) (W : mat) : R :=
    let Q := qr d k W in (tsl_F b ns d k Q Xs ys + mu * tsl_D ns nt d k Q Xs Xt)%R.
End Tsl.

(** ** torch_minimize, utils.py lines 969-1037. [T]: the tensors; [lbfgs loss xs]: the tensors after [optimizer.step] and the
    largest absolute value of their [.grad]. A single array is wrapped in a list (lines 1000-1001), a solution of length one
    is unwrapped (lines 1032-1033). The value: the solution, the loss, and whether the warning was issued. *)
Inductive one_or_many (T : Type) := One (x : T) | Many (l : list T).
Arguments One {T}. Arguments Many {T}.
Definition torch_minimize {T} (lbfgs : (list T -> R) -> list T -> list T * R) (loss : list T -> R) (x0 : one_or_many T) (tol : R)
  : one_or_many T * R * bool :=
  let xs := match x0 with One x => [x] | Many l => l end in
  let (sol, grad_norm) := lbfgs loss xs in
  (match sol with [x] => One x | _ => Many sol end, loss sol, Rltb tol grad_norm).

(** TransferSubspaceLearningAdapter.fit, lines 877-911, after the split: the start is the first columns of the identity; the
    result is orthonormalised. [n]: the number of rows of X. numpy's qr is torch's. Slicing more columns than there are
    gives them all. *)
Section TslFit.
  Variable lbfgs : (list mat -> R) -> list mat -> list mat * R.
  Variable qr : nat -> nat -> mat -> mat.
  Definition tsl_columns (n_components : option nat) (n d : nat) : nat :=
    Nat.min d (match n_components with None => Nat.min n d | Some k => k end).
  Definition tsl_fit (objective : mat -> R) (n_components : option nat) (n d : nat) (tol : R) : res mat :=
    match torch_minimize lbfgs (fun l => match l with [W] => objective W | _ => 0%R end) (One delta) tol with
    | (One W, _, _) => Ok (qr d (tsl_columns n_components n d) W)
    | (Many _, _, _) => Err TypeError
    end.
End TslFit.
