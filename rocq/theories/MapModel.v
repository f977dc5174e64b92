(** Model of the transform methods of /repo/skada/_mapping.py and /repo/skada/_subspace.py, and of the fit methods as far
    as they route data. Arrays carry a dtype; the fitted transports, PCAs, matrices and optimisers are external: they are
    arguments (universally quantified in every theorem). *)
From Coq Require Import String List ZArith QArith Bool Arith Lia Reals Lra.
From Verif Require Import Np Labels UtilsModel SelectModel RVec.
Import ListNotations.
Local Open Scope nat_scope.
Local Open Scope list_scope.

(** Flags of the [transform] methods: everything allowed except, by default, source samples. *)
Definition transform_flags (allow_source : bool) : flags := mkFlags None allow_source true true true true true.

(** The structure shared by the transforms of _mapping.py lines 84-103 (OT), 899-930 (CORAL) and _subspace.py lines
    110-145 (subspace alignment), 933-953 (transfer subspace learning): check, split, map each non-empty half, merge. *)
Definition split_map_merge (allow_source : bool) (fs ft : arr -> res arr) (X : arr) (sda : sd_arg) : res arr :=
  sd <- check_X_domain (a_len X) sda (transform_flags allow_source) ;;
  parts <- source_target_split_arr [Some X] sd ;;
  match parts with
  | [Some s; Some t] =>
      s' <- (if 0 <? a_len s then fs s else Ok s) ;;
      t' <- (if 0 <? a_len t then ft t else Ok t) ;;
      r <- source_target_merge [Some s'; Some t'] (Some sd) ;;
      match fst r with [m] => Ok m | _ => Err ValueError end
  | _ => Err ValueError
  end.

(** ** BaseOTMappingAdapter, _mapping.py lines 31-107. [tfit Xs ys Xt yt]: fitting a clone of the transport; its value is
    the fitted [transform(Xs=.)]. *)
Section OTMap.
  Variable tfit : arr -> option (list val) -> arr -> option (list val) -> res (arr -> res arr).
  Definition ot_fit (X : arr) (y : option (list val)) (sda : sd_arg) : res (arr -> res arr) :=
    sd <- check_X_domain (a_len X) sda (transform_flags true) ;;
    parts <- source_target_split_arr [Some X] sd ;;
    yparts <- source_target_split [y] sd ;;
    match parts, yparts with
    | [Some Xs; Some Xt], [ys; yt] => tfit Xs ys Xt yt
    | _, _ => Err ValueError
    end.
  Definition ot_transform (allow_source : bool) (transport : arr -> res arr) (X : arr) (sda : sd_arg) : res arr :=
    split_map_merge allow_source transport (fun t => Ok t) X sda.
  (** Lines 64-82. *)
  Definition ot_fit_transform (X : arr) (y : option (list val)) (sda : sd_arg) : res arr :=
    tr <- ot_fit X y sda ;; ot_transform true tr X sda.
End OTMap.

(** ** CORALAdapter.transform, lines 899-930. [centre_s], [centre_t]: subtraction of the fitted means; [whiten], [colour]:
    products with the two fitted matrices. *)
Definition coral_transform (allow_source assume_centered : bool) (centre_s centre_t whiten colour : arr -> res arr)
           (X : arr) (sda : sd_arg) : res arr :=
  split_map_merge allow_source
    (fun s => c <- (if assume_centered then Ok s else centre_s s) ;; w <- whiten c ;; colour w)
    (fun t => if assume_centered then Ok t else centre_t t) X sda.

(** ** SubspaceAlignmentAdapter.transform, _subspace.py lines 110-145. *)
Definition sa_transform (allow_source : bool) (pca_s pca_t align : arr -> res arr) (X : arr) (sda : sd_arg) : res arr :=
  split_map_merge allow_source (fun s => p <- pca_s s ;; align p) pca_t X sda.

(** ** TransferSubspaceLearningAdapter.transform, _subspace.py lines 933-953. *)
Definition tsl_transform (allow_source : bool) (dotW : arr -> res arr) (X : arr) (sda : sd_arg) : res arr :=
  split_map_merge allow_source dotW dotW X sda.

(** ** MultiLinearMongeAlignmentAdapter, _mapping.py lines 552-700. [cov_mean]: [_get_cov_mean] of one domain's rows;
    [bary]: the barycentre of the sources' parameters; [bw]: the affine map from a domain's parameters to the barycentre,
    applied to one row. *)
Section MultiLinear.
  Context {P B : Type}.
  Variable cov_mean : list (list val) -> P.
  Variable bary : list P -> B.
  Variable bw : P -> B -> list val -> list val.

  Definition mlm_fit (X : arr) (y : option (list (list val))) (sda : sd_arg) : res (dict Z (list val -> list val)) :=
    sd <- check_X_domain (a_len X) sda (transform_flags true) ;;
    st <- per_domain_split [Some (a_rows X); y; None] sd ;;
    let params := map (fun kv : Z * list (option (list (list val))) =>
                         (fst kv, cov_mean (match snd kv with Some rows :: _ => rows | _ => [] end))) in
    let ps := params (fst st) in
    let pt := params (snd st) in
    if length ps =? 0 then Err ValueError
    else
      let b := bary (map snd ps) in
      let maps := map (fun kp : Z * P => (fst kp, bw (snd kp) b)) in
      Ok (dict_update Z.eqb (maps ps) (maps pt)).

  (** [transform], lines 687-700: [X_adapt = X.copy()] keeps the dtype of X, so assigned rows are cast to it. *)
  Fixpoint mlm_loop (mappings : dict Z (list val -> list val)) (dt : dtype) (rows : list (list val))
           (idx : dict Z (list nat)) (out : list (list val)) : res (list (list val)) :=
    match idx with
    | [] => Ok out
    | (d, sel) :: idx' =>
        f <- dict_getitem Z.eqb d mappings ;;
        xs <- np_take sel rows ;;
        out' <- np_setidx sel (map (fun x => map (cast dt) (f x)) xs) out ;;
        mlm_loop mappings dt rows idx' out'
    end.
  Definition mlm_transform (mappings : dict Z (list val -> list val)) (X : arr) (sda : sd_arg) : res arr :=
    sd <- check_X_domain (a_len X) sda (transform_flags true) ;;
    idx <- extract_domains_indices sd ;;
    out <- mlm_loop mappings (a_dt X) (a_rows X) idx (a_rows X) ;;
    Ok (mkArr (a_dt X) (a_tail X) out).
End MultiLinear.

(** ** MMDLSConSMappingAdapter, _mapping.py lines 978-1183. [Coef]: one row of (W, B); [app]: its action W * x + B on a
    sample; [optimise]: _mapping_optimization, giving the classes (Some for discrete labels), one coefficient per training
    source and one per class; [rows_eqb]: np.array_equal; [nearest]: argmin of the distances to the training sources.
    The product of a one-hot row with G is the row of G; without a 1 it is the zero coefficient. *)
Section MMDLS.
  Variable Coef : Type.
  Variable app : Coef -> list val -> list val.
  Variable czero : Coef.
  Record ls_state := mkLS { ls_X : list (list val); ls_W : list Coef; ls_classes : option (list val); ls_G : list Coef }.
  Variable optimise : list (list val) -> list (list val) -> list val -> res (list Coef * option (list val) * list Coef).
  Variable rows_eqb : list (list val) -> list (list val) -> bool.
  Variable nearest : list (list val) -> list val -> nat.
  Variable veqb : val -> val -> bool.

  Definition ls_fit (X : arr) (y : list val) (sda : sd_arg) : res ls_state :=
    sd <- check_X_domain (a_len X) sda (transform_flags true) ;;
    parts <- source_target_split [Some (a_rows X)] sd ;;
    yparts <- source_target_split [Some y] sd ;;
    match parts, yparts with
    | [Some Xs; Some Xt], [Some ys; _] =>
        r <- optimise Xs Xt ys ;;
        let '(w, c, g) := r in Ok (mkLS Xs w c g)
    | _, _ => Err ValueError
    end.

  Definition class_coef (classes : list val) (G : list Coef) (c : val) : Coef :=
    match find (fun cg : val * Coef => veqb c (fst cg)) (combine classes G) with Some cg => snd cg | None => czero end.

  Definition ls_coefs (st : ls_state) (Xs : list (list val)) (ys : option (list val)) : res (list Coef) :=
    if rows_eqb (ls_X st) Xs then Ok (ls_W st)
    else match ls_classes st, ys with
         | Some classes, Some l => Ok (map (class_coef classes (ls_G st)) l)
         | _, _ => np_take (map (nearest (ls_X st)) Xs) (ls_W st)
         end.

  Definition ls_transform (allow_source : bool) (st : ls_state) (X : arr) (y : option (list val)) (sda : sd_arg) : res arr :=
    sd <- check_X_domain (a_len X) sda (transform_flags allow_source) ;;
    m <- extract_source_indices sd ;;
    Xs <- np_select m (a_rows X) ;;
    Xt <- np_select (map negb m) (a_rows X) ;;
    s' <- (if length Xs =? 0 then Ok (mkArr (a_dt X) (a_tail X) Xs)
           else
             ys <- match y with None => Ok None | Some l => r <- np_select m l ;; Ok (Some r) end ;;
             cs <- ls_coefs st Xs ys ;;
             rows <- np_map2 app cs Xs ;;
             Ok (mkArr DFloat (a_tail X) rows)) ;;
    r <- source_target_merge [Some s'; Some (mkArr (a_dt X) (a_tail X) Xt)] (Some sd) ;;
    match fst r with [o] => Ok o | _ => Err ValueError end.
End MMDLS.

(** ** TransferComponentAnalysisAdapter and TransferJointMatchingAdapter: kernel matrices and transform. Samples of an
    arbitrary type; [kern]: the kernel of pairwise_kernels; [V]: the columns of the fitted projection matrix;
    [rows_eqb]: np.array_equal. *)
Section Kernels.
  Variable Row : Type.
  Variable kern : Row -> Row -> R.
  Variable rows_eqb : list Row -> list Row -> bool.

  Definition kmat (A B : list Row) : list (list R) := map (fun a => map (kern a) B) A.
  Definition transpose (k : nat) (M : list (list R)) : list (list R) := map (fun j => map (fun r => nth j r 0%R) M) (seq 0 k).
  (** [np.block([[Kss, Kst], [Kst.T, Ktt]])]: _subspace.py lines 284-287 (TCA) and 541-546 (TJM). *)
  Definition block_kernel (Xs Xt : list Row) : list (list R) :=
    let Kst := kmat Xs Xt in
    map2 (@app R) (kmat Xs Xs) Kst ++ map2 (@app R) (transpose (length Xt) Kst) (kmat Xt Xt).
  (** [K @ V] *)
  Definition project (K : list (list R)) (V : list (list R)) : list (list R) := map (fun k => map (dot k) V) K.

  (** Lines 334-371 and 494-532. The slice [[: X.shape[0]]] of line 365 and 370 is a no-op. *)
  Definition kernel_transform (allow_source : bool) (Xs_fit Xt_fit : list Row) (V : list (list R)) (X : list Row) (sda : sd_arg)
    : res (list (list R)) :=
    sd <- check_X_domain (length X) sda (transform_flags allow_source) ;;
    parts <- source_target_split [Some X] sd ;;
    match parts with
    | [Some s; Some t] =>
        if rows_eqb s Xs_fit && rows_eqb t Xt_fit then Ok (firstn (length X) (project (block_kernel Xs_fit Xt_fit) V))
        else Ok (firstn (length X) (project (map2 (@app R) (kmat X Xs_fit) (kmat X Xt_fit)) V))
    | _ => Err ValueError
    end.
  (** fit_transform, lines 313-332 and 473-492; [eig]: the projection computed from the kernel matrix. *)
  Definition kernel_fit_transform (eig : list (list R) -> res (list (list R))) (X : list Row) (sda : sd_arg) : res (list (list R)) :=
    sd <- check_X_domain (length X) sda (transform_flags true) ;;
    parts <- source_target_split [Some X] sd ;;
    match parts with
    | [Some s; Some t] => V <- eig (block_kernel s t) ;; kernel_transform true s t V X sda
    | _ => Err ValueError
    end.
End Kernels.

(** ** The MMD matrix, _subspace.py lines 292-295 and 534-539, and the centring matrix, lines 297 and 583. *)
Definition const_block (c : R) (n m : nat) : list (list R) := repeat (repeat c m) n.
Definition mmd_matrix (ns nt : nat) : list (list R) :=
  let mss := const_block (1 / (INR ns * INR ns)) ns ns in
  let mtt := const_block (1 / (INR nt * INR nt)) nt nt in
  let mst := const_block (- (1 / (INR ns * INR nt))) ns nt in
  map2 (@app R) mss mst ++ map2 (@app R) (transpose nt mst) mtt.
Definition centring_matrix (n : nat) : list (list R) :=
  map (fun i => map (fun j => (if i =? j then 1 else 0) - 1 / INR n * 1)%R (seq 0 n)) (seq 0 n).

(** ** TransferJointMatchingAdapter.fit, _subspace.py lines 589-638. [Am]: the type of the matrix A; [eig G]: lines 593-600,
    the selected eigenvectors for the current G; [norms]: the row norms of A (line 609); [objective]: lines 615-620. *)
Section TJM.
  Variable Am : Type.
  Variable eig : list R -> res Am.
  Variable norms : Am -> list R.
  Variable objective : Am -> R.

  (** Lines 609-612: the diagonal of G; [source_mask] is in the order of the samples, the rows of A in the order of K. *)
  Definition EPS_eigval : R := (/ 10000000000)%R.
  Definition tjm_g (source_mask : list bool) (A : Am) : res (list R) :=
    np_setmask_scalar (map negb source_mask) 1%R
      (map (fun a => if Reqb a 0 then 0%R else (1 / (2 * a + EPS_eigval))%R) (norms A)).

  (** Lines 616-619: the regulariser, from the row norms. *)
  Definition tjm_reg (source_mask : list bool) (A : Am) : res R :=
    a <- np_select source_mask (norms A) ;;
    b <- np_select (map negb source_mask) (norms A) ;;
    Ok (vsum a + vsum (map (fun x => x * x) b))%R.

  (** Lines 591-638; [None]: A was never assigned. Returns A and the objective values of the iterations run. *)
  Fixpoint tjm_loop (source_mask : list bool) (tol : R) (k : nat) (last_loss : R) (g : list R) (A : option Am) : res (Am * list R) :=
    match k with
    | 0 => match A with Some a => Ok (a, []) | None => Err UnboundLocalError end
    | S k' =>
        a <- eig g ;;
        g' <- tjm_g source_mask a ;;
        let loss_total := objective a in
        if Reqb last_loss 0 || Rltb (Rabs (last_loss - loss_total) / last_loss) tol then Ok (a, [loss_total])
        else r <- tjm_loop source_mask tol k' loss_total g' (Some a) ;; Ok (fst r, loss_total :: snd r)
    end.
  Definition tjm_fit (source_mask : list bool) (tol : R) (max_iter : nat) : res (Am * list R) :=
    tjm_loop source_mask tol max_iter (-2 * tol)%R (repeat 1%R (length source_mask)) None.
End TJM.

(** ** CORAL numerics. Matrices are functions of two indices, used below their sizes; [msum k f] = f 0 + ... + f (k-1). *)
Fixpoint msum (k : nat) (f : nat -> R) : R := match k with 0 => 0%R | S k' => (msum k' f + f k')%R end.
Definition mat := nat -> nat -> R.
(** [A @ B] with inner size [k], [A.T] *)
Definition mmul (k : nat) (A B : mat) : mat := fun i j => msum k (fun l => A i l * B l j)%R.
Definition mT (A : mat) : mat := fun i j => A j i.

Section Coral.
  (** [np.linalg.eigh]: eigenvalues, and eigenvectors as columns. *)
  Variable eigh : mat -> (nat -> R) * mat.
  (** _mapping.py lines 755-778 and 781-804; [n] the size of C. *)
  Definition sqrtm (n : nat) (C : mat) : mat :=
    let (w, V) := eigh C in mmul n (fun i k => V i k * sqrt (w k))%R (mT V).
  Definition invsqrtm (n : nat) (C : mat) : mat :=
    let (w, V) := eigh C in mmul n (fun i k => V i k * 1 / sqrt (w k))%R (mT V).

  (** [np.mean(X, axis=0)] and [_estimate_covariance] (skada/utils.py, sklearn's empirical_covariance: no shrinkage) of an
      m-row matrix. *)
  Definition col_mean (m : nat) (X : mat) : nat -> R := fun j => (msum m (fun i => X i j) / INR m)%R.
  Definition emp_cov (assume_centered : bool) (m : nat) (X : mat) : mat :=
    let c := if assume_centered then (fun _ => 0%R) else col_mean m X in
    fun j l => (msum m (fun i => (X i j - c j) * (X i l - c l)) / INR m)%R.

  (** fit, lines 845-877, then the two branches of transform, lines 914-925; [n] the number of features. *)
  Definition coral_map_source (assume_centered : bool) (n ms mt : nat) (Xs Xt : mat) : mat -> mat :=
    let P := invsqrtm n (emp_cov assume_centered ms Xs) in
    let Q := sqrtm n (emp_cov assume_centered mt Xt) in
    let c := col_mean ms Xs in
    fun Z => mmul n (mmul n (if assume_centered then Z else fun i j => (Z i j - c j)%R) P) Q.
  Definition coral_map_target (assume_centered : bool) (mt : nat) (Xt : mat) : mat -> mat :=
    let c := col_mean mt Xt in fun Z => if assume_centered then Z else fun i j => (Z i j - c j)%R.
End Coral.
