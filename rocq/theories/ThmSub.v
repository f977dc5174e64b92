(** Theorems about the subspace adapters: C125-C130. *)
From Coq Require Import List ZArith Bool Arith Lia Reals Lra Psatz Permutation.
From Verif Require Import Np NpFacts RVec RVecFacts MapModel MapSpec RMat SubModel SubSpec SubProofs SubProofs2 SubProofs3 SubProofs4.
Import ListNotations.
Local Open Scope nat_scope.

(** * C125: subspace alignment *)
(** Whenever the fit succeeds, its matrix is the best alignment of the source basis with the target basis: no other k-by-k
    matrix brings (source basis) times (matrix) closer to the target basis. *)
Theorem C125_alignment_is_closest : forall pca nc ns nt d Xs Xt st,
  (forall k rows X, k <= rows -> k <= d -> orthonormal_rows k d (pca k rows d X)) ->
  sa_fit pca nc ns nt d Xs Xt = Ok st ->
  let k := sa_k st in
  orthonormal_rows k d (sa_Ps st) /\ orthonormal_rows k d (sa_Pt st) /\
  (match nc with Some c => k = c | None => k = Nat.min (ns + nt) d end) /\
  forall M, (frob_dist d k (fun i j => sigma k (fun a => sa_Ps st a i * sa_M st a j)%R) (fun i j => sa_Pt st j i)
             <= frob_dist d k (fun i j => sigma k (fun a => sa_Ps st a i * M a j)%R) (fun i j => sa_Pt st j i))%R.
Proof.
  intros pca nc ns nt d Xs Xt st HP H. unfold sa_fit, pca_fit in H.
  set (k := match nc with None => Nat.min (ns + nt) d | Some k => k end) in *.
  destruct (Nat.leb_spec k (Nat.min ns d)) as [L1|]; cbn in H; [|discriminate H].
  destruct (Nat.leb_spec k (Nat.min nt d)) as [L2|]; cbn in H; [|discriminate H].
  inversion H; subst st. cbn [sa_k sa_Ps sa_Pt sa_M]. cbn zeta.
  split; [apply HP; lia|]. split; [apply HP; lia|]. split; [unfold k; destruct nc; reflexivity|].
  intros M. apply (alignment_opt d k). apply HP; lia.
Qed.

(** Without n_components, the fit works exactly when each domain has at least as many samples as there are features. *)
Theorem C125_default_components : forall pca ns nt d Xs Xt, 1 <= ns -> 1 <= nt ->
  ((exists st, sa_fit pca None ns nt d Xs Xt = Ok st) <-> d <= ns /\ d <= nt) /\
  (~ (d <= ns /\ d <= nt) -> sa_fit pca None ns nt d Xs Xt = Err ValueError).
Proof.
  intros pca ns nt d Xs Xt H1 H2. unfold sa_fit, pca_fit. cbn zeta.
  destruct (Nat.leb_spec (Nat.min (ns + nt) d) (Nat.min ns d)) as [L1|L1]; cbn [bind].
  - destruct (Nat.leb_spec (Nat.min (ns + nt) d) (Nat.min nt d)) as [L2|L2]; cbn [bind].
    + split; [split; [lia|eauto]|lia].
    + split; [split; [intros [st E]; discriminate E|lia]|reflexivity].
  - split; [split; [intros [st E]; discriminate E|lia]|reflexivity].
Qed.

(** Each subspace is that of the PCA of its own domain. *)
Theorem C125_own_domain : forall pca nc ns nt d Xs Xt st, sa_fit pca nc ns nt d Xs Xt = Ok st ->
  sa_Ps st = pca (sa_k st) ns d Xs /\ sa_Pt st = pca (sa_k st) nt d Xt.
Proof.
  intros pca nc ns nt d Xs Xt st H. unfold sa_fit, pca_fit in H.
  destruct (_ <=? Nat.min ns d); cbn [bind] in H; [|discriminate]. destruct (_ <=? Nat.min nt d); cbn [bind] in H; [|discriminate].
  injection H as <-. split; reflexivity.
Qed.

(** Five samples per domain with eight features: the default number of components (8) is refused. *)
Theorem C125_default_refuted : forall pca Xs Xt, sa_fit pca None 5 5 8 Xs Xt = Err ValueError.
Proof. reflexivity. Qed.

(** A PCA on one feature: the alignment is 1. *)
Example C125_ex : exists st, sa_fit (fun _ _ _ _ => fun i j => if i =? j then 1%R else 0%R) None 3 2 2
    (fun i j => INR (i + j)) (fun i j => INR (i * j)) = Ok st /\ sa_k st = 2 /\
  orthonormal_rows 2 2 (sa_Ps st) /\ sa_M st 0 0 = 1%R /\ sa_M st 0 1 = 0%R.
Proof.
  eexists. split; [reflexivity|]. cbn [sa_k sa_Ps sa_M]. split; [reflexivity|]. split.
  - intros a b Ha Hb. destruct a as [|[|]]; [| |lia]; (destruct b as [|[|]]; [| |lia]); cbn; ring.
  - unfold mmul, mT. cbn. split; ring.
Qed.

(** * C126: transfer component analysis *)
(** With mu = 0, or when no component separates the domain means, the components are those of kernel PCA: unit vectors, each
    maximising the scatter among the directions orthogonal to the previous ones. *)
Theorem C126_no_shift_case : forall solve eigh argsort nc mu ns nt d K,
  linear_solver solve -> eigh_contract eigh -> argsort_contract argsort ->
  0 < ns -> 0 < nt -> (0 <= mu)%R -> (forall i j, i < ns + nt -> j < ns + nt -> K i j = K j i) ->
  mu = 0%R \/ (forall v, domain_gap ns nt K v = 0%R) ->
  let n := ns + nt in
  let comps := tca_fit solve eigh argsort nc mu ns nt d K in
  length comps = Nat.min (match nc with None => Nat.min n d | Some k => k end) n /\
  forall m, m < length comps ->
   let v := nth m comps (fun _ => 0%R) in
   norm2 n v = 1%R /\
   forall u, (forall l, l < m -> sigma n (fun i => u i * nth l comps (fun _ => 0) i)%R = 0%R) ->
     (scatter n K u * norm2 n v <= scatter n K v * norm2 n u)%R.
Proof.
  intros solve eigh argsort nc mu ns nt d K HS HE HA Ns Nt Mu Sy Z.
  exact (tca_pca_case solve eigh argsort nc mu ns nt d K HS HE HA Ns Nt Mu Sy Z).
Qed.

(** The matrix is the kernel matrix of the samples, source before target, when the kernel is symmetric. *)
Theorem C126_kernel_matrix : forall (Row : Type) (kern : Row -> Row -> R) (S T : list Row) d i j x y, (forall x y, kern x y = kern y x) ->
  nth_error (S ++ T) i = Some x -> nth_error (S ++ T) j = Some y ->
  tca_K kern (length S) (fun k => nth k S d) (fun k => nth k T d) i j = kern x y.
Proof.
  intros Row kern S T d i j x y Sy Hi Hj.
  assert (K : forall i x, nth_error (S ++ T) i = Some x -> (if i <? length S then nth i S d else nth (i - length S) T d) = x).
  { clear. intros i x H. destruct (Nat.ltb_spec i (length S)) as [L|L].
    - rewrite nth_error_app1 in H by exact L. apply nth_error_nth. exact H.
    - rewrite nth_error_app2 in H by exact L. apply nth_error_nth. exact H. }
  apply K in Hi. apply K in Hj. unfold tca_K.
  destruct (i <? length S), (j <? length S); rewrite ?Hi, ?Hj; try reflexivity. apply Sy.
Qed.

(** In general they are not the solution of the optimisation problem: the matrix A^-1 B is not symmetric, and eigh only reads
    its lower triangle. Sources (1,0) and (0,0), target (0,1), linear kernel, mu = 1. *)
Theorem C126_not_optimal_refuted : forall solve eigh argsort,
  linear_solver solve -> eigh_contract eigh -> argsort_contract argsort ->
  exists (S T : nat -> R * R),
  let K := tca_K (fun x y => fst x * fst y + snd x * snd y)%R 2 S T in
  exists v, tca_fit solve eigh argsort (Some 1) 1%R 2 1 2 K = [v] /\ norm2 3 v = 1%R /\ ~ best_component 2 1 1%R K v.
Proof.
  intros solve eigh argsort HS HE HA. exists tS, tT. exact (tca_not_best solve eigh argsort HS HE HA).
Qed.

(** The objects the refutation speaks about, in numbers: the solution of the linear system, a diagonalisation of its lower
    triangle, and the component the code returns. *)
Definition s3 : mat := fun i j => match i, j with
  | 0, 0 => 14 / 27 | 0, 2 => - 4 / 27 | 2, 0 => - 1 / 27 | 2, 2 => 8 / 27 | _, _ => 0 end%R.
Definition t3 : R := (3 - sqrt 10)%R.
Definition r3 : R := (/ sqrt (1 + t3 * t3))%R.
Definition V3 : mat := fun i j => match i, j with
  | 0, 0 => r3 | 2, 0 => t3 * r3 | 0, 1 => - (t3 * r3) | 2, 1 => r3 | 1, 2 => 1 | _, _ => 0 end%R.
Definition w3 (k : nat) : R := match k with 0 => (14 - t3) / 27 | 1 => (8 + t3) / 27 | _ => 0 end%R.

Example C126_ex :
  (forall i j, i < 3 -> j < 3 -> sigma 3 (fun l => tca_A 2 1 1 tK i l * s3 l j)%R = tca_B 3 tK i j) /\
  diagonalises 3 (lower s3) (w3, V3) /\
  tca_fit (fun _ _ _ => s3) (fun _ _ => (w3, V3)) (fun _ _ => [2; 1; 0]) (Some 1) 1%R 2 1 2 tK = [fun i => V3 i 0].
Proof.
  assert (R2 : (r3 * r3 = / (1 + t3 * t3))%R).
  { unfold r3. rewrite <- Rinv_mult, sqrt_sqrt by nra. reflexivity. }
  assert (T2 : (t3 * t3 = 6 * t3 + 1)%R).
  { unfold t3. pose proof (sqrt_sqrt 10 ltac:(lra)). nra. }
  assert (NZ : (1 + t3 * t3 <> 0)%R) by nra.
  split; [|split; [|reflexivity]].
  - intros i j Hi Hj. change (tca_A 2 1 1 tK) with A3. change (tca_B 3 tK) with B3. change sigma with msum. cbn [msum].
    destruct i as [|[|[|]]]; [| | |lia]; (destruct j as [|[|[|]]]; [| | |lia]);
    rewrite ?A00, ?A01, ?A02, ?A10, ?A11, ?A12, ?A20, ?A21, ?A22, ?B00, ?B01, ?B02, ?B10, ?B11, ?B12, ?B20, ?B21, ?B22; unfold s3; field.
  - assert (Q : (r3 * r3 * (1 + t3 * t3) = 1)%R) by (rewrite R2; field; exact NZ).
    assert (Q' : (r3 * r3 * (2 + 6 * t3) = 1)%R) by (rewrite T2 in Q; rewrite <- Q; ring).
    assert (G1 : (r3 * r3 * (t3 * t3) = 1 - r3 * r3)%R) by lra.
    assert (G2 : (6 * (r3 * r3 * t3) = 1 - 2 * (r3 * r3))%R) by lra.
    assert (G3 : (r3 * r3 * (t3 * t3 * t3) = r3 * r3 * t3 + 6 * (1 - r3 * r3))%R).
    { replace (r3 * r3 * (t3 * t3 * t3))%R with (r3 * r3 * t3 * (t3 * t3))%R by ring. rewrite T2.
      replace (r3 * r3 * t3 * (6 * t3 + 1))%R with (6 * (r3 * r3 * (t3 * t3)) + r3 * r3 * t3)%R by ring. rewrite G1. ring. }
    intros i j Hi Hj. unfold lower. change sigma with msum. cbn [msum].
    destruct i as [|[|[|]]]; [| | |lia]; (destruct j as [|[|[|]]]; [| | |lia]); cbn [Nat.leb Nat.eqb]; unfold V3, w3, s3;
      (split; [|split]); try lra; nra.
Qed.

(** * C127: the objective of transfer subspace learning *)
(** PCA: among projections with orthonormal columns, a smaller loss is a larger projected variance. *)
Theorem C127_pca : forall reg sc n d k X y W W', (reg < 1)%R -> orthonormal_columns d k W -> orthonormal_columns d k W' ->
  ((tsl_F reg sc Pca n d k W X y <= tsl_F reg sc Pca n d k W' X y)%R <->
   (total_var n k (projected d X W') <= total_var n k (projected d X W))%R).
Proof.
  intros reg sc n d k X y W W' Hr O O'. unfold tsl_F. rewrite !tr_form_cov, !orth_norms by assumption.
  split; intros H; [|nra]. apply (Rmult_le_reg_l (1 - reg)); lra.
Qed.

(** FLDA: with classes of equal size and no regularisation the loss is proportional to the share of the scatter that lies
    between the classes: minimising it brings the classes together. *)
Theorem C127_flda_loss_is_separation_refuted : forall n d y X sc m, 0 < n -> (0 < m)%R ->
  (forall i, i < n -> size_of n y (y i) = m) ->
  exists q, (0 < q)%R /\ forall k W,
    tsl_F 0 sc Flda n d k W X y = (q * (between_scatter n k y (projected d X W) / total_var n k (projected d X W)))%R.
Proof. intros. now apply (flda_loss n d y X sc m). Qed.

(** Two classes on either side of the vertical axis: the horizontal projection separates them perfectly, the vertical one not
    at all; the loss prefers the vertical one. *)
Definition x4 : mat := fun i j => match i, j with
  | 0, 0 => -1 | 0, 1 => 1 | 1, 0 => -1 | 1, 1 => -1 | 2, 0 => 1 | 2, 1 => 1 | 3, 0 => 1 | 3, 1 => -1 | _, _ => 0 end%R.
Definition y4 (i : nat) : Z := if i <? 2 then 0%Z else 1%Z.
Definition e_x : mat := fun j _ => if j =? 0 then 1%R else 0%R.
Definition e_y : mat := fun j _ => if j =? 1 then 1%R else 0%R.
Ltac num4 := unfold within_scatter, between_scatter, total_var, cov_of, mean_of, sq_dist, mean_in, size_of, projected, y4, e_x, e_y;
  cbn [sigma Nat.ltb Nat.leb Nat.eqb Z.eqb Pos.eqb]; unfold x4; simpl INR; try field; try lra.
Theorem C127_flda_refuted : exists n d y X W W', forall sc,
  orthonormal_columns d 1 W /\ orthonormal_columns d 1 W' /\
  within_scatter n 1 y (projected d X W) = 0%R /\ (0 < between_scatter n 1 y (projected d X W))%R /\
  (0 < within_scatter n 1 y (projected d X W'))%R /\ between_scatter n 1 y (projected d X W') = 0%R /\
  (tsl_F 0 sc Flda n d 1 W' X y < tsl_F 0 sc Flda n d 1 W X y)%R.
Proof.
  exists 4, 2, y4, x4, e_x, e_y. intros sc.
  assert (B1 : between_scatter 4 1 y4 (projected 2 x4 e_x) = 4%R) by num4.
  assert (B2 : between_scatter 4 1 y4 (projected 2 x4 e_y) = 0%R) by num4.
  assert (V1 : total_var 4 1 (projected 2 x4 e_x) = 1%R) by num4.
  assert (V2 : total_var 4 1 (projected 2 x4 e_y) = 1%R) by num4.
  assert (I1 : within_scatter 4 1 y4 (projected 2 x4 e_x) = 0%R) by num4.
  assert (I2 : within_scatter 4 1 y4 (projected 2 x4 e_y) = 4%R) by num4.
  rewrite B1, B2, I1, I2.
  split; [intros a b Ha Hb; replace a with 0 by lia; replace b with 0 by lia; cbn; ring|].
  split; [intros a b Ha Hb; replace a with 0 by lia; replace b with 0 by lia; cbn; ring|].
  split; [reflexivity|]. split; [lra|]. split; [lra|]. split; [reflexivity|].
  destruct (flda_loss 4 2 y4 x4 sc 2) as (q & Hq & E); [lia|lra| |].
  - intros i Hi. unfold size_of, y4. destruct i as [|[|[|[|]]]]; [| | | |lia]; cbn; ring.
  - rewrite !E, B1, B2, V1, V2. lra.
Qed.

(** LPP: the loss is minus the weighted spread of same-class pairs: minimising it pushes same-class neighbours apart. *)
Theorem C127_lpp_loss_is_minus_spread_refuted : forall reg sc n d k W X y,
  tsl_F reg sc Lpp n d k W X y = (- locality n d k sc X y (projected d X W))%R.
Proof. intros. apply lpp_loss. Qed.

(** Two samples of one class, (1,0) and (0,0). *)
Definition x2 : mat := fun i j => if i + j =? 0 then 1%R else 0%R.
Theorem C127_lpp_refuted : exists n d y X W W', forall sc reg,
  orthonormal_columns d 1 W /\ orthonormal_columns d 1 W' /\
  (locality n d 1 sc X y (projected d X W') < locality n d 1 sc X y (projected d X W))%R /\
  (tsl_F reg sc Lpp n d 1 W X y < tsl_F reg sc Lpp n d 1 W' X y)%R.
Proof.
  exists 2, 2, (fun _ => 0%Z), x2, e_x, e_y. intros sc reg.
  split; [intros a b Ha Hb; replace a with 0 by lia; replace b with 0 by lia; cbn; ring|].
  split; [intros a b Ha Hb; replace a with 0 by lia; replace b with 0 by lia; cbn; ring|].
  rewrite !lpp_loss.
  assert (SQ : forall x y : nat -> R, sq_dist 1 x y = ((x O - y O) * (x O - y O))%R) by (intros; unfold sq_dist; cbn [sigma]; ring).
  assert (L : (locality 2 2 1 sc x2 (fun _ => 0%Z) (projected 2 x2 e_y) < locality 2 2 1 sc x2 (fun _ => 0%Z) (projected 2 x2 e_x))%R).
  { unfold locality. cbn [sigma Z.eqb]. rewrite !SQ.
    assert (P1 : projected 2 x2 e_x 0 0 = 1%R) by (unfold projected, x2, e_x; cbn; ring).
    assert (P2 : projected 2 x2 e_x 1 0 = 0%R) by (unfold projected, x2, e_x; cbn; ring).
    assert (P3 : projected 2 x2 e_y 0 0 = 0%R) by (unfold projected, x2, e_y; cbn; ring).
    assert (P4 : projected 2 x2 e_y 1 0 = 0%R) by (unfold projected, x2, e_y; cbn; ring).
    rewrite P1, P2, P3, P4.
    pose proof (exp_pos (- sqrt (sq_dist 2 (x2 0) (x2 1)) / sc)). pose proof (exp_pos (- sqrt (sq_dist 2 (x2 1) (x2 0)) / sc)). lra. }
  split; [exact L|lra].
Qed.

(** * C128: the discrepancy of transfer subspace learning *)
Theorem C128_symmetric_and_zero : forall reg inv chol, entrywise inv -> entrywise chol ->
  (forall ns nt d k W Xs Xt, tsl_D reg inv chol ns nt d k W Xs Xt = tsl_D reg inv chol nt ns d k W Xt Xs) /\
  (forall n d k W X, tsl_D reg inv chol n n d k W X X = 0%R).
Proof. intros reg inv chol HI HC. split; intros; [now apply tsl_D_sym|now apply tsl_D_same]. Qed.

(** Different domains can have a smaller discrepancy than identical ones: eight samples at 0 and one at 1, against eight at 0
    and one at 7, one feature, the identity projection. *)
Theorem C128_negative_refuted : forall inv chol, entrywise inv -> entrywise chol -> inverse_contract inv -> cholesky_contract chol ->
  exists n W Xs Xt, orthonormal_columns 1 1 W /\ (exists i, i < n /\ Xs i 0 <> Xt i 0) /\
    (tsl_D 0 inv chol n n 1 1 W Xs Xt < tsl_D 0 inv chol n n 1 1 W Xs Xs)%R.
Proof.
  intros inv chol EI EC HI HC. exists 9, W1, (spike 1), (spike 7). split; [|split].
  - intros a b Ha Hb. replace a with 0 by lia. replace b with 0 by lia. unfold W1. cbn. ring.
  - exists 0. split; [lia|]. unfold spike. cbn. lra.
  - rewrite (tsl_D_same 0 inv chol 9 1 1 W1 (spike 1) EI EC). now apply tsl_D_spike.
Qed.

(** For one component, the reciprocal and the square root meet the contracts. *)
Definition inv1 (_ : nat) (A : nat -> nat -> R) (_ _ : nat) : R := (/ A O O)%R.
Definition chol1 (_ : nat) (A : nat -> nat -> R) (_ _ : nat) : R := sqrt (A O O).
Example C128_ex : entrywise inv1 /\ entrywise chol1 /\ (forall A : nat -> nat -> R, A 0 0 <> 0%R -> sigma 1 (fun l => A O l * inv1 1%nat A l O)%R = 1%R) /\
  (forall A : nat -> nat -> R, (0 < A O O)%R -> sigma 1 (fun l => chol1 1%nat A O l * chol1 1%nat A O l)%R = A 0 0 /\ (0 < chol1 1%nat A O O)%R).
Proof.
  split; [|split; [|split]].
  - intros k A B H i j Hi Hj. unfold inv1. rewrite H by lia. reflexivity.
  - intros k A B H i j Hi Hj. unfold chol1. rewrite H by lia. reflexivity.
  - intros A H. unfold inv1. cbn [sigma]. field. exact H.
  - intros A H. unfold chol1. cbn [sigma]. rewrite sqrt_sqrt by lra. split; [ring|now apply sqrt_lt_R0].
Qed.

(** * C129: transfer subspace learning: constructor and orthonormal projection *)
Theorem C129_constructor : forall m reg,
  ((exists r, tsl_ctor m reg = Ok r) <-> m <> None /\ (forall r, reg = Some r -> (0 <= r <= 1)%R)) /\
  (forall b r, tsl_ctor m reg = Ok (b, r) -> m = Some b /\ (0 <= r <= 1)%R /\ (reg = Some r \/ reg = None /\ r = 0%R)) /\
  (forall e, tsl_ctor m reg = Err e -> e = ValueError).
Proof.
  intros m reg. unfold tsl_ctor. destruct m as [b|]; [destruct reg as [r|]|].
  - destruct (Rltb r 0) eqn:E1; [|destruct (Rltb 1 r) eqn:E2]; cbn [orb].
    + apply Rltb_iff in E1. split; [|split; [discriminate|congruence]]. split; [intros [x Hx]; discriminate Hx|].
      intros [_ H]. specialize (H r eq_refl). lra.
    + apply Rltb_iff in E2. split; [|split; [discriminate|congruence]]. split; [intros [x Hx]; discriminate Hx|].
      intros [_ H]. specialize (H r eq_refl). lra.
    + apply Rltb_false in E1, E2. split; [|split; [|discriminate]].
      * split; [intros _|eauto]. split; [discriminate|]. intros r' H. inversion H; subst. lra.
      * intros b' r' H. inversion H; subst. split; [reflexivity|]. split; [lra|now left].
  - split; [|split; [|discriminate]].
    + split; [intros _|eauto]. split; [discriminate|]. discriminate.
    + intros b' r' H. inversion H; subst. split; [reflexivity|]. split; [lra|right; auto].
  - split; [|split; [discriminate|congruence]]. split; [intros [x Hx]; discriminate Hx|]. intros [H _]. congruence.
Qed.

(** The fitted projection has orthonormal columns, at most as many as features. *)
Theorem C129_orthonormal : forall lbfgs qr objective nc n d tol,
  (forall loss xs, length (fst (lbfgs loss xs)) = length xs) -> qr_contract qr ->
  exists W, tsl_fit lbfgs qr objective nc n d tol = Ok W /\
    let k := match nc with None => Nat.min n d | Some k => Nat.min k d end in orthonormal_columns d k W.
Proof.
  intros lbfgs qr objective nc n d tol HL HQ. unfold tsl_fit, torch_minimize.
  set (loss := fun l : list mat => _). specialize (HL loss [delta]). cbn zeta. unfold mat in *.
  destruct (lbfgs loss [delta]) as [sol g]. cbn [fst] in HL. destruct sol as [|W [|? ?]]; try discriminate HL.
  exists (qr d (tsl_columns nc n d) W). split; [reflexivity|].
  replace (match nc with None => Nat.min n d | Some k => Nat.min k d end) with (tsl_columns nc n d).
  - apply HQ. unfold tsl_columns. apply Nat.le_min_l.
  - unfold tsl_columns. destruct nc; lia.
Qed.

(** The function handed to the optimiser only sees orthonormal projections: it is the base loss plus mu times the discrepancy
    at the orthonormalised argument. *)
Theorem C129_objective : forall reg sc inv chol qr b mu ns nt d k Xs Xt ys W, qr_contract qr -> k <= d ->
  exists Q, orthonormal_columns d k Q /\
    tsl_objective reg sc inv chol qr b mu ns nt d k Xs Xt ys W =
      (tsl_F reg sc b ns d k Q Xs ys + mu * tsl_D reg inv chol ns nt d k Q Xs Xt)%R.
Proof. intros. exists (qr d k W). split; [now apply H|reflexivity]. Qed.

Example C129_ex : tsl_ctor (Some Flda) (Some (1 / 100)%R) = Ok (Flda, (1 / 100)%R) /\ tsl_ctor (Some Pca) None = Ok (Pca, 0%R) /\
  tsl_ctor (Some Lpp) (Some 2%R) = Err ValueError /\ tsl_ctor None None = Err ValueError /\
  exists W, tsl_fit (fun _ xs => (xs, 0%R)) (fun _ _ W => W) (fun _ => 0%R) (Some 2) 5 3 (1 / 100)%R = Ok W /\ orthonormal_columns 3 2 W.
Proof.
  unfold tsl_ctor. rewrite (proj2 (Rltb_false _ _)) by lra. rewrite (proj2 (Rltb_false 1 (1 / 100))) by lra. cbn [orb].
  split; [reflexivity|]. split; [reflexivity|]. rewrite (proj2 (Rltb_iff 1 2)) by lra. rewrite orb_true_r. split; [reflexivity|]. split; [reflexivity|].
  eexists. split; [reflexivity|]. intros a b Ha Hb. destruct a as [|[|]]; [| |lia]; (destruct b as [|[|]]; [| |lia]); unfold delta; cbn; ring.
Qed.

(** * C130: torch_minimize *)
(** The value returned is the loss of the solution returned; an array gives an array, a list of two or more arrays gives a list
    of as many; there is a warning exactly when the final gradient exceeds the tolerance. *)
Theorem C130_torch_minimize : forall (T : Type) (lbfgs : (list T -> R) -> list T -> list T * R) loss x0 tol sol val warned,
  (forall l xs, length (fst (lbfgs l xs)) = length xs) ->
  torch_minimize lbfgs loss x0 tol = (sol, val, warned) ->
  let xs := match sol with One x => [x] | Many l => l end in
  val = loss xs /\
  fst (lbfgs loss (match x0 with One x => [x] | Many l => l end)) = xs /\
  (warned = true <-> (tol < snd (lbfgs loss (match x0 with One x => [x] | Many l => l end)))%R) /\
  (match x0 with
   | One _ => exists x, sol = One x
   | Many l => length l <> 1 -> exists l', sol = Many l' /\ length l' = length l
   end).
Proof.
  intros T lbfgs loss x0 tol sol val warned HL H. unfold torch_minimize in H. cbn zeta in H.
  specialize (HL loss (match x0 with One x => [x] | Many l => l end)).
  destruct (lbfgs loss (match x0 with One x => [x] | Many l => l end)) as [s g] eqn:E. cbn [fst snd] in *.
  inversion H as [[H1 H2 H3]]. cbn zeta.
  assert (X : s = match match s with [x] => One x | _ => Many s end with One x => [x] | Many l => l end) by (destruct s as [|? [|]]; reflexivity).
  split; [now rewrite <- X|]. split; [exact X|]. split; [apply Rltb_iff|].
  destruct x0 as [x|l].
  - destruct s as [|a [|]]; try discriminate HL. eauto.
  - intros N. exists s. split; [|exact HL]. destruct s as [|a [|]]; auto. cbn in HL. congruence.
Qed.
Example C130_ex : torch_minimize (fun _ _ => ([2%R], 0%R)) (fun l => match l with [x] => (x * x)%R | _ => 0%R end) (One 5%R) 1%R
  = (One 2%R, (2 * 2)%R, false).
Proof. unfold torch_minimize. rewrite (proj2 (Rltb_false 1 0)) by lra. reflexivity. Qed.
