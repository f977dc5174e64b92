(** C195: what MMDLSConSMapping minimises. *)
From Coq Require Import List ZArith Bool Arith Lia Reals Lra Psatz.
From Verif Require Import Np NpFacts Labels RVec RVecFacts MapModel RMat MmdlsModel.
Import ListNotations.
Local Open Scope nat_scope.

(** ** Specification *)
(** The squared maximum mean discrepancy, for the kernel [k], between the sources x_0, ..., x_{m-1} with weights u and the targets
    t_0, ..., t_{n-1} with weight 1/n each. *)
Definition mmd2_of {P} (k : P -> P -> R) (m : nat) (u : nat -> R) (x : nat -> P) (n : nat) (t : nat -> P) : R :=
  (msum m (fun i => msum m (fun j => u i * u j * k (x i) (x j))) - 2 * msum m (fun i => msum n (fun j => u i * / INR n * k (x i) (t j)))
   + msum n (fun i => msum n (fun j => / INR n * / INR n * k (t i) (t j))))%R.
(** The squared distance of two rows, the kernel of the documentation and the kernel with the distance not squared. *)
Definition sq_dist (d : nat) (x y : nat -> R) : R := msum d (fun l => (x l - y l) * (x l - y l))%R.
Definition gaussian (d : nat) (gamma : R) (x y : nat -> R) : R := exp (- gamma * sq_dist d x y).
Definition exponential (d : nat) (gamma : R) (x y : nat -> R) : R := exp (- gamma * sqrt (sq_dist d x y)).
(** B A = I. *)
Definition inverts (n : nat) (B A : mat) : Prop := forall i j, i < n -> j < n -> msum n (fun k => B i k * A k j)%R = if i =? j then 1%R else 0%R.
(** m u is the ridge regression of the constant one on the kernel matrix L: (L + reg I) (m u) = L 1. *)
Definition ridge_of_one (L : mat) (reg : R) (m : nat) (u : nat -> R) : Prop :=
  forall i, i < m -> (msum m (fun j => L i j * (INR m * u j)) + reg * (INR m * u i) = msum m (fun j => L i j))%R.
(** The sources moved: coordinate l of source i is scaled by W i l and shifted by B i l. *)
Definition moved (X W B : mat) : mat := fun i l => (W i l * X i l + B i l)%R.
(** How far a map is from the identity: the mean over the sources. *)
Definition distance_from_identity (m d : nat) (W B : mat) : R :=
  (msum m (fun i => msum d (fun l => (W i l - 1) * (W i l - 1) + B i l * B i l)) / INR m)%R.
Definition self_term {P} (k : P -> P -> R) (n : nat) (t : nat -> P) : R := msum n (fun i => msum n (fun j => / INR n * / INR n * k (t i) (t j)))%R.

(** ** Proofs *)
Lemma pick m (f : nat -> R) i : i < m -> msum m (fun j => (if i =? j then 1%R else 0%R) * f j)%R = f i.
Proof. intros H. rewrite <- (msum_delta m f i H). apply msum_ext. intros j _. rewrite Nat.eqb_sym. ring. Qed.
Lemma msum2_ext a b (f g : nat -> nat -> R) : (forall i j, i < a -> j < b -> f i j = g i j) ->
  msum a (fun i => msum b (fun j => f i j)) = msum a (fun i => msum b (fun j => g i j)).
Proof. intros H. apply msum_ext. intros i Hi. apply msum_ext. intros j Hj. auto. Qed.

Section Proofs.
  Variable inv : nat -> mat -> mat.
  Variables gamma reg_k reg_m : R.
  Variables m n d : nat.
  Variables Xs Xt : mat.
  Variable k : nat.
  Variable R_ : mat.
  Hypothesis Hm : 0 < m.
  Let L : mat := fun i j => exponential d gamma (Xs i) (Xs j).
  Let Lr : mat := fun i j => (L i j + reg_k * (if i =? j then 1 else 0))%R.
  Hypothesis Hinv : inverts m (inv m Lr) Lr.
  Let O := ls_omega inv gamma reg_k m d Xs.
  (** The weights: column means of omega. *)
  Definition ls_u (i : nat) : R := (msum m (fun j => O j i) / INR m)%R.

  Lemma INRm : INR m <> 0%R.
  Proof. apply not_0_INR. lia. Qed.

  Lemma exp_sym x y : exponential d gamma x y = exponential d gamma y x.
  Proof. unfold exponential, sq_dist. do 3 f_equal. apply msum_ext. intros l _. ring. Qed.

  Lemma u_ridge : ridge_of_one L reg_k m ls_u.
  Proof.
    pose proof INRm as Hn. intros i Hi.
    assert (SA : forall a b, Lr a b = Lr b a) by (intros a b; unfold Lr, L; now rewrite exp_sym, Nat.eqb_sym).
    assert (E : forall j, (INR m * ls_u j = msum m (fun l => O l j))%R) by (intros j; unfold ls_u; field; auto).
    transitivity (msum m (fun j => Lr i j * msum m (fun l => O l j)))%R.
    { unfold Lr. rewrite (E i), <- (pick m (fun j => reg_k * msum m (fun l => O l j))%R i Hi), <- msum_plus.
      apply msum_ext. intros j _. rewrite E. ring. }
    transitivity (msum m (fun j => msum m (fun l => msum m (fun p => Lr i j * (L l p * inv m Lr p j))))%R).
    { apply msum_ext. intros j Hj. rewrite <- msum_scal. apply msum_ext. intros l _. unfold O, ls_omega, mmul. rewrite <- msum_scal. apply msum_ext. reflexivity. }
    rewrite msum_swap. apply msum_ext. intros l Hl. rewrite msum_swap.
    transitivity (msum m (fun p => (if i =? p then 1%R else 0%R) * L l p))%R.
    2:{ rewrite pick by auto. unfold L. apply exp_sym. }
    apply msum_ext. intros p Hp. rewrite (Nat.eqb_sym i p), <- (Hinv p i Hp Hi), <- msum_scal_r. apply msum_ext. intros j _. rewrite (SA i j). ring.
  Qed.

  Lemma cons_mmd (Hn : 0 < n) G H : ls_cons inv gamma reg_k m n d Xs Xt k R_ G H
    = (mmd2_of (exponential d gamma) m ls_u (moved Xs (ls_W k R_ G) (ls_W k R_ H)) n Xt - self_term (exponential d gamma) n Xt)%R.
  Proof.
    pose proof INRm as Nm. assert (Nn : INR n <> 0%R) by (apply not_0_INR; lia).
    unfold ls_cons, mmd2_of, self_term. set (Y := moved Xs _ _). change (ls_new Xs k R_ G H) with Y. change (ls_kern gamma d) with (exponential d gamma).
    set (K := exponential d gamma).
    match goal with |- (?a - ?b = ?c - ?e + ?f - ?f)%R => replace (c - e + f - f)%R with (c - e)%R by ring; assert (A : a = c); [|assert (B : b = e); [|now rewrite A, B]] end.
    - transitivity (msum m (fun i => msum m (fun j => msum m (fun p => msum m (fun q => / INR m * / INR m * (O i p * K (Y p) (Y q) * O j q)))))%R).
      + rewrite <- msum_scal. apply msum_ext. intros i _. rewrite <- msum_scal. apply msum_ext. intros j _. unfold mmul, mT.
        rewrite <- msum_scal. rewrite msum_swap. apply msum_ext. intros q _. fold O. rewrite <- msum_scal_r, <- msum_scal. apply msum_ext. intros p _. field. auto.
      + transitivity (msum m (fun p => msum m (fun q => msum m (fun i => msum m (fun j => / INR m * / INR m * (O i p * K (Y p) (Y q) * O j q)))))%R).
        * rewrite (msum_ext m _ (fun i => msum m (fun p => msum m (fun j => msum m (fun q => / INR m * / INR m * (O i p * K (Y p) (Y q) * O j q)))))%R) by (intros; apply msum_swap).
          rewrite msum_swap. apply msum_ext. intros p _.
          rewrite (msum_ext m _ (fun i => msum m (fun q => msum m (fun j => / INR m * / INR m * (O i p * K (Y p) (Y q) * O j q))))%R) by (intros; apply msum_swap).
          apply msum_swap.
        * apply msum2_ext. intros p q _ _. unfold ls_u, Rdiv.
          transitivity (msum m (fun i => O i p) * (msum m (fun j => O j q) * (/ INR m * / INR m * K (Y p) (Y q))))%R; [|ring].
          rewrite <- msum_scal_r. apply msum_ext. intros i _. rewrite <- msum_scal_r, <- msum_scal. apply msum_ext. intros j _. ring.
    - transitivity (2 * msum n (fun i => msum m (fun j => msum m (fun p => / INR m * / INR n * (K (Xt i) (Y p) * O j p)))))%R.
      + rewrite <- !msum_scal. apply msum_ext. intros i _. rewrite <- !msum_scal. apply msum_ext. intros j _. unfold mmul, mT. fold O.
        rewrite <- !msum_scal. apply msum_ext. intros p _. field. auto.
      + f_equal. rewrite (msum_ext n _ (fun i => msum m (fun p => msum m (fun j => / INR m * / INR n * (K (Xt i) (Y p) * O j p))))%R) by (intros; apply msum_swap).
        rewrite msum_swap. apply msum2_ext. intros p i _ _. unfold ls_u, Rdiv.
        transitivity (msum m (fun j => O j p) * (/ INR m * / INR n * K (Y p) (Xt i)))%R; [|ring].
        rewrite <- msum_scal_r. apply msum_ext. intros j _. rewrite (exp_sym (Xt i)). fold K. ring.
  Qed.

  Lemma reg_dist G H : ls_reg m d k R_ G H = distance_from_identity m d (ls_W k R_ G) (ls_W k R_ H).
  Proof.
    unfold ls_reg, distance_from_identity. rewrite <- msum_plus. unfold Rdiv. rewrite Rmult_1_l, Rmult_comm. f_equal.
    apply msum_ext. intros i _. rewrite <- msum_plus. reflexivity.
  Qed.
End Proofs.

(** Up to a term that depends on the targets only, the function minimised is the squared MMD, for the kernel exp(-gamma |x - y|), between the
    moved sources and the targets, plus reg_m times the distance of the map from the identity. The sources have weights u that do not depend on
    the map: u is the ridge regression of the constant on the kernel matrix of the sources, divided by their number. *)
Theorem C195_objective : forall inv gamma reg_k reg_m m n d Xs Xt k R_, 0 < m -> 0 < n ->
  let L := fun i j => exponential d gamma (Xs i) (Xs j) in
  let Lr := fun i j => (L i j + reg_k * (if i =? j then 1 else 0))%R in
  inverts m (inv m Lr) Lr ->
  exists u, ridge_of_one L reg_k m u /\ forall G H, let W := mmul k R_ G in let B := mmul k R_ H in
    ls_func inv gamma reg_k reg_m m n d Xs Xt k R_ G H =
      (mmd2_of (exponential d gamma) m u (moved Xs W B) n Xt - self_term (exponential d gamma) n Xt + reg_m * distance_from_identity m d W B)%R.
Proof.
  intros inv gamma reg_k reg_m m n d Xs Xt k R_ Hm Hn L Lr Hi. exists (ls_u inv gamma reg_k m d Xs). split.
  - now apply (u_ridge inv gamma reg_k m d Xs Hm Hi).
  - intros G H W B. unfold ls_func. rewrite cons_mmd by auto. now rewrite reg_dist.
Qed.

(** The distance from the identity is never negative, and zero exactly for the identity. *)
Lemma msum_zero_all k (f : nat -> R) : (forall i, i < k -> (0 <= f i)%R) -> msum k f = 0%R -> forall i, i < k -> f i = 0%R.
Proof.
  induction k as [|k IH]; intros P E i Hi; [lia|]. cbn [msum] in E. pose proof (msum_nonneg k f ltac:(intros; apply P; lia)) as Q.
  pose proof (P k ltac:(lia)) as Pk. destruct (Nat.eq_dec i k) as [->|]; [lra|]. apply IH; [intros; apply P; lia|lra|lia].
Qed.
Theorem C195_regulariser : forall m d W B, 0 < m -> (0 <= distance_from_identity m d W B)%R /\
  (distance_from_identity m d W B = 0%R <-> forall i l, i < m -> l < d -> W i l = 1%R /\ B i l = 0%R).
Proof.
  intros m d W B Hm. assert (P : (0 < INR m)%R) by (apply lt_0_INR; lia).
  set (f := fun i l => ((W i l - 1) * (W i l - 1) + B i l * B i l)%R).
  assert (DE : distance_from_identity m d W B = (msum m (fun i => msum d (f i)) / INR m)%R) by reflexivity. rewrite DE. clear DE.
  assert (F : forall i l, (0 <= f i l)%R) by (intros i l; unfold f; pose proof (Rle_0_sqr (W i l - 1)) as Q1; pose proof (Rle_0_sqr (B i l)) as Q2; unfold Rsqr in Q1, Q2; lra).
  assert (S0 : (0 <= msum m (fun i => msum d (f i)))%R) by (apply msum_nonneg; intros; apply msum_nonneg; auto).
  split; [apply Rmult_le_pos; [auto|]; left; now apply Rinv_0_lt_compat|]. split.
  - intros E i l Hi Hl. assert (Z : msum m (fun i => msum d (f i)) = 0%R).
    { apply (Rmult_eq_reg_r (/ INR m)); [|apply Rgt_not_eq; now apply Rinv_0_lt_compat]. unfold Rdiv in E. rewrite E. ring. }
    pose proof (msum_zero_all m (fun i => msum d (f i)) ltac:(intros; apply msum_nonneg; auto) Z i Hi) as Zi.
    pose proof (msum_zero_all d (f i) ltac:(auto) Zi l Hl) as Zl. unfold f in Zl.
    assert (W i l - 1 = 0)%R by nra. assert (B i l = 0)%R by nra. lra.
  - intros E. replace (msum m (fun i => msum d (f i))) with 0%R; [unfold Rdiv; ring|]. symmetry.
    rewrite (msum_ext m _ (fun _ => 0%R)); [apply msum_zero|]. intros i Hi. rewrite (msum_ext d _ (fun _ => 0%R)); [apply msum_zero|].
    intros l Hl. destruct (E i l Hi Hl) as [E1 E2]. unfold f. rewrite E1, E2. ring.
Qed.

(** With class labels every class has its own scale and shift, row c of G and of H for the c-th class, used for all its samples; the optimisation
    starts from the identity. *)
Lemma class_row : forall ys G i, i < length ys -> exists c, c < length (unique ys) /\ nth c (unique ys) 0%Z = nth i ys 0%Z /\
  forall l, mmul (length (unique ys)) (ls_R_discrete ys) G i l = G c l.
Proof.
  intros ys G i Hi. assert (I : In (nth i ys 0%Z) (unique ys)) by (apply unique_In, nth_In; auto).
  destruct (In_nth _ _ 0%Z I) as (c & Hc & E). exists c. split; [auto|]. split; [auto|]. intros l.
  unfold mmul, ls_R_discrete. rewrite <- (pick (length (unique ys)) (fun c => G c l) c Hc). apply msum_ext. intros c' Hc'. f_equal.
  destruct (Nat.eqb_spec c c') as [->|N].
  - now rewrite E, Z.eqb_refl.
  - destruct (Z.eqb_spec (nth i ys 0%Z) (nth c' (unique ys) 0%Z)) as [E'|]; [|reflexivity]. exfalso. apply N.
    apply (proj1 (NoDup_nth (unique ys) 0%Z) (unique_NoDup ys)); auto. congruence.
Qed.
Theorem C195_classes : forall ys G H, let k := length (unique ys) in
  (forall i, i < length ys -> exists c, c < k /\ nth c (unique ys) 0%Z = nth i ys 0%Z /\
     forall X l, moved X (mmul k (ls_R_discrete ys) G) (mmul k (ls_R_discrete ys) H) i l = (G c l * X i l + H c l)%R) /\
  (forall X i l, i < length ys -> moved X (mmul k (ls_R_discrete ys) ls_G0) (mmul k (ls_R_discrete ys) ls_H0) i l = X i l).
Proof.
  intros ys G H k. split.
  - intros i Hi. destruct (class_row ys G i Hi) as (c & Hc & E & EG). exists c. split; [auto|]. split; [auto|]. intros X l. unfold moved. rewrite EG.
    destruct (class_row ys H i Hi) as (c' & Hc' & E' & EH). rewrite EH. replace c' with c; [reflexivity|].
    apply (proj1 (NoDup_nth (unique ys) 0%Z) (unique_NoDup ys)); auto. congruence.
  - intros X i l Hi. unfold moved. destruct (class_row ys ls_G0 i Hi) as (c & _ & _ & ->). destruct (class_row ys ls_H0 i Hi) as (c' & _ & _ & ->). unfold ls_G0, ls_H0. ring.
Qed.

(** REFUTED: the kernel is not the Gaussian one. Targets 0 and 1, one source at 1/4, gamma = 1: for the Gaussian kernel moving the source by 1/4
    to the middle gives a smaller discrepancy than moving it by -1/4 onto the target 0; the function minimised prefers the second, whatever the
    regularisations, although both maps are equally far from the identity. *)
Definition at_ (x : R) : mat := fun _ _ => x.
Definition two_targets : mat := fun i _ => match i with 0 => 0%R | _ => 1%R end.
Theorem C195_gaussian_refuted : forall inv reg_k reg_m, (0 <= reg_k)%R ->
  inverts 1 (inv 1 (fun i j => exponential 1 1 (at_ (1/4) i) (at_ (1/4) j) + reg_k * (if i =? j then 1 else 0))%R)
            (fun i j => exponential 1 1 (at_ (1/4) i) (at_ (1/4) j) + reg_k * (if i =? j then 1 else 0))%R ->
  let func H := ls_func inv 1 reg_k reg_m 1 2 1 (at_ (1/4)) two_targets 1 (ls_R_discrete [0%Z]) ls_G0 (at_ H) in
  (func (- (1/4)) < func (1/4))%R /\
  forall u, (0 < u 0%nat)%R ->
    (mmd2_of (gaussian 1 1) 1 u (at_ (1/4 + 1/4)) 2 two_targets < mmd2_of (gaussian 1 1) 1 u (at_ (1/4 + - (1/4))) 2 two_targets)%R.
Proof.
  intros inv reg_k reg_m Hk Hi func.
  assert (SQ : forall a b, (0 <= a -> b = a * a -> sqrt b = a)%R) by (intros a b Ha ->; now apply sqrt_square).
  assert (K0 : forall x, exponential 1 1 (fun _ => x) (fun _ => x) = 1%R).
  { intros x. unfold exponential, sq_dist. cbn [msum]. rewrite (SQ 0%R) by lra. rewrite Rmult_0_r. apply exp_0. }
  split.
  - destruct (C195_objective inv 1 reg_k reg_m 1 2 1 (at_ (1/4)) two_targets 1 (ls_R_discrete [0%Z]) ltac:(lia) ltac:(lia) Hi) as (u & Ru & E).
    unfold func. rewrite !E. clear E func.
    assert (U : (0 < u 0%nat)%R).
    { specialize (Ru 0 ltac:(lia)). cbn in Ru. unfold at_ in Ru. rewrite K0 in Ru. assert ((1 + reg_k) * u 0%nat = 1)%R by lra.
      destruct (Rlt_le_dec 0 (u 0%nat)); auto. exfalso. nra. }
    set (t := exp (- (1/2))).
    assert (T : (0 < t < 1)%R). { unfold t. split; [apply exp_pos|]. pose proof (exp_increasing (- (1/2)) 0 ltac:(lra)) as Q. rewrite exp_0 in Q. exact Q. }
    assert (E1 : exponential 1 1 (fun _ => 1/4 * 1 + 1/4)%R (fun _ => 0%R) = t).
    { unfold exponential, sq_dist. cbn [msum]. rewrite (SQ (1/2)%R) by lra. unfold t. f_equal. lra. }
    assert (E2 : exponential 1 1 (fun _ => 1/4 * 1 + 1/4)%R (fun _ => 1%R) = t).
    { unfold exponential, sq_dist. cbn [msum]. rewrite (SQ (1/2)%R) by lra. unfold t. f_equal. lra. }
    assert (E3 : exponential 1 1 (fun _ => 1/4 * 1 + - (1/4))%R (fun _ => 0%R) = 1%R).
    { unfold exponential, sq_dist. cbn [msum]. rewrite (SQ 0%R) by lra. rewrite Rmult_0_r. apply exp_0. }
    assert (E4 : exponential 1 1 (fun _ => 1/4 * 1 + - (1/4))%R (fun _ => 1%R) = (t * t)%R).
    { unfold exponential, sq_dist. cbn [msum]. rewrite (SQ 1%R) by lra. unfold t. rewrite <- exp_plus. f_equal. lra. }
    assert (X : forall b l, moved (at_ (1/4)) (mmul 1 (ls_R_discrete [0%Z]) ls_G0) (mmul 1 (ls_R_discrete [0%Z]) (at_ b)) 0 l = (1/4 * 1 + b)%R).
    { intros b l. unfold moved, mmul, ls_R_discrete, ls_G0, at_. cbn. lra. }
    assert (D : forall b, distance_from_identity 1 1 (mmul 1 (ls_R_discrete [0%Z]) ls_G0) (mmul 1 (ls_R_discrete [0%Z]) (at_ b)) = (b * b)%R).
    { intros b. unfold distance_from_identity, mmul, ls_R_discrete, ls_G0, at_. cbn. field. }
    rewrite !D. replace (- (1/4) * - (1/4))%R with (1/4 * (1/4))%R by lra.
    enough (mmd2_of (exponential 1 1) 1 u (moved (at_ (1/4)) (mmul 1 (ls_R_discrete [0%Z]) ls_G0) (mmul 1 (ls_R_discrete [0%Z]) (at_ (- (1/4))))) 2 two_targets
          < mmd2_of (exponential 1 1) 1 u (moved (at_ (1/4)) (mmul 1 (ls_R_discrete [0%Z]) ls_G0) (mmul 1 (ls_R_discrete [0%Z]) (at_ (1/4)))) 2 two_targets)%R by lra.
    unfold mmd2_of. cbn [msum].
    assert (EX : forall b f, exponential 1 1 (moved (at_ (1/4)) (mmul 1 (ls_R_discrete [0%Z]) ls_G0) (mmul 1 (ls_R_discrete [0%Z]) (at_ b)) 0) f = exponential 1 1 (fun _ => 1/4 * 1 + b)%R f).
    { intros b f. unfold exponential, sq_dist. cbn [msum]. now rewrite X. }
    assert (EX2 : forall b, exponential 1 1 (moved (at_ (1/4)) (mmul 1 (ls_R_discrete [0%Z]) ls_G0) (mmul 1 (ls_R_discrete [0%Z]) (at_ b)) 0)
                                        (moved (at_ (1/4)) (mmul 1 (ls_R_discrete [0%Z]) ls_G0) (mmul 1 (ls_R_discrete [0%Z]) (at_ b)) 0) = 1%R).
    { intros b. unfold exponential, sq_dist. cbn [msum]. rewrite X, (SQ 0%R) by lra. rewrite Rmult_0_r. apply exp_0. }
    rewrite !EX2, !EX. change (two_targets 0) with (fun _ : nat => 0%R). change (two_targets 1) with (fun _ : nat => 1%R).
    rewrite E1, E2, E3, E4. change (INR 2) with (1 + 1)%R.
    assert (Q : (0 < u 0%nat * ((1 - t) * (1 - t)))%R) by (apply Rmult_lt_0_compat; [auto|apply Rmult_lt_0_compat; lra]). lra.
  - intros u U. clear func Hi.
    assert (G1 : gaussian 1 1 (fun _ => 1/4 + 1/4)%R (fun _ => 0%R) = exp (- (1/4))) by (unfold gaussian, sq_dist; cbn [msum]; f_equal; lra).
    assert (G2 : gaussian 1 1 (fun _ => 1/4 + 1/4)%R (fun _ => 1%R) = exp (- (1/4))) by (unfold gaussian, sq_dist; cbn [msum]; f_equal; lra).
    assert (G3 : gaussian 1 1 (fun _ => 1/4 + - (1/4))%R (fun _ => 0%R) = 1%R).
    { unfold gaussian, sq_dist. cbn [msum]. replace (- (1) * _)%R with 0%R by lra. apply exp_0. }
    assert (G4 : gaussian 1 1 (fun _ => 1/4 + - (1/4))%R (fun _ => 1%R) = exp (- (1))) by (unfold gaussian, sq_dist; cbn [msum]; f_equal; lra).
    assert (G5 : forall x, gaussian 1 1 (fun _ => x) (fun _ => x) = 1%R).
    { intros x. unfold gaussian, sq_dist. cbn [msum]. replace (- (1) * _)%R with 0%R by lra. apply exp_0. }
    assert (B1 : (3/4 < exp (- (1/4)))%R). { pose proof (exp_ineq1 (- (1/4)) ltac:(lra)). lra. }
    assert (B2 : (exp (- (1)) < 1/2)%R).
    { rewrite exp_Ropp. pose proof (exp_ineq1 1 ltac:(lra)) as Q. apply (Rmult_lt_reg_l (exp 1)); [apply exp_pos|]. rewrite Rinv_r by (apply Rgt_not_eq, exp_pos). lra. }
    unfold mmd2_of. cbn [msum]. change (two_targets 0) with (fun _ : nat => 0%R). change (two_targets 1) with (fun _ : nat => 1%R).
    change (at_ (1/4 + 1/4) 0) with (fun _ : nat => (1/4 + 1/4)%R). change (at_ (1/4 + - (1/4)) 0) with (fun _ : nat => (1/4 + - (1/4))%R).
    rewrite !G5, G1, G2, G3, G4. change (INR 2) with (1 + 1)%R.
    assert (Q : (0 < u 0%nat * (2 * exp (- (1/4)) - 1 - exp (- (1))))%R) by (apply Rmult_lt_0_compat; [auto|lra]). lra.
Qed.

(** REFUTED: the weights are regressed on the features, not on the labels ("the labels kernel matrix"). Three sources of one class, two of them at
    the same place: a label kernel gives them equal weights, the code never does. *)
Definition three_sources (far : R) : mat := fun i _ => match i with 2 => far | _ => 0%R end.
Theorem C195_label_kernel_refuted : forall gamma reg_k far u, (0 < gamma)%R -> (0 < reg_k)%R -> far <> 0%R ->
  ridge_of_one (fun i j => exponential 1 gamma (three_sources far i) (three_sources far j)) reg_k 3 u -> ~ (u 0%nat = u 2%nat) .
Proof.
  intros gamma reg_k far u Hg Hr Hf Ru E.
  assert (SQ : forall a b, (0 <= a -> b = a * a -> sqrt b = a)%R) by (intros a b Ha ->; now apply sqrt_square).
  set (e := exp (- gamma * Rabs far)).
  assert (He : (0 < e < 1)%R).
  { unfold e. split; [apply exp_pos|]. rewrite <- exp_0. apply exp_increasing. pose proof (Rabs_pos_lt far Hf). nra. }
  assert (K0 : forall x, exponential 1 gamma (fun _ => x) (fun _ => x) = 1%R).
  { intros x. unfold exponential, sq_dist. cbn [msum]. rewrite (SQ 0%R) by lra. rewrite Rmult_0_r. apply exp_0. }
  assert (K1 : exponential 1 gamma (fun _ => 0%R) (fun _ => far) = e).
  { unfold exponential, sq_dist, e. cbn [msum]. rewrite (SQ (Rabs far)); [reflexivity|apply Rabs_pos|]. rewrite <- Rabs_mult, Rabs_right; nra. }
  assert (K2 : exponential 1 gamma (fun _ => far) (fun _ => 0%R) = e) by (now rewrite exp_sym).
  pose proof (Ru 0 ltac:(lia)) as R0. pose proof (Ru 1 ltac:(lia)) as R1. pose proof (Ru 2 ltac:(lia)) as R2. cbn [msum] in R0, R1, R2.
  change (three_sources far 0) with (fun _ : nat => 0%R) in *. change (three_sources far 1) with (fun _ : nat => 0%R) in *. change (three_sources far 2) with (fun _ : nat => far) in *.
  rewrite ?K0, ?K1, ?K2 in R0, R1, R2. replace (INR 3) with 3%R in * by (cbn; lra).
  set (a := u 0%nat) in *. set (b := u 1%nat) in *. set (c := u 2%nat) in *.
  assert (b = a) by nra. subst c. rewrite <- E in *.
  assert (A1 : ((2 + e + reg_k) * (3 * a) = 2 + e)%R) by nra.
  assert (A2 : ((2 * e + 1 + reg_k) * (3 * a) = 2 * e + 1)%R) by nra.
  nra.
Qed.
(** For a label kernel, which is one inside a class, equal weights are the solution. *)
Theorem C195_label_kernel : forall reg_k m u, (0 < reg_k)%R -> 0 < m -> ridge_of_one (fun _ _ => 1%R) reg_k m u -> forall i j, i < m -> j < m -> u i = u j.
Proof.
  intros reg_k m u Hr Hm Ru i j Hi Hj. pose proof (Ru i Hi) as A. pose proof (Ru j Hj) as B. assert (P : (0 < INR m)%R) by (apply lt_0_INR; lia).
  assert (E : (reg_k * INR m * (u i - u j) = 0)%R) by nra. apply Rmult_integral in E as [E|E]; [|lra]. exfalso. nra.
Qed.

(** ** Examples *)
Definition inv1 (_ : nat) (A : mat) : mat := fun i j => if (i =? 0) && (j =? 0) then (/ A 0%nat 0%nat)%R else 0%R.
Example C195_ex : let A := (fun i j => exponential 1 1 (at_ (1/4) i) (at_ (1/4) j) + 1 * (if i =? j then 1 else 0))%R in
  inverts 1 (inv1 1 A) A /\ ridge_of_one (fun i j => exponential 1 1 (at_ (1/4) i) (at_ (1/4) j)) 1 1 (fun _ => 1/2)%R /\
  distance_from_identity 2 1 (at_ 1) (at_ (1/4)) = (1/16)%R.
Proof.
  assert (K0 : exponential 1 1 (at_ (1/4) 0) (at_ (1/4) 0) = 1%R).
  { unfold exponential, sq_dist, at_. cbn [msum]. replace (0 + _)%R with 0%R by lra. rewrite sqrt_0, Rmult_0_r. apply exp_0. }
  cbv zeta. split; [|split].
  - intros i j Hi Hj. destruct i; [|lia]. destruct j; [|lia]. unfold inv1. cbn [msum Nat.eqb andb]. rewrite K0. field.
  - intros i Hi. destruct i; [|lia]. cbn [msum]. rewrite K0. cbn. lra.
  - unfold distance_from_identity, at_. cbn. field.
Qed.
Example C195_classes_ex : moved (fun i _ => INR i) (mmul 2 (ls_R_discrete [3; 5; 3]%Z) (fun c _ => INR (c + 2))) (mmul 2 (ls_R_discrete [3; 5; 3]%Z) (fun c _ => INR c)) 2 0 = 4%R.
Proof.
  unfold moved, mmul, ls_R_discrete. cbn [msum]. change (unique [3; 5; 3]%Z) with [3; 5]%Z. cbn. lra.
Qed.
Example C195_ex_three : (exists u, ridge_of_one (fun i j => exponential 1 1 (three_sources 1 i) (three_sources 1 j)) 1 3 u) /\
  ridge_of_one (fun _ _ => 1%R) 1 3 (fun _ => 1/4)%R.
Proof.
  split.
  - set (e := exp (- (1))).
    assert (He : (0 < e < 1)%R). { unfold e. split; [apply exp_pos|]. pose proof (exp_increasing (- (1)) 0 ltac:(lra)) as Q. rewrite exp_0 in Q. exact Q. }
    assert (SQ : forall a b, (0 <= a -> b = a * a -> sqrt b = a)%R) by (intros a b Ha ->; now apply sqrt_square).
    assert (K0 : forall x, exponential 1 1 (fun _ => x) (fun _ => x) = 1%R).
    { intros x. unfold exponential, sq_dist. cbn [msum]. rewrite (SQ 0%R) by lra. rewrite Rmult_0_r. apply exp_0. }
    assert (K1 : exponential 1 1 (fun _ => 0%R) (fun _ => 1%R) = e).
    { unfold exponential, sq_dist, e. cbn [msum]. rewrite (SQ 1%R) by lra. f_equal. lra. }
    assert (K2 : exponential 1 1 (fun _ => 1%R) (fun _ => 0%R) = e) by (now rewrite exp_sym).
    assert (D : (6 - 2 * e * e <> 0)%R) by nra.
    exists (fun i => match i with 2 => (3 * (2 * e + 1) - 2 * e * (2 + e)) / (6 - 2 * e * e) / 3 | _ => (2 * (2 + e) - e * (2 * e + 1)) / (6 - 2 * e * e) / 3 end)%R.
    intros i Hi. cbn [msum]. change (three_sources 1 0) with (fun _ : nat => 0%R). change (three_sources 1 1) with (fun _ : nat => 0%R). change (three_sources 1 2) with (fun _ : nat => 1%R).
    replace (INR 3) with 3%R by (cbn; lra).
    destruct i as [|[|[|i]]]; [| | |lia]; [change (three_sources 1 0) with (fun _ : nat => 0%R)|change (three_sources 1 1) with (fun _ : nat => 0%R)|change (three_sources 1 2) with (fun _ : nat => 1%R)];
      rewrite ?K0, ?K1, ?K2; field; auto.
  - intros i Hi. cbn. lra.
Qed.
