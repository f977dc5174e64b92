(** C219: linear alignment undoes a stretch of the target. *)
From Coq Require Import List ZArith Bool Arith Lia Reals Lra Psatz Setoid Morphisms Permutation.
From Verif Require Import Np NpFacts MapModel MapSpec MapProofs2 RMat CovSpec CovProofs MongeModel MongeProofs ThmMap ThmMonge ThmSame ThmTwice ThmBack TurnProofs CoralRegModel ThmCoralReg ThmSpectral ThmLeast.
Import ListNotations.
Local Open Scope nat_scope.

(** ** Specification *)
(** Every row multiplied by the matrix [A] and shifted by [t]. *)
Definition stretched (n : nat) (A : nat -> nat -> R) (t : nat -> R) (X : nat -> nat -> R) : nat -> nat -> R := fun i j => (sigma n (fun k => X i k * A k j) + t j)%R.
(** [p] puts [m] rows into another order. *)
Definition reorders (m : nat) (p : nat -> nat) : Prop := Permutation (map p (seq 0 m)) (seq 0 m).
(** The target rows are the stretched source rows, in some order. *)
Definition stretched_copy (n m : nat) (A : nat -> nat -> R) (t : nat -> R) (Xs Xt : nat -> nat -> R) : Prop :=
  exists p, reorders m p /\ forall i j, j < n -> Xt i j = stretched n A t Xs (p i) j.

(** ** Facts *)
#[local] Instance meq_eq n : Equivalence (meq n n).
Proof. split; [intros A i j _ _; reflexivity|intros A B; apply meq_sym|intros A B C; apply meq_trans]. Qed.
#[local] Instance mmul_prop n : Proper (meq n n ==> meq n n ==> meq n n) (mmul n).
Proof. intros A A' H B B' H'. now apply mmul_meq. Qed.
Lemma msum_list m (f : nat -> R) : msum m f = fold_right Rplus 0%R (map f (seq 0 m)).
Proof.
  induction m as [|m IH]; [reflexivity|]. rewrite seq_S, map_app, fold_right_app. cbn [msum map fold_right Nat.add]. rewrite IH.
  assert (G : forall l (x : R), fold_right Rplus x l = (fold_right Rplus 0 l + x)%R) by (induction l as [|a l IHl]; intros x; cbn; [ring|rewrite IHl; ring]).
  rewrite (G _ (f m + 0)%R). ring.
Qed.
Lemma msum_reorder m p (f : nat -> R) : reorders m p -> msum m (fun i => f (p i)) = msum m f.
Proof.
  intros P. rewrite !msum_list. assert (G : forall l l' : list R, Permutation l l' -> fold_right Rplus 0%R l = fold_right Rplus 0%R l') by (induction 1; cbn; try ring; congruence).
  apply G. rewrite <- (map_map p f). now apply Permutation_map.
Qed.
Lemma mean_reorder m p X Y j : reorders m p -> (forall i, Y i j = X (p i) j) -> mean_of m Y j = mean_of m X j.
Proof. intros P E. unfold mean_of. apply (f_equal (fun z => z / INR m)%R). transitivity (msum m (fun i => X (p i) j)); [apply msum_ext; intros; apply E|]. exact (msum_reorder m p (fun i => X i j) P). Qed.
Lemma cov_reorder m p X Y j l : reorders m p -> (forall i, Y i j = X (p i) j) -> (forall i, Y i l = X (p i) l) -> cov_of m Y j l = cov_of m X j l.
Proof.
  intros P E E'. unfold cov_of. rewrite (mean_reorder m p X Y j P E), (mean_reorder m p X Y l P E'). apply (f_equal (fun z => z / INR m)%R).
  transitivity (msum m (fun i => (X (p i) j - mean_of m X j) * (X (p i) l - mean_of m X l))%R); [apply msum_ext; intros i _; now rewrite E, E'|].
  exact (msum_reorder m p (fun i => (X i j - mean_of m X j) * (X i l - mean_of m X l))%R P).
Qed.

Section Undo.
  Variables (eigh : mat -> (nat -> R) * mat) (n : nat).
  Hypothesis HE : eigensolver n eigh.
  (** What commutes with a matrix commutes with its root. *)
  Lemma root_commutes C A : symm C -> meq n n (mmul n C A) (mmul n A C) -> meq n n (mmul n (sqrtm eigh n C) A) (mmul n A (sqrtm eigh n C)).
  Proof.
    intros S E. unfold sqrtm. pose proof (HE C S) as D. destruct (eigh C) as [w V]. cbn in D.
    set (dg := fun (g : nat -> R) => (fun i j => if i =? j then g i else 0%R) : mat).
    assert (VD : forall g : nat -> R, meq n n (fun i k => V i k * g k)%R (mmul n V (dg g))).
    { intros g i k Hi Hk. unfold mmul, dg. rewrite (msum_ext n _ (fun j => (V i j * g j) * (if j =? k then 1 else 0))%R); [now rewrite msum_delta|]. intros j _. destruct (Nat.eqb_spec j k) as [->|]; ring. }
    assert (O1 : meq n n (mmul n (mT V) V) delta) by (intros i j Hi Hj; unfold mmul, mT, delta; destruct (D i j Hi Hj) as (_ & H & _); rewrite sigma_msum in H; exact H).
    assert (O2 : meq n n (mmul n V (mT V)) delta) by (intros i j Hi Hj; unfold mmul, mT, delta; destruct (D i j Hi Hj) as (_ & _ & H); rewrite sigma_msum in H; exact H).
    assert (EC : meq n n C (mmul n (mmul n V (dg w)) (mT V))).
    { rewrite <- VD. intros i j Hi Hj. destruct (D i j Hi Hj) as (H & _). rewrite sigma_msum in H. exact H. }
    set (B := mmul n (mmul n (mT V) A) V).
    assert (EB : meq n n (mmul n (dg w) B) (mmul n B (dg w))).
    { assert (T : meq n n (mmul n (mmul n (mT V) (mmul n C A)) V) (mmul n (mmul n (mT V) (mmul n A C)) V)) by now rewrite E.
      rewrite EC in T. unfold B. rewrite !massoc in T. rewrite O1, m1r in T. rewrite <- (massoc n (mT V) V) in T. rewrite O1, m1l in T. now rewrite !massoc. }
    assert (EBs : meq n n (mmul n (dg (fun k => sqrt (w k))) B) (mmul n B (dg (fun k => sqrt (w k))))).
    { assert (L : forall g i j, i < n -> mmul n (dg g) B i j = (g i * B i j)%R).
      { intros g i j Hi. unfold mmul, dg. rewrite (msum_ext n _ (fun k => (g i * B k j) * (if k =? i then 1 else 0))%R); [now rewrite msum_delta|]. intros k _. rewrite (Nat.eqb_sym i k). destruct (k =? i); ring. }
      assert (L' : forall g i j, j < n -> mmul n B (dg g) i j = (B i j * g j)%R).
      { intros g i j Hj. unfold mmul, dg. rewrite (msum_ext n _ (fun k => (B i k * g k) * (if k =? j then 1 else 0))%R); [now rewrite msum_delta|]. intros k _. destruct (k =? j); ring. }
      intros i j Hi Hj. specialize (EB i j Hi Hj). rewrite L, L' in * by auto. destruct (Req_dec (B i j) 0) as [->|N]; [ring|].
      assert (w i = w j) as -> by (apply (Rmult_eq_reg_r (B i j)); auto; lra). ring. }
    rewrite VD.
    assert (AB : meq n n A (mmul n (mmul n V B) (mT V))).
    { unfold B. rewrite !massoc. rewrite O2, m1r. rewrite <- (massoc n V (mT V)). rewrite O2, m1l. reflexivity. }
    rewrite AB. rewrite !massoc. rewrite <- (massoc n (mT V) V). rewrite O1, m1l. rewrite <- (massoc n (mT V) V). rewrite O1, m1l.
    rewrite <- (massoc n _ B), <- (massoc n B). rewrite EBs. reflexivity.
  Qed.
  (** The map between Gaussians is the only symmetric non-negative one that does it. *)
  Lemma bw_unique ms mt Cs Ct T : symm Cs -> symm Ct -> pos_def n Cs -> pos_semidef n Ct -> symm T -> pos_semidef n T -> meq n n (mmul n (mmul n T Cs) T) Ct ->
    meq n n (fst (bw_mapping eigh n ms mt Cs Ct)) T.
  Proof.
    intros S1 S2 P1 P2 ST PT MV.
    pose proof (bw_moment eigh n HE ms mt Cs Ct S1 P1 S2 P2) as MU. cbv zeta in MU.
    pose proof (bw_psd eigh n ms mt Cs Ct) as PU. pose proof (bw_sym eigh n ms mt Cs Ct) as SU. set (U := fst (bw_mapping eigh n ms mt Cs Ct)) in *.
    rewrite (mT_symm n U SU) in MU.
    destruct (roots_inverse eigh n HE Cs S1 P1) as (I1 & I2). pose proof (sqrtm_sq eigh n HE Cs S1 (pd_psd n _ P1)) as SQ. pose proof (sqrtm_sym eigh n Cs) as SS.
    set (S := sqrtm eigh n Cs) in *. set (S' := invsqrtm eigh n Cs) in *.
    assert (R : meq n n (mmul n (mmul n S U) S) (mmul n (mmul n S T) S)).
    { apply (root_unique eigh n HE); try (intros; apply sandwich_sym; auto); try (apply sandwich_psd; auto).
      rewrite !massoc. rewrite <- (massoc n S S (mmul n U S)), <- (massoc n S S (mmul n T S)). rewrite SQ.
      rewrite <- (massoc n Cs U S), <- (massoc n Cs T S), <- (massoc n U _ S), <- (massoc n T _ S), <- (massoc n U Cs U), <- (massoc n T Cs T). rewrite MU, MV. reflexivity. }
    transitivity (mmul n S' (mmul n (mmul n (mmul n S U) S) S')).
    - rewrite !massoc. rewrite I2, m1r. rewrite <- (massoc n S' S U), I1, m1l. reflexivity.
    - rewrite R. rewrite !massoc. rewrite I2, m1r. rewrite <- (massoc n S' S T), I1, m1l. reflexivity.
  Qed.
  Lemma inverse_of A : symm A -> pos_def n A -> exists V, symm V /\ pos_semidef n V /\ meq n n (mmul n A V) delta /\ meq n n (mmul n V A) delta.
  Proof.
    intros S P. destruct (roots_inverse eigh n HE A S P) as (I1 & I2). pose proof (sqrtm_sq eigh n HE A S (pd_psd n _ P)) as SQ.
    set (Q := sqrtm eigh n A) in *. set (Q' := invsqrtm eigh n A) in *. assert (SQ' : symm Q') by (intros i j; apply invsqrtm_sym).
    exists (mmul n (mmul n Q' delta) Q'). split; [|split; [|split]].
    - intros i j. apply sandwich_sym; auto. intros a b. unfold delta. now rewrite Nat.eqb_sym.
    - apply sandwich_psd; auto. intros v. rewrite qf_sigma. unfold qf. apply msum_nonneg. intros i Hi. rewrite (msum_ext n _ (fun j => (v i * v j) * (if j =? i then 1 else 0))%R); [rewrite msum_delta by auto; apply Rle_0_sqr|].
      intros j _. unfold delta. rewrite (Nat.eqb_sym i j). ring.
    - rewrite m1r. rewrite <- SQ. rewrite !massoc. rewrite <- (massoc n Q Q'). rewrite I2, m1l. exact I2.
    - rewrite m1r. rewrite <- SQ. rewrite !massoc. rewrite <- (massoc n Q' Q Q). rewrite I1, m1l. exact I1.
  Qed.
End Undo.

Section Copy.
  Variables (n m : nat) (A : mat) (t : nat -> R) (Xs Xt : mat).
  Hypothesis (Hm : 0 < m) (SA : symm A) (HX : stretched_copy n m A t Xs Xt).
  Lemma copy_mean j : j < n -> mean_of m Xt j = (msum n (fun k => mean_of m Xs k * A k j) + t j)%R.
  Proof. intros Hj. destruct HX as (p & P & E). rewrite (mean_reorder m p (stretched n A t Xs) Xt j P) by auto. apply (mean_affine n m Xs A t j Hm). Qed.
  Lemma copy_cov : meq n n (cov_of m Xt) (mmul n (mmul n A (cov_of m Xs)) A).
  Proof.
    intros j l Hj Hl. destruct HX as (p & P & E). rewrite (cov_reorder m p (stretched n A t Xs) Xt j l P) by auto.
    transitivity (mmul n (mmul n (mT A) (cov_of m Xs)) A j l); [apply (cov_affine n m Xs A t j l Hm)|]. apply mmul_ext; auto. intros a Ha. apply mmul_ext; auto. intros; unfold mT; apply SA.
  Qed.
End Copy.

(** Linear Monge alignment of one source and one target domain: the copy of any row, one of the training rows or not, is taken back to
    the row, and the source rows stay. *)
Theorem C219_monge : forall eigh bary n a b m Xs Xt A t,
  eigensolver n eigh -> gives_covariance n bary -> one_to_itself n bary -> a <> b -> 0 < m -> pos_def n (cov_of m Xs) ->
  (forall i j, A i j = A j i) -> pos_def n A -> stretched_copy n m A t Xs Xt ->
  let maps := mlm_fit_num eigh bary n true [(a, (m, Xs))] [(b, (m, Xt))] in
  forall Z, exists Ys Yt, mlm_transform_num n maps a Z = Ok Ys /\ mlm_transform_num n maps b (stretched n A t Z) = Ok Yt /\
    forall i j, j < n -> Ys i j = Z i j /\ Yt i j = Z i j.
Proof.
  intros eigh bary n a b m Xs Xt A t HE HB H1 Nab Hm PX SA PA HX maps Z.
  destruct (C185_single_source eigh bary n a m Xs [(b, (m, Xt))] true HE HB H1) with (Z := Z) as (Ys & EYs & HYs); auto.
  { cbn. repeat constructor; cbn; intuition. }
  exists Ys. unfold maps, mlm_transform_num at 2. rewrite (lookup eigh bary n true [(a, (m, Xs))] [(b, (m, Xt))] b m Xt); [|cbn; repeat constructor; cbn; intuition|right; now left].
  cbn [bind]. eexists. split; [exact EYs|split; [reflexivity|]].
  destruct (centre_cov bary n HB true [(a, (m, Xs))]) as (CS & CP); [repeat constructor; auto|].
  set (ps := get_cov_mean true None m Xs). set (pt := get_cov_mean true None m Xt). set (c := centre bary true [(a, (m, Xs))]) in *.
  destruct (H1 (snd ps) (fst ps) (param_sym true m Xs)) as (M1 & C1). change (forall j, j < n -> fst c j = snd ps j) in M1. change (meq n n (snd c) (fst ps)) in C1.
  assert (QS : meq n n (fst ps) (cov_of m Xs)) by (intros i j _ _; apply param_cov). assert (QT : meq n n (fst pt) (cov_of m Xt)) by (intros i j _ _; apply param_cov).
  destruct (inverse_of eigh n HE A SA PA) as (V & SV & PV & AV & VA).
  pose proof (copy_cov n m A t Xs Xt Hm SA HX) as CC.
  assert (PT : pos_def n (fst pt)).
  { apply (pd_ext n (mmul n (mmul n A (cov_of m Xs)) A)); [rewrite QT; now symmetry|]. apply (sandwich_pd n A V); auto. }
  assert (B : meq n n (fst (bw_mapping eigh n (snd pt) (fst c) (fst pt) (snd c))) V).
  { apply (bw_unique eigh n HE); auto; try (intros i j; apply param_sym). rewrite C1, QS, QT, CC. rewrite !massoc. rewrite <- (massoc n V A), VA, m1l. rewrite AV. apply m1r. }
  set (f := bw_mapping eigh n (snd pt) (fst c) (fst pt) (snd c)) in *.
  intros i j Hj. split; [now apply HYs|].
  assert (E1 : snd f j = (fst c j - msum n (fun k => snd pt k * fst f k j))%R) by reflexivity. rewrite E1, M1 by auto. unfold ps. rewrite param_mean.
  assert (E2 : msum n (fun k => snd pt k * fst f k j)%R = (mean_of m Xs j + msum n (fun k => t k * V k j))%R).
  { rewrite (msum_ext n _ (fun k => mmul n (fun _ l => mean_of m Xs l) A 0%nat k * V k j + t k * V k j)%R).
    - rewrite msum_plus. apply (f_equal (fun z => z + _)%R). transitivity (mmul n (mmul n (fun _ l => mean_of m Xs l) A) V 0 j); [reflexivity|]. rewrite mmul_assoc.
      rewrite (mmul_ext n _ (fun _ l => mean_of m Xs l) _ delta 0 j); auto. now rewrite mmul_delta_r.
    - intros k Hk. rewrite (B k j) by auto. unfold pt. rewrite param_mean. rewrite (copy_mean n m A t Xs Xt Hm HX k Hk). unfold mmul. ring. }
  rewrite E2. rewrite (mmul_ext n _ (fun i k => mmul n Z A i k + t k)%R _ V i j); [|reflexivity|intros; now apply B].
  assert (E3 : mmul n (fun i k => mmul n Z A i k + t k)%R V i j = (Z i j + msum n (fun k => t k * V k j))%R).
  { unfold mmul at 1. rewrite (msum_ext n _ (fun k => mmul n Z A i k * V k j + t k * V k j)%R) by (intros; ring). rewrite msum_plus. apply (f_equal (fun z => z + _)%R).
    transitivity (mmul n (mmul n Z A) V i j); [reflexivity|]. rewrite mmul_assoc. rewrite (mmul_ext n _ Z _ delta i j); auto. now rewrite mmul_delta_r. }
  rewrite E3. ring.
Qed.

(** CORAL adapts a row and its copy to the same point exactly if the stretch commutes with the covariance of the sources. *)
Theorem C219_coral : forall eigh n m Xs Xt A t,
  eigensolver n eigh -> 0 < m -> pos_def n (cov_of m Xs) -> (forall i j, A i j = A j i) -> pos_def n A -> stretched_copy n m A t Xs Xt ->
  (forall Z i j, j < n -> coral_map_source eigh false n m m Xs Xt Z i j = coral_map_target false m Xt (stretched n A t Z) i j) <->
  (forall i j, i < n -> j < n -> sigma n (fun k => cov_of m Xs i k * A k j)%R = sigma n (fun k => A i k * cov_of m Xs k j)%R).
Proof.
  intros eigh n m Xs Xt A t HE Hm PX SA PA HX.
  set (Cs := emp_cov false m Xs). set (Ct := emp_cov false m Xt).
  assert (QS : meq n n Cs (cov_of m Xs)) by (intros i j _ _; apply cov_emp). assert (QT : meq n n Ct (cov_of m Xt)) by (intros i j _ _; apply cov_emp).
  assert (S1 : symm Cs) by (intros i j; apply emp_cov_sym). assert (S2 : symm Ct) by (intros i j; apply emp_cov_sym).
  assert (P1 : pos_def n Cs) by now apply emp_pd.
  destruct (inverse_of eigh n HE A SA PA) as (V & SV & PV & AV & VA).
  assert (CC : meq n n Ct (mmul n (mmul n A Cs) A)) by (rewrite QT, QS; now apply (copy_cov n m A t)).
  assert (P2 : pos_def n Ct) by (apply (pd_ext n (mmul n (mmul n A Cs) A)); [now symmetry|]; apply (sandwich_pd n A V); auto).
  destruct (roots_inverse eigh n HE Cs S1 P1) as (I1 & I2). pose proof (sqrtm_sq eigh n HE Cs S1 (pd_psd n _ P1)) as SQ. pose proof (sqrtm_sym eigh n Cs) as SS.
  assert (T : forall Z i j, j < n -> coral_map_target false m Xt (stretched n A t Z) i j = mmul n (fun i k => Z i k - col_mean m Xs k)%R A i j).
  { intros Z i j Hj. unfold coral_map_target, stretched. rewrite sigma_msum. change (col_mean m Xt j) with (mean_of m Xt j). rewrite (copy_mean n m A t Xs Xt Hm HX j Hj).
    unfold mmul. assert (Q : (msum n (fun k => (Z i k - col_mean m Xs k) * A k j) + msum n (fun k => col_mean m Xs k * A k j) = msum n (fun k => Z i k * A k j))%R) by (rewrite <- msum_plus; apply msum_ext; intros; ring).
    change (fun k => mean_of m Xs k * A k j)%R with (fun k => col_mean m Xs k * A k j)%R. lra. }
  split.
  - intros H. assert (W : meq n n (mmul n (invsqrtm eigh n Cs) (sqrtm eigh n Ct)) A).
    { intros i j Hi Hj. specialize (H (fun a k => delta i k + col_mean m Xs k)%R i j Hj). rewrite T in H by auto. unfold coral_map_source in H. fold Cs Ct in H. rewrite mmul_assoc in H.
      assert (D : forall M : mat, mmul n (fun a k => delta i k + col_mean m Xs k - col_mean m Xs k)%R M i j = M i j).
      { intros M. rewrite (mmul_ext n _ delta M M i j); auto; [now rewrite mmul_delta_l|]. intros k Hk. unfold delta. ring. }
      now rewrite !D in H. }
    assert (E : meq n n (sqrtm eigh n Ct) (mmul n (sqrtm eigh n Cs) A)).
    { rewrite <- W, <- massoc, I2. symmetry. apply m1l. }
    assert (RA : meq n n (mmul n (sqrtm eigh n Cs) A) (mmul n A (sqrtm eigh n Cs))).
    { intros i j Hi Hj. rewrite <- (E i j) by auto. rewrite sqrtm_sym. rewrite (E j i) by auto. unfold mmul. apply msum_ext. intros k _. rewrite (SA k i), (SS j k). ring. }
    assert (G : meq n n (mmul n (cov_of m Xs) A) (mmul n A (cov_of m Xs))).
    { rewrite <- QS, <- SQ. rewrite massoc, RA, <- massoc, RA, massoc. reflexivity. }
    intros i j Hi Hj. rewrite !sigma_msum. apply (G i j Hi Hj).
  - intros H. assert (G : meq n n (mmul n Cs A) (mmul n A Cs)) by (rewrite QS; intros i j Hi Hj; specialize (H i j Hi Hj); rewrite !sigma_msum in H; exact H).
    pose proof (root_commutes eigh n HE Cs A S1 G) as RA. set (Rt := sqrtm eigh n Cs) in *.
    pose proof (root_commutes eigh n HE A Rt SA) as QR. pose proof (sqrtm_sq eigh n HE A SA (pd_psd n _ PA)) as AQ. pose proof (sqrtm_sym eigh n A) as SQ'. pose proof (sqrtm_psd eigh n A) as PQ. set (Q := sqrtm eigh n A) in *.
    assert (QR' : meq n n (mmul n Q Rt) (mmul n Rt Q)) by (apply QR; now symmetry).
    assert (E : meq n n (sqrtm eigh n Ct) (mmul n (mmul n Q Rt) Q)).
    { apply (root_is eigh n HE); auto.
      - now apply pd_psd.
      - intros; apply sandwich_sym; auto.
      - apply sandwich_psd; auto. apply sqrtm_psd.
      - rewrite CC, <- SQ. rewrite <- AQ. rewrite QR' at 2. rewrite !massoc. rewrite <- (massoc n Rt Q). rewrite <- QR'. rewrite !massoc. reflexivity. }
    intros Z i j Hj. rewrite T by auto. unfold coral_map_source. fold Cs Ct. rewrite mmul_assoc. apply mmul_ext; auto. intros k Hk.
    assert (W : meq n n (mmul n (invsqrtm eigh n Cs) (sqrtm eigh n Ct)) A).
    { rewrite E, QR'. rewrite !massoc. rewrite <- massoc. rewrite I1, m1l. exact AQ. }
    now apply W.
Qed.

(** In particular when all features are stretched alike and shifted in any way, CORAL adapts every row and its copy to the same point. *)
Theorem C219_coral_alike : forall eigh n m Xs Xt c t,
  eigensolver n eigh -> 0 < m -> pos_def n (cov_of m Xs) -> (0 < c)%R -> stretched_copy n m (fun i j => if i =? j then c else 0%R) t Xs Xt ->
  forall Z i j, j < n -> coral_map_source eigh false n m m Xs Xt Z i j = coral_map_target false m Xt (fun i j => c * Z i j + t j)%R i j.
Proof.
  intros eigh n m Xs Xt c t HE Hm PX Hc HX Z i j Hj. set (A := fun i j => if i =? j then c else 0%R) in *.
  assert (SA : forall i j, A i j = A j i) by (intros a b; unfold A; now rewrite Nat.eqb_sym).
  assert (PA : pos_def n A) by (apply (pd_ext n (diag (fun _ => c))); [intros a b _ _; reflexivity|apply diag_pd; auto]).
  assert (R : forall (M : mat) a b, b < n -> msum n (fun k => M a k * A k b)%R = (c * M a b)%R).
  { intros M a b Hb. rewrite (msum_ext n _ (fun k => (c * M a k) * (if k =? b then 1 else 0))%R); [now rewrite msum_delta|]. intros k _. unfold A. destruct (k =? b); ring. }
  assert (L : forall (M : mat) a b, a < n -> msum n (fun k => A a k * M k b)%R = (c * M a b)%R).
  { intros M a b Ha. rewrite (msum_ext n _ (fun k => (c * M k b) * (if k =? a then 1 else 0))%R); [now rewrite msum_delta|]. intros k _. unfold A. rewrite (Nat.eqb_sym a k). destruct (k =? a); ring. }
  rewrite (proj2 (C219_coral eigh n m Xs Xt A t HE Hm PX SA PA HX)); auto.
  - unfold coral_map_target, stretched. rewrite sigma_msum, R by auto. ring.
  - intros a b Ha Hb. rewrite !sigma_msum. now rewrite R, L.
Qed.

(** Correlated sources of covariance [[5, 3], [3, 2]], the first feature of the target doubled: no matter how eigenvectors are chosen,
    CORAL does not adapt all rows and their copies to the same point. *)
Definition doubled : mat := fun i j => if i =? j then (if i =? 0 then 2 else 1)%R else 0%R.
Theorem C219_coral_refuted : forall t, exists Xt, stretched_copy 2 4 doubled t slope Xt /\ pos_def 2 (cov_of 4 slope) /\ pos_def 2 doubled /\ (forall i j, doubled i j = doubled j i) /\
  forall eigh, eigensolver 2 eigh -> ~ (forall Z i j, j < 2 -> coral_map_source eigh false 2 4 4 slope Xt Z i j = coral_map_target false 4 Xt (stretched 2 doubled t Z) i j).
Proof.
  intros t. destruct (C86_eigensolver_exists 2) as (e0 & He0). destruct (C218_coral_longer e0 He0) as (_ & PL & _).
  exists (stretched 2 doubled t slope). assert (HX : stretched_copy 2 4 doubled t slope (stretched 2 doubled t slope)).
  { exists (fun i => i). split; [unfold reorders; now rewrite map_id|auto]. }
  assert (SD : forall i j, doubled i j = doubled j i).
  { intros i j. unfold doubled. destruct (Nat.eqb_spec i j) as [->|N]; [now rewrite Nat.eqb_refl|]. assert (j =? i = false) as -> by (apply Nat.eqb_neq; auto). reflexivity. }
  assert (PD : pos_def 2 doubled).
  { apply (pd_ext 2 (diag (fun i => if i =? 0 then 2 else 1)%R)); [intros i j _ _; reflexivity|]. apply diag_pd. intros i Hi. destruct (i =? 0); lra. }
  repeat (split; [auto|]). intros eigh HE H. rewrite (C219_coral eigh 2 4 slope _ doubled t HE ltac:(lia) PL SD PD HX) in H.
  specialize (H 0 1 ltac:(lia) ltac:(lia)). unfold cov_of, mean_of, doubled, slope, four in H. cbn in H. lra.
Qed.

(** ** Examples *)
(** The four rows in another order, first feature doubled and shifted by 10. *)
Definition turned_round (i : nat) : nat := match i with 0 => 3 | 1 => 0 | 2 => 1 | 3 => 2 | _ => i end.
Example C219_ex : let t := (fun j => if j =? 0 then 10 else 0)%R in
  stretched_copy 2 4 doubled t slope (fun i => stretched 2 doubled t slope (turned_round i)) /\ stretched 2 doubled t slope (turned_round 0) 0 = 4%R /\
  pos_def 2 (cov_of 4 slope) /\ pos_def 2 doubled /\ (exists eigh, eigensolver 2 eigh) /\ gives_covariance 2 bary_first /\ one_to_itself 2 bary_first.
Proof.
  intros t. split.
  { exists turned_round. split; [|auto]. unfold reorders. cbn. apply (Permutation_trans (l' := [3; 0; 1; 2])); [reflexivity|]. apply (Permutation_cons_append [0; 1; 2] 3). }
  split; [unfold stretched, doubled, slope, four, turned_round, t; cbn; ring|].
  destruct (C219_coral_refuted t) as (Xt & _ & P1 & P2 & _). split; [auto|]. split; [auto|]. split; [apply C86_eigensolver_exists|]. split.
  - intros ms [|C Cs] H; cbn; [split; auto; intros v; cbn; lra|]. now inversion H.
  - intros mu C S. cbn. auto.
Qed.
Example C219_alike_ex : stretched_copy 2 4 (fun i j => if i =? j then 3 else 0)%R (fun _ => 5%R) slope (fun i j => 3 * slope i j + 5)%R.
Proof.
  exists (fun i => i). split; [unfold reorders; now rewrite map_id|]. intros i j Hj. unfold stretched. assert (j = 0 \/ j = 1) as [-> | ->] by lia; cbn; ring.
Qed.
