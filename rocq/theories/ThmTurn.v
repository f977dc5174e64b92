(** C187: turning, scaling and moving the feature space commutes with CORAL and with the multi-domain Monge alignment. *)
From Coq Require Import List ZArith Bool Arith Lia Reals Lra Setoid Morphisms FunctionalExtensionality.
From Verif Require Import Np NpFacts MapModel MapSpec MapProofs2 RMat CovSpec CovProofs MongeModel MongeProofs ThmMonge TurnProofs.
Import ListNotations.
Local Open Scope nat_scope.

(** ** Specification *)
(** [Q] is orthogonal. *)
Definition orthogonal (n : nat) (Q : mat) : Prop := forall i j, i < n -> j < n ->
  sigma n (fun k => Q k i * Q k j)%R = (if i =? j then 1 else 0)%R /\ sigma n (fun k => Q i k * Q j k)%R = (if i =? j then 1 else 0)%R.
(** Every row is turned by [Q], scaled by [s] and moved by [c]. *)
Definition moved (n : nat) (s : R) (Q : mat) (c : nat -> R) (X : mat) : mat := fun i j => (s * sigma n (fun k => X i k * Q k j) + c j)%R.

(** ** Proofs *)
Lemma moved_affine n s Q c X : moved n s Q c X = fun i j => (mmul n X (sc s Q) i j + c j)%R.
Proof.
  apply functional_extensionality. intros i. apply functional_extensionality. intros j. unfold moved, mmul, sc. rewrite sigma_msum. f_equal. rewrite <- msum_scal. apply msum_ext. intros; ring.
Qed.
Lemma orthogonal_meq n Q : orthogonal n Q -> meq n n (mmul n (mT Q) Q) delta /\ meq n n (mmul n Q (mT Q)) delta.
Proof.
  intros H. split; intros i j Hi Hj; destruct (H i j Hi Hj) as [A B]; rewrite sigma_msum in A, B; unfold mmul, mT, delta; auto.
Qed.
Lemma cov_moved n s Q c m X : 0 < m -> meq n n (cov_of m (moved n s Q c X)) (sc (s * s) (conj n Q (cov_of m X))).
Proof.
  intros Hm. rewrite moved_affine. transitivity (mmul n (mmul n (mT (sc s Q)) (cov_of m X)) (sc s Q)).
  - intros j l _ _. now apply cov_affine.
  - rewrite sc_r. change (mT (sc s Q)) with (sc s (mT Q)). rewrite sc_l, sc_l, sc_sc. reflexivity.
Qed.
Lemma moment_moved n s Q m X : meq n n (moment_of m (moved n s Q (fun _ => 0%R) X)) (sc (s * s) (conj n Q (moment_of m X))).
Proof.
  transitivity (mmul n (mmul n (mT (sc s Q)) (moment_of m X)) (sc s Q)).
  - intros j l _ _. rewrite moved_affine. unfold moment_of at 1. rewrite sigma_msum. rewrite (msum_ext m _ (fun i => mmul n X (sc s Q) i j * mmul n X (sc s Q) i l)%R) by (intros; ring).
    rewrite moment_mul. reflexivity.
  - rewrite sc_r. change (mT (sc s Q)) with (sc s (mT Q)). rewrite sc_l, sc_l, sc_sc. reflexivity.
Qed.
Lemma centred_moved n s Q c m (X Z : mat) i j : 0 < m -> (moved n s Q c Z i j - mean_of m (moved n s Q c X) j = mmul n (fun i k => Z i k - mean_of m X k) (sc s Q) i j)%R.
Proof.
  intros Hm. rewrite !moved_affine. rewrite mean_affine by auto. unfold mmul. rewrite (msum_ext n (fun k => (Z i k - mean_of m X k) * sc s Q k j)%R (fun k => Z i k * sc s Q k j + -1 * (mean_of m X k * sc s Q k j))%R) by (intros; ring).
  rewrite msum_plus, msum_scal. ring.
Qed.
(** Turning the rows and then mapping by the turned roots is mapping first. *)
Lemma turn_out n s Q k (Y P S P' S' : mat) : (0 < s)%R -> meq n n (mmul n Q (mT Q)) delta ->
  meq n n P' (sc (/ s) (conj n Q P)) -> meq n n S' (sc s (conj n Q S)) ->
  meq k n (mmul n (mmul n (mmul n Y (sc s Q)) P') S') (mmul n (mmul n (mmul n Y P) S) (sc s Q)).
Proof.
  intros Hs Q2 EP ES. rewrite EP, ES. rewrite !sc_r, !sc_l, !sc_sc. match goal with |- meq _ _ (sc ?a _) (sc ?b _) => replace a with b by (field; lra) end. apply sc_proper.
  unfold conj. rewrite !assoc. rewrite <- (assoc n n n Q (mT Q)), Q2, one_l. rewrite <- (assoc n n n Q (mT Q)), Q2, one_l. reflexivity.
Qed.

Section Coral.
  Variables (eigh : mat -> (nat -> R) * mat) (n : nat) (s : R) (Q : mat).
  Hypothesis HE : eigensolver n eigh.
  Hypothesis Hs : (0 < s)%R.
  Hypothesis HQ : orthogonal n Q.
  Lemma coral_moved ms mt Xs Xt c d Z : 0 < ms -> 0 < mt -> pos_def n (cov_of ms Xs) ->
    forall i j, j < n -> coral_map_source eigh false n ms mt (moved n s Q c Xs) (moved n s Q d Xt) (moved n s Q c Z) i j
      = moved n s Q (fun _ => 0%R) (coral_map_source eigh false n ms mt Xs Xt Z) i j.
  Proof.
    intros Hms Hmt P i j Hj. destruct (orthogonal_meq n Q HQ) as (Q1 & Q2). rewrite (moved_affine n s Q (fun _ => 0%R)). rewrite Rplus_0_r. unfold coral_map_source.
    transitivity (mmul n (mmul n (mmul n (fun i k => (Z i k - mean_of ms Xs k)%R) (sc s Q)) (invsqrtm eigh n (emp_cov false ms (moved n s Q c Xs)))) (sqrtm eigh n (emp_cov false mt (moved n s Q d Xt))) i j).
    - apply mmul_ext; auto. intros l Hl. apply mmul_ext; auto. intros a Ha. exact (centred_moved n s Q c ms Xs Z i a Hms).
    - apply (turn_out n s Q (S i)); auto.
      + apply invroot_turned; auto; try (intros; apply emp_cov_sym). now apply cov_moved.
      + apply root_turned; auto; try (intros; apply emp_cov_sym); [|now apply cov_moved]. intros v. now apply emp_cov_nonneg.
  Qed.
  Lemma coral_centred_moved ms mt Xs Xt Z : 0 < ms -> 0 < mt -> pos_def n (moment_of ms Xs) ->
    forall i j, j < n -> coral_map_source eigh true n ms mt (moved n s Q (fun _ => 0%R) Xs) (moved n s Q (fun _ => 0%R) Xt) (moved n s Q (fun _ => 0%R) Z) i j
      = moved n s Q (fun _ => 0%R) (coral_map_source eigh true n ms mt Xs Xt Z) i j.
  Proof.
    intros Hms Hmt P i j Hj. destruct (orthogonal_meq n Q HQ) as (Q1 & Q2). rewrite (moved_affine n s Q (fun _ => 0%R) (coral_map_source _ _ _ _ _ _ _ _)). rewrite Rplus_0_r. unfold coral_map_source.
    assert (EM : forall m X, emp_cov true m X = moment_of m X).
    { intros. apply functional_extensionality. intros a. apply functional_extensionality. intros b. unfold emp_cov, moment_of. change (sigma m) with (msum m). f_equal. apply msum_ext. intros; ring. }
    transitivity (mmul n (mmul n (mmul n Z (sc s Q)) (invsqrtm eigh n (emp_cov true ms (moved n s Q (fun _ => 0%R) Xs)))) (sqrtm eigh n (emp_cov true mt (moved n s Q (fun _ => 0%R) Xt))) i j).
    - apply mmul_ext; auto. intros l Hl. apply mmul_ext; auto. intros a Ha. rewrite moved_affine. ring.
    - rewrite !EM. apply (turn_out n s Q (S i)); auto.
      + apply invroot_turned; auto; try (intros; rewrite <- EM; apply emp_cov_sym). apply moment_moved.
      + apply root_turned; auto; try (intros; rewrite <- EM; apply emp_cov_sym); [|apply moment_moved]. rewrite <- EM. intros v. now apply emp_cov_nonneg.
  Qed.
End Coral.

(** CORAL: sources and targets may even be moved differently. *)
Theorem C187_coral_sources : forall eigh n s Q ms mt Xs Xt c d Z, eigensolver n eigh -> (0 < s)%R -> orthogonal n Q ->
  0 < ms -> 0 < mt -> pos_def n (cov_of ms Xs) -> forall i j, j < n ->
  coral_map_source eigh false n ms mt (moved n s Q c Xs) (moved n s Q d Xt) (moved n s Q c Z) i j
  = moved n s Q (fun _ => 0%R) (coral_map_source eigh false n ms mt Xs Xt Z) i j.
Proof. intros. now apply coral_moved. Qed.
Theorem C187_coral_targets : forall n s Q mt Xt d Z, 0 < mt -> forall i j,
  coral_map_target false mt (moved n s Q d Xt) (moved n s Q d Z) i j = moved n s Q (fun _ => 0%R) (coral_map_target false mt Xt Z) i j.
Proof. intros n s Q mt Xt d Z Hm i j. rewrite (moved_affine n s Q (fun _ => 0%R)), Rplus_0_r. unfold coral_map_target. now apply centred_moved. Qed.
(** assume_centered=True: turned and scaled. *)
Theorem C187_coral_centred : forall eigh n s Q ms mt Xs Xt Z, eigensolver n eigh -> (0 < s)%R -> orthogonal n Q ->
  0 < ms -> 0 < mt -> pos_def n (moment_of ms Xs) -> let turned := moved n s Q (fun _ => 0%R) in
  (forall i j, j < n -> coral_map_source eigh true n ms mt (turned Xs) (turned Xt) (turned Z) i j = turned (coral_map_source eigh true n ms mt Xs Xt Z) i j) /\
  (forall i j, coral_map_target true mt (turned Xt) (turned Z) i j = turned (coral_map_target true mt Xt Z) i j).
Proof. intros. split; [intros; now apply coral_centred_moved|reflexivity]. Qed.

(** ** Multi-domain Monge alignment *)
(** The barycentre of moved Gaussians is the moved barycentre. *)
Definition moves_along (n : nat) (bary : list (nat -> R) -> list mat -> (nat -> R) * mat) : Prop :=
  forall s Q c ms Cs ms' Cs', (0 < s)%R -> orthogonal n Q -> ms <> [] ->
    Forall2 (fun m' m : nat -> R => forall j, j < n -> m' j = (s * sigma n (fun k => m k * Q k j) + c j)%R) ms' ms ->
    Forall2 (fun C' C : mat => forall j l, j < n -> l < n -> C' j l = (s * s * sigma n (fun a => sigma n (fun b => Q b j * C b a * Q a l)))%R) Cs' Cs ->
    (forall j, j < n -> fst (bary ms' Cs') j = (s * sigma n (fun k => fst (bary ms Cs) k * Q k j) + c j)%R) /\
    (forall j l, j < n -> l < n -> snd (bary ms' Cs') j l = (s * s * sigma n (fun a => sigma n (fun b => Q b j * snd (bary ms Cs) b a * Q a l)))%R).
Definition moved_domain (n : nat) (s : R) (Q : mat) (c : nat -> R) (d : domain) : domain := (fst d, (fst (snd d), moved n s Q c (snd (snd d)))).

Lemma conj_sigma n s Q C j l : sc (s * s) (conj n Q C) j l = (s * s * sigma n (fun a => sigma n (fun b => Q b j * C b a * Q a l)))%R.
Proof. change (sigma n) with (msum n). unfold sc, conj, mmul, mT. f_equal. apply msum_ext. intros a _. rewrite <- msum_scal_r. apply msum_ext. intros; ring. Qed.
Lemma row_sigma n s Q (m : nat -> R) j : (msum n (fun k => m k * sc s Q k j) = s * sigma n (fun k => m k * Q k j))%R.
Proof. change (sigma n) with (msum n). unfold sc. rewrite <- msum_scal. apply msum_ext. intros; ring. Qed.
Section Monge.
  Variables (eigh : mat -> (nat -> R) * mat) (n : nat) (s : R) (Q : mat).
  Hypothesis HE : eigensolver n eigh.
  Hypothesis Hs : (0 < s)%R.
  Hypothesis HQ : orthogonal n Q.
  Lemma bw_moved m1 m2 C1 C2 m1' m2' C1' C2' : (forall i j, C1 i j = C1 j i) -> (forall i j, C1' i j = C1' j i) -> (forall i j, C2 i j = C2 j i) -> (forall i j, C2' i j = C2' j i) ->
    pos_def n C1 -> pos_semidef n C2 -> meq n n C1' (sc (s * s) (conj n Q C1)) -> meq n n C2' (sc (s * s) (conj n Q C2)) ->
    meq n n (fst (bw_mapping eigh n m1' m2' C1' C2')) (conj n Q (fst (bw_mapping eigh n m1 m2 C1 C2))).
  Proof.
    intros S1 S1' S2 S2' P1 P2 E1 E2. destruct (orthogonal_meq n Q HQ) as (Q1 & Q2). cbn [bw_mapping fst].
    assert (PS : pos_semidef n C1). { intros v. destruct (classic_zero n v) as [Z|Z]; [rewrite Z; lra|]. apply Rlt_le. now apply P1. }
    assert (R1 := root_turned eigh n HE s Q Hs Q2 C1 C1' S1 S1' PS E1). assert (I1 := invroot_turned eigh n HE s Q Hs Q1 Q2 C1 C1' S1 S1' P1 E1).
    set (r := sqrtm eigh n C1) in *. set (r' := sqrtm eigh n C1') in *. set (v := invsqrtm eigh n C1) in *. set (v' := invsqrtm eigh n C1') in *.
    assert (EI : meq n n (mmul n (mmul n r' C2') r') (sc (s * s * (s * s)) (conj n Q (mmul n (mmul n r C2) r)))).
    { rewrite R1, E2. rewrite !sc_r, !sc_l, !sc_sc. rewrite conj_mul by auto. rewrite conj_mul by auto. match goal with |- meq _ _ (sc ?a _) (sc ?b _) => replace a with b by ring end. reflexivity. }
    assert (RM : meq n n (sqrtm eigh n (mmul n (mmul n r' C2') r')) (sc (s * s) (conj n Q (sqrtm eigh n (mmul n (mmul n r C2) r))))).
    { apply root_turned; auto; [nra| | |].
      - apply sandwich_sym; auto. intros; apply sqrtm_sym.
      - apply sandwich_sym; auto. intros; apply sqrtm_sym.
      - apply sandwich_psd; auto. intros; apply sqrtm_sym. }
    rewrite I1, RM. rewrite !sc_r, !sc_l, !sc_sc. rewrite conj_mul by auto. rewrite conj_mul by auto. apply sc_one. field. lra.
  Qed.
End Monge.

Theorem C187_monge : forall eigh bary n s Q c sources targets, eigensolver n eigh -> gives_covariance n bary -> moves_along n bary ->
  (0 < s)%R -> orthogonal n Q -> sources <> [] -> NoDup (map fst (sources ++ targets)) ->
  Forall (fun d : domain => 0 < fst (snd d) /\ pos_def n (cov_of (fst (snd d)) (snd (snd d)))) (sources ++ targets) ->
  let fitted := mlm_fit_num eigh bary n true sources targets in
  let fitted' := mlm_fit_num eigh bary n true (map (moved_domain n s Q c) sources) (map (moved_domain n s Q c) targets) in
  forall k Z, In k (map fst (sources ++ targets)) -> exists Y Y',
    mlm_transform_num n fitted k Z = Ok Y /\ mlm_transform_num n fitted' k (moved n s Q c Z) = Ok Y' /\
    forall i j, j < n -> Y' i j = moved n s Q c Y i j.
Proof.
  intros eigh bary n s Q c sources targets HE HB HM Hs HQ NE ND H fitted fitted' k Z Hk.
  apply in_map_iff in Hk as ([k' [m X]] & <- & I). cbn [fst].
  destruct (proj1 (Forall_forall _ _) H _ I) as (Hm & HP). cbn [fst snd] in Hm, HP.
  assert (ND' : NoDup (map fst (map (moved_domain n s Q c) sources ++ map (moved_domain n s Q c) targets))) by (rewrite <- map_app, map_map; exact ND).
  assert (I' : In (k', (m, moved n s Q c X)) (map (moved_domain n s Q c) sources ++ map (moved_domain n s Q c) targets)) by (rewrite <- map_app; apply in_map_iff; exists (k', (m, X)); auto).
  unfold mlm_transform_num, fitted, fitted'. rewrite (lookup eigh bary n true sources targets k' m X ND I), (lookup eigh bary n true _ _ k' m _ ND' I'). cbn [bind].
  do 2 eexists. split; [reflexivity|]. split; [reflexivity|].
  assert (HS : Forall (fun d : domain => 0 < fst (snd d)) sources).
  { apply Forall_forall. intros d Hd. apply (proj1 (Forall_forall _ _) H d). apply in_app_iff. now left. }
  assert (HS' : Forall (fun d : domain => 0 < fst (snd d)) (map (moved_domain n s Q c) sources)).
  { apply Forall_forall. intros d Hd. apply in_map_iff in Hd as (d0 & <- & Hd). exact (proj1 (Forall_forall _ _) HS d0 Hd). }
  destruct (centre_cov bary n HB true sources HS) as (CS & CP). destruct (centre_cov bary n HB true _ HS') as (CS' & CP').
  assert (PM : forall m X j, 0 < m -> snd (get_cov_mean true None m (moved n s Q c X)) j = (s * sigma n (fun k => snd (get_cov_mean true None m X) k * Q k j) + c j)%R).
  { intros m0 X0 j Hm0. rewrite param_mean, moved_affine, mean_affine, row_sigma by auto. f_equal. f_equal. change (sigma n) with (msum n). apply msum_ext. intros. now rewrite param_mean. }
  assert (PC : forall m X, 0 < m -> meq n n (fst (get_cov_mean true None m (moved n s Q c X))) (sc (s * s) (conj n Q (fst (get_cov_mean true None m X))))).
  { intros m0 X0 Hm0. assert (E : forall X1, meq n n (fst (get_cov_mean true None m0 X1)) (cov_of m0 X1)) by (intros X1 a b _ _; apply param_cov).
    rewrite E. rewrite cov_moved by auto. apply sc_proper. apply conj_proper. symmetry. apply E. }
  destruct (HM s Q c (map (fun d : domain => snd (get_cov_mean true None (fst (snd d)) (snd (snd d)))) sources) (map (fun d : domain => fst (get_cov_mean true None (fst (snd d)) (snd (snd d)))) sources)
    (map (fun d : domain => snd (get_cov_mean true None (fst (snd d)) (snd (snd d)))) (map (moved_domain n s Q c) sources)) (map (fun d : domain => fst (get_cov_mean true None (fst (snd d)) (snd (snd d)))) (map (moved_domain n s Q c) sources))) as (BM & BC); auto.
  { now destruct sources. }
  { rewrite map_map. clear - HS PM. induction HS as [|d l Hd _ IH]; constructor; auto. intros j _. cbn [moved_domain fst snd]. now apply PM. }
  { rewrite map_map. clear - HS PC. induction HS as [|d l Hd _ IH]; constructor; auto. intros j l0 Hj Hl. cbn [moved_domain fst snd]. rewrite (PC _ _ Hd j l0 Hj Hl). apply conj_sigma. }
  pose (b := centre bary true sources). pose (b' := centre bary true (map (moved_domain n s Q c) sources)).
  assert (BM0 : forall j, j < n -> fst b' j = (s * sigma n (fun k => fst b k * Q k j) + c j)%R) by exact BM. assert (BC0 : forall j l, j < n -> l < n -> snd b' j l = (s * s * sigma n (fun a => sigma n (fun e => Q e j * snd b e a * Q a l)))%R) by exact BC. clear BM BC. rename BM0 into BM. rename BC0 into BC.
  fold b in CS, CP |- *. fold b' in CS', CP' |- *.
  set (p := get_cov_mean true None m X) in *. set (p' := get_cov_mean true None m (moved n s Q c X)) in *.
  assert (EA : meq n n (fst (bw_mapping eigh n (snd p') (fst b') (fst p') (snd b'))) (conj n Q (fst (bw_mapping eigh n (snd p) (fst b) (fst p) (snd b))))).
  { apply (bw_moved eigh n s); auto; try (intros; apply param_sym).
    - apply (pd_meq n (cov_of m X)); auto. intros a e _ _. unfold p. symmetry. apply param_cov.
    - now apply PC.
    - intros j l Hj Hl. rewrite (BC j l Hj Hl). symmetry. apply conj_sigma. }
  intros i j Hj. set (A := fst (bw_mapping eigh n (snd p) (fst b) (fst p) (snd b))) in *. set (A' := fst (bw_mapping eigh n (snd p') (fst b') (fst p') (snd b'))) in *.
  set (D := fun i k => (Z i k - mean_of m X k)%R).
  assert (Y' : (mmul n (moved n s Q c Z) A' i j + snd (bw_mapping eigh n (snd p') (fst b') (fst p') (snd b')) j = mmul n (mmul n D (sc s Q)) A' i j + fst b' j)%R).
  { cbn [bw_mapping snd]. fold A'. change (msum n (fun k => snd p' k * _)%R) with (msum n (fun k => snd p' k * A' k j)%R).
    unfold mmul at 1 2. rewrite (msum_ext n (fun l => mmul n D (sc s Q) i l * A' l j)%R (fun l => moved n s Q c Z i l * A' l j + -1 * (snd p' l * A' l j))%R).
    - rewrite msum_plus, msum_scal. ring.
    - intros l _. unfold D. rewrite <- (centred_moved n s Q c m X Z i l Hm). unfold p'. rewrite param_mean. ring. }
  assert (Y : forall l, (mmul n Z A i l + snd (bw_mapping eigh n (snd p) (fst b) (fst p) (snd b)) l = mmul n D A i l + fst b l)%R).
  { intros l. cbn [bw_mapping snd]. fold A. change (msum n (fun k => snd p k * _)%R) with (msum n (fun k => snd p k * A k l)%R).
    unfold mmul at 1 2. rewrite (msum_ext n (fun a => D i a * A a l)%R (fun a => Z i a * A a l + -1 * (snd p a * A a l))%R).
    - rewrite msum_plus, msum_scal. ring.
    - intros a _. unfold D, p. rewrite param_mean. ring. }
  rewrite Y'. rewrite moved_affine. 
  transitivity (mmul n (fun _ l => (mmul n D A i l + fst b l)%R) (sc s Q) i j + c j)%R.
  2:{ f_equal. apply mmul_ext; [|auto]. intros l Hl. symmetry. apply Y. }
  rewrite BM by auto. destruct (orthogonal_meq n Q HQ) as (Q1 & Q2).
  assert (T : (mmul n (mmul n D (sc s Q)) A' i j = mmul n (mmul n D A) (sc s Q) i j)%R).
  { assert (TT : meq (S i) n (mmul n (mmul n D (sc s Q)) A') (mmul n (mmul n D A) (sc s Q))).
    { rewrite EA. rewrite !sc_r, !sc_l. apply sc_proper. unfold conj. rewrite !assoc. rewrite <- (assoc n n n Q (mT Q)), Q2, one_l. reflexivity. }
    apply TT; lia. }
  rewrite T. rewrite <- row_sigma. unfold mmul at 1 3. rewrite (msum_ext n (fun l => (mmul n D A i l + fst b l) * sc s Q l j)%R (fun l => mmul n D A i l * sc s Q l j + fst b l * sc s Q l j)%R) by (intros; ring).
  rewrite msum_plus. ring.
Qed.

(** A quarter turn of the plane is orthogonal; one feature mirrored, tripled and shifted, with the barycentre of C185_ex. *)
Example C187_ex : orthogonal 2 (fun i j => if i =? 0 then (if j =? 0 then 0 else 1) else (if j =? 0 then -1 else 0))%R /\
  orthogonal 1 (fun _ _ => -1)%R /\ moves_along 1 bary1 /\ eigensolver 1 eigh1 /\ gives_covariance 1 bary1 /\
  (let S : list domain := [(1%Z, (2, two 0 2)); (2%Z, (2, two 1 7))] in let T : list domain := [((-3)%Z, (2, two 10 14))] in
   NoDup (map fst (S ++ T)) /\ Forall (fun d : domain => 0 < fst (snd d) /\ pos_def 1 (cov_of (fst (snd d)) (snd (snd d)))) (S ++ T)) /\
  moved 1 3 (fun _ _ => -1)%R (fun _ => 5)%R (two 0 2) 1 0 = (-1)%R.
Proof.
  destruct C185_ex as (E & G & _ & _ & H). cbv zeta in H. destruct H as (ND & PD & _).
  split. { intros i j Hi Hj. destruct i as [|[|i]]; [| |lia]; (destruct j as [|[|j]]; [| |lia]); cbn; split; ring. }
  split. { intros i j Hi Hj. assert (i = 0) as -> by lia. assert (j = 0) as -> by lia. cbn. split; ring. }
  split.
  { intros s Q c ms Cs ms' Cs' Hs HQ NE Hm HC. specialize (HQ 0 0 ltac:(lia) ltac:(lia)). cbn in HQ. destruct HQ as (HQ & _).
    assert (HQ' : (Q 0%nat 0%nat * Q 0%nat 0%nat = 1)%R) by lra.
    assert (L : forall A B (P : A -> B -> Prop) l l', Forall2 P l l' -> length l = length l') by (intros A B P l l' F; induction F; cbn; auto).
    split.
    - intros j Hj. assert (j = 0) as -> by lia. cbn [sigma bary1 fst]. rewrite (L _ _ _ _ _ Hm).
      assert (LN : INR (length ms) <> 0%R) by (destruct ms; [congruence|]; apply not_0_INR; cbn; lia).
      assert (ES : (lsum (map (fun mu : nat -> R => mu 0%nat) ms') = s * (lsum (map (fun mu : nat -> R => mu 0%nat) ms) * Q 0%nat 0%nat) + INR (length ms) * c 0%nat)%R).
      { clear - Hm. induction Hm as [|m' m l' l E _ IH]; [cbn; ring|]. cbn [map lsum fold_right length]. rewrite S_INR. unfold lsum in IH. rewrite IH, (E 0%nat) by lia. cbn [sigma]. ring. }
      rewrite ES. field. auto.
    - intros j l Hj Hl. assert (j = 0) as -> by lia. assert (l = 0) as -> by lia. cbn [sigma bary1 snd]. rewrite (L _ _ _ _ _ HC).
      assert (ES : (lsum (map (fun C : mat => sqrt (C 0%nat 0%nat)) Cs') = s * lsum (map (fun C : mat => sqrt (C 0%nat 0%nat)) Cs))%R).
      { clear - HC HQ' Hs. induction HC as [|C' C l' l E _ IH]; [cbn; ring|]. cbn [map lsum fold_right]. unfold lsum in IH. rewrite IH, (E 0%nat 0%nat) by lia. cbn [sigma].
        replace (s * s * (0 + (0 + Q 0%nat 0%nat * C 0%nat 0%nat * Q 0%nat 0%nat)))%R with ((s * s) * (C 0%nat 0%nat * (Q 0%nat 0%nat * Q 0%nat 0%nat)))%R by ring.
        rewrite HQ', Rmult_1_r, sqrt_mult_alt by nra. rewrite sqrt_square by lra. ring. }
      rewrite ES. unfold Rdiv. set (a := lsum _). set (b := Rinv _). transitivity (s * s * (a * b * (a * b)) * (Q 0%nat 0%nat * Q 0%nat 0%nat))%R; [rewrite HQ'; ring|ring]. }
  split; [exact E|]. split; [exact G|]. split; [split; [exact ND|exact PD]|]. unfold moved, two. cbn. ring.
Qed.
