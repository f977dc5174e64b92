(** C206: what the subspace adapters do to distances. *)
From Coq Require Import List ZArith Bool Arith Lia Reals Lra Psatz.
From Verif Require Import Np NpFacts RVec RVecFacts MapModel MapSpec RMat SubModel SubSpec SubProofs RotModel ThmSub.
Local Open Scope R_scope.

(** ** Specification *)
(** Squared Euclidean distance of two rows of [d] entries. *)
Definition dist2 (d : nat) (x z : nat -> R) : R := sigma d (fun j => (x j - z j) * (x j - z j)).
(** A row relative to the mean of a data set. *)
Definition centred (m : nat) (X : nat -> nat -> R) (x : nat -> R) : nat -> R := fun j => x j - mean_of m X j.
(** PCA's components are orthonormal. *)
Definition pca_contract (pca : nat -> nat -> nat -> mat -> mat) (d : nat) : Prop :=
  forall k rows X, (k <= rows)%nat -> (k <= d)%nat -> orthonormal_rows k d (pca k rows d X).

(** ** Orthonormal rows *)
Definition app (d : nat) (P : mat) (v : nat -> R) (a : nat) : R := msum d (fun j => v j * P a j).
Definition n2 (d : nat) (v : nat -> R) : R := msum d (fun j => v j * v j).
Lemma ortho_delta k d P a b : orthonormal_rows k d P -> (a < k)%nat -> (b < k)%nat -> msum d (fun j => P a j * P b j) = delta a b.
Proof. intros H Ha Hb. apply (H a b Ha Hb). Qed.
(** The square of the length of P^T u is that of u. *)
Lemma back_norm k d P u : orthonormal_rows k d P -> n2 d (fun j => msum k (fun a => u a * P a j)) = n2 k u.
Proof.
  intros O. unfold n2. transitivity (msum d (fun j => msum k (fun a => msum k (fun b => (u a * P a j) * (u b * P b j))))).
  { apply msum_ext. intros j _. apply msum_mul. }
  rewrite msum_swap. apply msum_ext. intros a Ha. rewrite msum_swap.
  transitivity (msum k (fun b => u a * (delta a b * u b))).
  { apply msum_ext. intros b Hb. rewrite <- (ortho_delta k d P a b O Ha Hb). rewrite <- msum_scal_r. rewrite <- msum_scal. apply msum_ext. intros j _. ring. }
  rewrite msum_scal. now rewrite msum_delta_l.
Qed.
(** Bessel: P v is not longer than v. *)
Lemma bessel k d P v : orthonormal_rows k d P -> n2 k (app d P v) <= n2 d v.
Proof.
  intros O. set (u := app d P v). assert (E : n2 d (fun j => v j - msum k (fun a => u a * P a j)) = n2 d v - n2 k u).
  { transitivity (n2 d v - 2 * msum d (fun j => v j * msum k (fun a => u a * P a j)) + n2 d (fun j => msum k (fun a => u a * P a j))).
    - unfold n2. rewrite <- msum_scal, <- msum_minus, <- msum_plus. apply msum_ext. intros j _. ring.
    - rewrite (back_norm k d P u O). assert (C : msum d (fun j => v j * msum k (fun a => u a * P a j)) = n2 k u); [|rewrite C; ring].
      transitivity (msum d (fun j => msum k (fun a => v j * (u a * P a j)))); [apply msum_ext; intros; symmetry; apply msum_scal|]. rewrite msum_swap. apply msum_ext. intros a _.
      transitivity (msum d (fun j => u a * (v j * P a j))); [apply msum_ext; intros; ring|]. apply msum_scal. }
  assert (0 <= n2 d (fun j => v j - msum k (fun a => u a * P a j))) by (apply msum_nonneg; intros; apply (Rle_0_sqr (v i - msum k (fun a => u a * P a i)))). lra.
Qed.
(** As many orthonormal rows as columns: the columns are orthonormal too. *)
Lemma square_columns d P : orthonormal_rows d d P -> forall i j, (i < d)%nat -> (j < d)%nat -> msum d (fun a => P a i * P a j) = delta i j.
Proof.
  intros O. set (G := fun i j => msum d (fun a => P a i * P a j)).
  assert (T : msum d (fun i => G i i) = INR d). { unfold G. rewrite msum_swap. transitivity (msum d (fun _ => 1)); [|rewrite msum_const; ring]. apply msum_ext. intros a Ha. rewrite (ortho_delta d d P a a O Ha Ha). unfold delta. now rewrite Nat.eqb_refl. }
  assert (Q : msum d (fun i => msum d (fun j => G i j * G i j)) = INR d).
  { transitivity (msum d (fun i => msum d (fun a => P a i * P a i))); [|exact T]. apply msum_ext. intros i _. change (n2 d (G i) = n2 d (fun a => P a i)).
    rewrite <- (back_norm d d P (fun a => P a i) O). unfold n2, G. reflexivity. }
  assert (Z : msum d (fun i => msum d (fun j => (delta i j - G i j) * (delta i j - G i j))) = 0).
  { transitivity (msum d (fun i => 1 - 2 * G i i + msum d (fun j => G i j * G i j))).
    - apply msum_ext. intros i Hi. transitivity (msum d (fun j => delta i j * delta i j) - 2 * msum d (fun j => delta i j * G i j) + msum d (fun j => G i j * G i j)).
      + rewrite <- msum_scal, <- msum_minus, <- msum_plus. apply msum_ext. intros. ring.
      + rewrite !msum_delta_l by auto. unfold delta. rewrite Nat.eqb_refl. ring.
    - rewrite msum_plus, msum_minus, msum_scal, msum_const, T, Q. ring. }
  intros i j Hi Hj. assert (N : forall i j, 0 <= (delta i j - G i j) * (delta i j - G i j)) by (intros; apply (Rle_0_sqr (delta i0 j0 - G i0 j0))).
  assert (L1 := msum_single_le d (fun j => (delta i j - G i j) * (delta i j - G i j)) j (fun j _ => N i j) Hj).
  assert (L2 := msum_single_le d (fun i => msum d (fun j => (delta i j - G i j) * (delta i j - G i j))) i (fun i _ => msum_nonneg d _ (fun j _ => N i j)) Hi).
  cbn beta in L1, L2. pose proof (N i j). fold (G i j). assert ((delta i j - G i j) * (delta i j - G i j) = 0) by lra. nra.
Qed.
Lemma square_isometry d P v : orthonormal_rows d d P -> n2 d (app d P v) = n2 d v.
Proof.
  intros O. assert (Ot : orthonormal_rows d d (fun j a => P a j)) by (intros i j Hi Hj; apply (square_columns d P O i j Hi Hj)). exact (back_norm d d (fun j a => P a j) v Ot).
Qed.

Lemma dist2_n2 d x z : dist2 d x z = n2 d (fun j => x j - z j). Proof. reflexivity. Qed.
Lemma pca_diff d m X P x z a : pca_row d m X P x a - pca_row d m X P z a = app d P (fun j => x j - z j) a.
Proof. unfold pca_row, app. rewrite <- msum_minus. apply msum_ext. intros. ring. Qed.

(** The state of a successful fit. *)
Lemma fitted pca nc ns nt d Xs Xt st : pca_contract pca d -> sa_fit pca nc ns nt d Xs Xt = Ok st ->
  orthonormal_rows (sa_k st) d (sa_Ps st) /\ orthonormal_rows (sa_k st) d (sa_Pt st) /\ (forall a c, sa_M st a c = msum d (fun j => sa_Ps st a j * sa_Pt st c j)) /\
  sa_k st = match nc with Some c => c | None => Nat.min (ns + nt) d end.
Proof.
  intros HP. unfold sa_fit, pca_fit. set (k := match nc with None => Nat.min (ns + nt) d | Some k => k end). destruct (Nat.leb_spec k (Nat.min ns d)) as [L1|L1]; cbn [bind]; [|discriminate].
  destruct (Nat.leb_spec k (Nat.min nt d)) as [L2|L2]; cbn [bind]; [|discriminate]. intros H. injection H as <-. cbn [sa_k sa_Ps sa_Pt sa_M]. split; [apply HP; lia|]. split; [apply HP; lia|]. split; [reflexivity|]. unfold k. now destruct nc.
Qed.
(** What a source row becomes: its coordinates in the source basis, lifted back and read in the target basis. *)
Lemma source_row st d ns Xs x c : (forall a c, sa_M st a c = msum d (fun j => sa_Ps st a j * sa_Pt st c j)) ->
  sa_source_row st d ns Xs x c = app d (sa_Pt st) (fun j => msum (sa_k st) (fun a => pca_row d ns Xs (sa_Ps st) x a * sa_Ps st a j)) c.
Proof.
  intros HM. unfold sa_source_row, app. transitivity (msum (sa_k st) (fun a => msum d (fun j => pca_row d ns Xs (sa_Ps st) x a * (sa_Ps st a j * sa_Pt st c j)))).
  { apply msum_ext. intros a _. rewrite HM. symmetry. apply msum_scal. }
  rewrite msum_swap. apply msum_ext. intros j _. rewrite <- msum_scal_r. apply msum_ext. intros. ring.
Qed.

(** ** Subspace alignment never moves two samples of a domain further apart, whatever the number of components. *)
Theorem C206_alignment_contracts : forall pca nc ns nt d Xs Xt st, pca_contract pca d -> sa_fit pca nc ns nt d Xs Xt = Ok st -> forall x z,
  dist2 (sa_k st) (sa_source_row st d ns Xs x) (sa_source_row st d ns Xs z) <= dist2 d x z /\
  dist2 (sa_k st) (sa_target_row st d nt Xt x) (sa_target_row st d nt Xt z) <= dist2 d x z.
Proof.
  intros pca nc ns nt d Xs Xt st HP H x z. destruct (fitted _ _ _ _ _ _ _ _ HP H) as (Os & Ot & HM & _). rewrite !dist2_n2. split.
  - assert (E : n2 (sa_k st) (fun c => sa_source_row st d ns Xs x c - sa_source_row st d ns Xs z c) =
      n2 (sa_k st) (app d (sa_Pt st) (fun j => msum (sa_k st) (fun a => app d (sa_Ps st) (fun j => x j - z j) a * sa_Ps st a j)))).
    { unfold n2. apply msum_ext. intros c _. assert (D : sa_source_row st d ns Xs x c - sa_source_row st d ns Xs z c = app d (sa_Pt st) (fun j => msum (sa_k st) (fun a => app d (sa_Ps st) (fun j => x j - z j) a * sa_Ps st a j)) c); [|now rewrite D].
      rewrite !source_row by exact HM. unfold app at 1 2 3. rewrite <- msum_minus. apply msum_ext. intros j _. rewrite <- Rmult_minus_distr_r. f_equal. rewrite <- msum_minus. apply msum_ext. intros a _. rewrite <- Rmult_minus_distr_r. now rewrite pca_diff. }
    rewrite E. apply Rle_trans with (1 := bessel _ _ _ _ Ot). rewrite (back_norm _ _ _ _ Os). now apply bessel.
  - assert (E : n2 (sa_k st) (fun c => sa_target_row st d nt Xt x c - sa_target_row st d nt Xt z c) = n2 (sa_k st) (app d (sa_Pt st) (fun j => x j - z j))).
    { unfold n2. apply msum_ext. intros c _. unfold sa_target_row. now rewrite pca_diff. }
    rewrite E. now apply bessel.
Qed.

(** With all components: every sample is replaced by its difference to the mean of its domain, in coordinates common to both. *)
Lemma full_source pca nc ns nt d Xs Xt st x c : pca_contract pca d -> sa_fit pca nc ns nt d Xs Xt = Ok st -> sa_k st = d ->
  sa_source_row st d ns Xs x c = app d (sa_Pt st) (centred ns Xs x) c.
Proof.
  intros HP H K. destruct (fitted _ _ _ _ _ _ _ _ HP H) as (Os & Ot & HM & _). rewrite source_row by exact HM. unfold app. apply msum_ext. intros j Hj. f_equal. rewrite K in *.
  transitivity (msum d (fun a => msum d (fun i => (centred ns Xs x i * sa_Ps st a i) * sa_Ps st a j))).
  { apply msum_ext. intros a _. unfold pca_row. rewrite <- msum_scal_r. apply msum_ext. intros i _. unfold centred. reflexivity. }
  rewrite msum_swap. transitivity (msum d (fun i => centred ns Xs x i * delta i j)); [|now apply msum_delta_r]. apply msum_ext. intros i Hi. rewrite <- (square_columns d _ Os i j Hi Hj).
  rewrite <- msum_scal. apply msum_ext. intros. ring.
Qed.
Theorem C206_all_components : forall pca nc ns nt d Xs Xt st, pca_contract pca d -> sa_fit pca nc ns nt d Xs Xt = Ok st -> sa_k st = d -> forall x z,
  dist2 d (sa_source_row st d ns Xs x) (sa_source_row st d ns Xs z) = dist2 d x z /\
  dist2 d (sa_target_row st d nt Xt x) (sa_target_row st d nt Xt z) = dist2 d x z /\
  dist2 d (sa_source_row st d ns Xs x) (sa_target_row st d nt Xt z) = dist2 d (centred ns Xs x) (centred nt Xt z).
Proof.
  intros pca nc ns nt d Xs Xt st HP H K x z. destruct (fitted _ _ _ _ _ _ _ _ HP H) as (Os & Ot & _ & _). rewrite K in Ot.
  assert (Tg : forall x c, sa_target_row st d nt Xt x c = app d (sa_Pt st) (centred nt Xt x) c) by reflexivity.
  assert (G : forall u v, n2 d (fun c => app d (sa_Pt st) u c - app d (sa_Pt st) v c) = n2 d (fun j => u j - v j)).
  { intros u v. rewrite <- (square_isometry d (sa_Pt st) (fun j => u j - v j) Ot). unfold n2. apply msum_ext. intros c _. assert (D : app d (sa_Pt st) u c - app d (sa_Pt st) v c = app d (sa_Pt st) (fun j => u j - v j) c); [|now rewrite D]. unfold app. rewrite <- msum_minus. apply msum_ext. intros. ring. }
  rewrite !dist2_n2. split; [|split].
  - transitivity (n2 d (fun c => app d (sa_Pt st) (centred ns Xs x) c - app d (sa_Pt st) (centred ns Xs z) c)); [unfold n2; apply msum_ext; intros; now rewrite !(full_source pca nc ns nt d Xs Xt st _ _ HP H K)|].
    rewrite G. unfold n2. apply msum_ext. intros. unfold centred. ring.
  - transitivity (n2 d (fun c => app d (sa_Pt st) (centred nt Xt x) c - app d (sa_Pt st) (centred nt Xt z) c)); [reflexivity|]. rewrite G. unfold n2. apply msum_ext. intros. unfold centred. ring.
  - transitivity (n2 d (fun c => app d (sa_Pt st) (centred ns Xs x) c - app d (sa_Pt st) (centred nt Xt z) c)); [unfold n2; apply msum_ext; intros; now rewrite (full_source pca nc ns nt d Xs Xt st _ _ HP H K)|]. apply G.
Qed.
(** That is the default: when n_components is left unset and the fit succeeds, all components are kept. *)
Theorem C206_default_is_all : forall pca ns nt d Xs Xt st, (1 <= ns)%nat -> (1 <= nt)%nat -> sa_fit pca None ns nt d Xs Xt = Ok st -> sa_k st = d.
Proof.
  intros pca ns nt d Xs Xt st Hs Ht H. destruct (proj1 (C125_default_components pca ns nt d Xs Xt Hs Ht)) as (D & _). destruct (D (ex_intro _ st H)) as (L1 & L2).
  unfold sa_fit, pca_fit in H. destruct (_ <=? Nat.min ns d)%nat; cbn [bind] in H; [|discriminate]. destruct (_ <=? Nat.min nt d)%nat; cbn [bind] in H; [|discriminate]. injection H as <-. cbn [sa_k]. lia.
Qed.

(** ** Transfer subspace learning: distances never grow, and with the default number of components none changes (given at least as many samples as
    features). *)
Theorem C206_transfer_subspace : forall lbfgs qr objective nc n d tol W, (forall loss xs, length (fst (lbfgs loss xs)) = length xs) -> qr_contract qr ->
  tsl_fit lbfgs qr objective nc n d tol = Ok W -> forall x z,
  (dist2 (match nc with None => Nat.min n d | Some k => Nat.min k d end) (tsl_row d W x) (tsl_row d W z) <= dist2 d x z) /\
  ((nc = None -> (d <= n)%nat) -> (forall k, nc = Some k -> (d <= k)%nat) -> dist2 d (tsl_row d W x) (tsl_row d W z) = dist2 d x z).
Proof.
  intros lbfgs qr objective nc n d tol W HL HQ H x z. destruct (C129_orthonormal lbfgs qr objective nc n d tol HL HQ) as (W' & E & O). rewrite H in E. injection E as <-.
  cbn zeta in O. set (k := match nc with None => Nat.min n d | Some k => Nat.min k d end) in *. set (P := fun a j => W j a).
  assert (Or : orthonormal_rows k d P) by (intros a b Ha Hb; exact (O a b Ha Hb)).
  assert (G : forall m, dist2 m (tsl_row d W x) (tsl_row d W z) = n2 m (app d P (fun j => x j - z j))).
  { intros m. rewrite dist2_n2. unfold n2. apply msum_ext. intros c _. assert (D : tsl_row d W x c - tsl_row d W z c = app d P (fun j => x j - z j) c); [|now rewrite D]. unfold tsl_row, app, P. rewrite <- msum_minus. apply msum_ext. intros. ring. }
  split; [rewrite G; now apply bessel|]. intros H1 H2. assert (K : k = d). { unfold k. destruct nc as [c|]; [specialize (H2 c eq_refl)|specialize (H1 eq_refl)]; lia. }
  rewrite G. apply square_isometry. rewrite K in Or. exact Or.
Qed.

(** Two features, a reflected target basis: source and target samples at their domain means coincide after the default alignment. *)
Definition mirror (k rows d : nat) (X : mat) : mat := fun i j => if (i =? j)%nat then (if (rows =? 3)%nat then 1 else if (i =? 0)%nat then -1 else 1) else 0.
Example C206_ex : pca_contract mirror 2 /\ exists st, sa_fit mirror None 3 4 2 (fun i j => INR (i + j)) (fun i j => INR (i * j)) = Ok st /\ sa_k st = 2%nat /\
  dist2 2 (sa_source_row st 2 3 (fun i j => INR (i + j)) (fun _ => 1)) (sa_source_row st 2 3 (fun i j => INR (i + j)) (fun _ => 4)) = 18.
Proof.
  assert (C : pca_contract mirror 2).
  { intros k rows X Hk Hd a b Ha Hb. unfold mirror. cbn [sigma]. destruct a as [|[|a]], b as [|[|b]]; try lia; cbn [Nat.eqb]; destruct (rows =? 3)%nat; ring. }
  split; [exact C|]. eexists. split; [reflexivity|]. split; [reflexivity|]. rewrite (proj1 (C206_all_components mirror None 3 4 2 _ _ _ C eq_refl eq_refl (fun _ => 1) (fun _ => 4))). unfold dist2. cbn [sigma]. ring.
Qed.
