(** Proofs about the subspace adapters. *)
From Coq Require Import List ZArith Bool Arith Lia Reals Lra Psatz Permutation.
From Verif Require Import Np RVec RVecFacts MapModel MapSpec RMat SubModel SubSpec.
Import ListNotations.
Local Open Scope R_scope.

Lemma sigma_msum k f : sigma k f = msum k f.
Proof. reflexivity. Qed.
Lemma msum_opp k f : msum k (fun i => - f i) = - msum k f.
Proof. induction k; simpl; [ring|]. rewrite IHk. ring. Qed.
Lemma msum_minus k f g : msum k (fun i => f i - g i) = msum k f - msum k g.
Proof. induction k; simpl; [ring|]. rewrite IHk. ring. Qed.
Lemma msum_delta_l k f i : (i < k)%nat -> msum k (fun j => delta i j * f j) = f i.
Proof.
  intros H. rewrite <- (msum_delta k f i H). apply msum_ext. intros j _. unfold delta. rewrite Nat.eqb_sym. ring.
Qed.
Lemma msum_delta_r k f i : (i < k)%nat -> msum k (fun j => f j * delta j i) = f i.
Proof. intros H. exact (msum_delta k f i H). Qed.
Lemma delta_sym i j : delta i j = delta j i.
Proof. unfold delta. now rewrite Nat.eqb_sym. Qed.
Lemma msum_mul k l f g : msum k f * msum l g = msum k (fun i => msum l (fun j => f i * g j)).
Proof. rewrite <- msum_scal_r. apply msum_ext. intros. now rewrite <- msum_scal. Qed.
Lemma msum_le k f g : (forall i, (i < k)%nat -> f i <= g i) -> msum k f <= msum k g.
Proof.
  intros H. assert (0 <= msum k (fun i => g i - f i)) by (apply msum_nonneg; intros i Hi; specialize (H i Hi); lra).
  rewrite msum_minus in H0. lra.
Qed.
Lemma msum_split k l f : msum (k + l) f = msum k f + msum l (fun i => f (k + i)%nat).
Proof.
  induction l; [rewrite Nat.add_0_r; simpl; ring|]. rewrite Nat.add_succ_r. simpl. rewrite IHl. ring.
Qed.
Lemma msum_single_le k f i : (forall j, (j < k)%nat -> 0 <= f j) -> (i < k)%nat -> f i <= msum k f.
Proof.
  intros H Hi. induction k; [lia|]. simpl. destruct (Nat.eq_dec i k) as [->|N].
  - assert (0 <= msum k f) by (apply msum_nonneg; intros; apply H; lia). lra.
  - assert (f i <= msum k f) by (apply IHk; [intros; apply H; lia|lia]). assert (0 <= f k) by (apply H; lia). lra.
Qed.

(** * Subspace alignment *)
(** Least squares in an orthonormal basis, one column. *)
Lemma column_opt d k (P : mat) (t m : nat -> R) : orthonormal_rows k d P ->
  sigma d (fun i => (sigma k (fun a => P a i * m a) - t i) * (sigma k (fun a => P a i * m a) - t i)) =
  sigma d (fun i => t i * t i) - sigma k (fun a => sigma d (fun i => P a i * t i) * sigma d (fun i => P a i * t i))
  + sigma k (fun a => (m a - sigma d (fun i => P a i * t i)) * (m a - sigma d (fun i => P a i * t i))).
Proof.
  intros O. repeat change sigma with msum in *. set (p := fun a => msum d (fun i => P a i * t i)).
  set (s := fun i => msum k (fun a => P a i * m a)).
  assert (E1 : msum d (fun i => s i * s i) = msum k (fun a => m a * m a)).
  { unfold s. rewrite (msum_ext d _ (fun i => msum k (fun a => msum k (fun b => m a * m b * (P a i * P b i))))).
    2:{ intros i _. rewrite msum_mul. apply msum_ext. intros a _. apply msum_ext. intros b _. ring. }
    rewrite msum_swap. apply msum_ext. intros a Ha. rewrite msum_swap.
    rewrite (msum_ext k _ (fun b => (m a * m b) * delta b a)).
    - rewrite msum_delta_r by lia. ring.
    - intros b Hb. rewrite msum_scal. f_equal. specialize (O a b Ha Hb). change sigma with msum in O. rewrite O.
      unfold delta. now rewrite Nat.eqb_sym. }
  assert (E2 : msum d (fun i => s i * t i) = msum k (fun a => m a * p a)).
  { unfold s. rewrite (msum_ext d _ (fun i => msum k (fun a => m a * (P a i * t i)))).
    2:{ intros i _. rewrite <- msum_scal_r. apply msum_ext. intros; ring. }
    rewrite msum_swap. apply msum_ext. intros a _. now rewrite msum_scal. }
  rewrite (msum_ext d _ (fun i => s i * s i - 2 * (s i * t i) + t i * t i)) by (intros; unfold s; ring).
  rewrite msum_plus, msum_minus, msum_scal, E1, E2.
  change (msum k (fun a => (m a - msum d (fun i => P a i * t i)) * (m a - msum d (fun i => P a i * t i)))) with
    (msum k (fun a => (m a - p a) * (m a - p a))).
  change (msum k (fun a => msum d (fun i => P a i * t i) * msum d (fun i => P a i * t i))) with (msum k (fun a => p a * p a)).
  rewrite (msum_ext k (fun a => (m a - p a) * (m a - p a)) (fun a => m a * m a - 2 * (m a * p a) + p a * p a)) by (intros; ring).
  rewrite msum_plus, msum_minus, msum_scal. ring.
Qed.

Lemma frob_cols d k A B : frob_dist d k A B = msum k (fun j => msum d (fun i => (A i j - B i j) * (A i j - B i j))).
Proof. unfold frob_dist. repeat change sigma with msum. apply msum_swap. Qed.

Lemma alignment_opt d k (Ps Pt M : mat) : orthonormal_rows k d Ps ->
  frob_dist d k (mmul k (mT Ps) (mmul d Ps (mT Pt))) (mT Pt) <= frob_dist d k (mmul k (mT Ps) M) (mT Pt).
Proof.
  intros O. rewrite !frob_cols. apply msum_le. intros j Hj.
  pose proof (column_opt d k Ps (fun i => Pt j i) (fun a => M a j) O) as H1.
  pose proof (column_opt d k Ps (fun i => Pt j i) (fun a => mmul d Ps (mT Pt) a j) O) as H2.
  repeat change sigma with msum in H1. repeat change sigma with msum in H2.
  eapply Rle_trans; [apply Req_le; exact H2|]. eapply Rle_trans; [|apply Req_le; symmetry; exact H1].
  apply Rplus_le_compat_l.
  rewrite (msum_ext k (fun a => (mmul d Ps (mT Pt) a j - _) * _) (fun _ => 0)).
  - rewrite msum_zero. apply msum_nonneg. intros. apply Rle_0_sqr.
  - intros a _. unfold mmul, mT. ring.
Qed.

(** * Transfer component analysis *)
Definition qf (n : nat) (M : mat) (u : nat -> R) : R := msum n (fun i => msum n (fun j => u i * M i j * u j)).
Definition lvec (ns nt i : nat) : R := if (i <? ns)%nat then / INR ns else - / INR nt.

Lemma tca_L_outer ns nt i j : tca_L ns nt i j = lvec ns nt i * lvec ns nt j.
Proof.
  unfold tca_L, lvec. destruct (i <? ns)%nat, (j <? ns)%nat; unfold Rdiv; rewrite Rinv_mult; ring.
Qed.
Lemma tca_A_outer ns nt mu K i j : tca_A ns nt mu K i j =
  delta i j + mu * msum (ns + nt) (fun a => K i a * lvec ns nt a) * msum (ns + nt) (fun b => lvec ns nt b * K b j).
Proof.
  unfold tca_A, mmul. f_equal. set (n := (ns + nt)%nat).
  rewrite (msum_ext n _ (fun b => mu * msum n (fun a => K i a * lvec ns nt a) * (lvec ns nt b * K b j))).
  - rewrite msum_scal. ring.
  - intros b _. rewrite <- Rmult_assoc. f_equal.
    rewrite (msum_ext n _ (fun a => mu * (K i a * lvec ns nt a) * lvec ns nt b)).
    + rewrite msum_scal_r, msum_scal. ring.
    + intros a _. rewrite tca_L_outer. ring.
Qed.
Lemma gap_lvec ns nt K v : domain_gap ns nt K v = msum (ns + nt) (fun i => lvec ns nt i * score_of (ns + nt) K v i).
Proof.
  unfold domain_gap, average. repeat change sigma with msum. rewrite msum_split. unfold Rdiv, Rminus.
  f_equal.
  - rewrite Rmult_comm, <- msum_scal. apply msum_ext. intros i Hi. unfold lvec.
    destruct (Nat.ltb_spec i ns); [ring|lia].
  - rewrite Ropp_mult_distr_r, Rmult_comm, <- msum_scal. apply msum_ext. intros i Hi. unfold lvec.
    destruct (Nat.ltb_spec (ns + i) ns); [lia|ring].
Qed.
Lemma gap_lin ns nt K v : domain_gap ns nt K v =
  msum (ns + nt) (fun j => msum (ns + nt) (fun b => lvec ns nt b * K b j) * v j).
Proof.
  rewrite gap_lvec. unfold score_of. repeat change sigma with msum. set (n := (ns + nt)%nat).
  rewrite (msum_ext n _ (fun i => msum n (fun j => lvec ns nt i * K i j * v j))).
  - rewrite msum_swap. apply msum_ext. intros j _. now rewrite <- msum_scal_r.
  - intros i _. rewrite <- msum_scal. apply msum_ext. intros; ring.
Qed.

Definition symm (n : nat) (K : mat) : Prop := forall i j, (i < n)%nat -> (j < n)%nat -> K i j = K j i.

Lemma Kl_lK ns nt K i : symm (ns + nt) K -> (i < ns + nt)%nat ->
  msum (ns + nt) (fun a => K i a * lvec ns nt a) = msum (ns + nt) (fun b => lvec ns nt b * K b i).
Proof. intros S Hi. apply msum_ext. intros a Ha. rewrite (S i a) by lia. ring. Qed.

Lemma qf_A ns nt mu K v : symm (ns + nt) K ->
  msum (ns + nt) (fun i => v i * msum (ns + nt) (fun j => tca_A ns nt mu K i j * v j)) = tca_cost ns nt mu K v.
Proof.
  intros S. unfold tca_cost, norm2. repeat change sigma with msum. set (n := (ns + nt)%nat) in *.
  set (g := domain_gap ns nt K v).
  assert (E : forall i, (i < n)%nat -> msum n (fun j => tca_A ns nt mu K i j * v j) =
              v i + mu * msum n (fun b => lvec ns nt b * K b i) * g).
  { intros i Hi. rewrite (msum_ext n _ (fun j => delta i j * v j +
        mu * msum n (fun b => lvec ns nt b * K b i) * (msum n (fun b => lvec ns nt b * K b j) * v j))).
    - rewrite msum_plus, msum_delta_l by exact Hi. rewrite msum_scal. unfold g. rewrite gap_lin. reflexivity.
    - intros j Hj. rewrite tca_A_outer. rewrite (Kl_lK ns nt K i S Hi). fold n. ring. }
  rewrite (msum_ext n _ (fun i => v i * v i + mu * g * (msum n (fun b => lvec ns nt b * K b i) * v i))).
  - rewrite msum_plus, msum_scal. replace (msum n (fun i => msum n (fun b => lvec ns nt b * K b i) * v i)) with g; [ring|].
    unfold g. now rewrite gap_lin.
  - intros i Hi. rewrite E by exact Hi. ring.
Qed.

Lemma norm2_zero n v : norm2 n v = 0 -> forall j, (j < n)%nat -> v j = 0.
Proof.
  unfold norm2. change sigma with msum. intros H j Hj.
  assert (v j * v j <= 0). { rewrite <- H. apply (msum_single_le n (fun i => v i * v i)); auto. intros. apply Rle_0_sqr. }
  pose proof (Rle_0_sqr (v j)) as Q. unfold Rsqr in Q. assert (v j * v j = 0) by lra.
  apply Rmult_integral in H1. tauto.
Qed.
Lemma norm2_nonneg n v : 0 <= norm2 n v.
Proof. apply msum_nonneg. intros. apply Rle_0_sqr. Qed.

Lemma tca_A_nonsingular ns nt mu K : symm (ns + nt) K -> 0 <= mu -> nonsingular (ns + nt) (tca_A ns nt mu K).
Proof.
  intros S M v H. assert (C : tca_cost ns nt mu K v = 0).
  { rewrite <- (qf_A ns nt mu K v S). rewrite (msum_ext _ _ (fun _ => 0)); [apply msum_zero|].
    intros i Hi. specialize (H i Hi). change sigma with msum in H. rewrite H. ring. }
  apply norm2_zero. unfold tca_cost in C. pose proof (norm2_nonneg (ns + nt) v).
  pose proof (Rle_0_sqr (domain_gap ns nt K v)) as Q. unfold Rsqr in Q.
  assert (0 <= mu * (domain_gap ns nt K v * domain_gap ns nt K v)) by (apply Rmult_le_pos; auto). lra.
Qed.

Lemma scatter_qf n K u : (0 < n)%nat -> symm n K -> scatter n K u = qf n (tca_B n K) u.
Proof.
  intros N S. set (z := score_of n K u).
  assert (E : qf n (tca_B n K) u = msum n (fun a => z a * z a) - / INR n * (msum n z * msum n z)).
  { unfold qf, tca_B.
    rewrite (msum_ext n _ (fun i => msum n (fun a => u i * K i a * (z a - / INR n * msum n z)))).
    - rewrite msum_swap. rewrite (msum_ext n _ (fun a => z a * z a - / INR n * msum n z * z a)).
      + rewrite msum_minus, msum_scal. ring.
      + intros a Ha. rewrite msum_scal_r. replace (msum n (fun i => u i * K i a)) with (z a); [ring|].
        unfold z, score_of. change sigma with msum. apply msum_ext. intros i Hi. rewrite (S a i Ha Hi). ring.
    - intros i Hi. unfold mmul.
      rewrite (msum_ext n _ (fun j => msum n (fun b => msum n (fun a => u i * K i a * tca_H n a b * (K b j * u j))))).
      2:{ intros j Hj. rewrite <- msum_scal, <- msum_scal_r. apply msum_ext. intros b Hb.
          rewrite <- !Rmult_assoc. rewrite <- msum_scal, <- !msum_scal_r. apply msum_ext. intros; ring. }
      rewrite msum_swap. rewrite (msum_ext n _ (fun b => msum n (fun a => u i * K i a * tca_H n a b * z b))).
      2:{ intros b Hb. rewrite msum_swap. apply msum_ext. intros a Ha. rewrite msum_scal. reflexivity. }
      rewrite msum_swap. apply msum_ext. intros a Ha.
      rewrite (msum_ext n _ (fun b => u i * K i a * (delta a b * z b - / INR n * z b))).
      + rewrite msum_scal, msum_minus, msum_delta_l by exact Ha. rewrite msum_scal. reflexivity.
      + intros b Hb. unfold tca_H, Rdiv. ring. }
  rewrite E. unfold scatter. fold z. unfold average. repeat change sigma with msum.
  assert (INR n <> 0) by (apply not_0_INR; lia).
  set (m := msum n z / INR n).
  rewrite (msum_ext n _ (fun i => z i * z i - 2 * m * z i + m * m)) by (intros; ring).
  rewrite msum_plus, msum_minus, msum_scal, msum_const. unfold m. field. assumption.
Qed.

Lemma scatter_nonneg n K u : 0 <= scatter n K u.
Proof. unfold scatter. apply msum_nonneg. intros. apply Rle_0_sqr. Qed.

Definition coef (n : nat) (V : mat) (u : nat -> R) (k : nat) : R := msum n (fun i => u i * V i k).

Lemma qf_diag n C wV u : diagonalises n C wV ->
  qf n C u = msum n (fun k => fst wV k * (coef n (snd wV) u k * coef n (snd wV) u k)).
Proof.
  destruct wV as [w V]. intros D. cbn [fst snd]. unfold qf.
  rewrite (msum_ext n _ (fun i => msum n (fun j => msum n (fun k => w k * ((u i * V i k) * (u j * V j k)))))).
  2:{ intros i Hi. apply msum_ext. intros j Hj. destruct (D i j Hi Hj) as [E _]. rewrite E. change sigma with msum.
      rewrite <- msum_scal, <- msum_scal_r. apply msum_ext. intros; ring. }
  rewrite (msum_ext n _ (fun i => msum n (fun k => w k * ((u i * V i k) * coef n V u k)))).
  2:{ intros i Hi. rewrite msum_swap. apply msum_ext. intros k _. rewrite msum_scal, msum_scal. reflexivity. }
  rewrite msum_swap. apply msum_ext. intros k _. rewrite msum_scal. f_equal. rewrite msum_scal_r. reflexivity.
Qed.
Lemma parseval n C wV u : diagonalises n C wV -> norm2 n u = msum n (fun k => coef n (snd wV) u k * coef n (snd wV) u k).
Proof.
  destruct wV as [w V]. intros D. cbn [snd]. unfold norm2. change sigma with msum. unfold coef. symmetry.
  rewrite (msum_ext n _ (fun k => msum n (fun i => msum n (fun j => u i * u j * (V i k * V j k))))).
  2:{ intros k _. rewrite msum_mul. apply msum_ext. intros i _. apply msum_ext. intros; ring. }
  rewrite msum_swap. apply msum_ext. intros i Hi. rewrite msum_swap.
  rewrite (msum_ext n _ (fun j => (u i * u j) * delta j i)).
  - now rewrite msum_delta_r.
  - intros j Hj. rewrite msum_scal. f_equal. destruct (D i j Hi Hj) as (_ & _ & E). change sigma with msum in E.
    rewrite E. unfold delta. now rewrite Nat.eqb_sym.
Qed.
Lemma coef_column n C w V k l : diagonalises n C (w, V) -> (k < n)%nat -> (l < n)%nat -> coef n V (fun i => V i k) l = delta k l.
Proof. intros D Hk Hl. destruct (D k l Hk Hl) as (_ & E & _). exact E. Qed.
Lemma eigvec n C w V k i : diagonalises n C (w, V) -> (k < n)%nat -> (i < n)%nat ->
  msum n (fun j => C i j * V j k) = w k * V i k.
Proof.
  intros D Hk Hi. rewrite (msum_ext n _ (fun j => msum n (fun l => V i l * w l * (V j l * V j k)))).
  2:{ intros j Hj. destruct (D i j Hi Hj) as [E _]. rewrite E. change sigma with msum. rewrite <- msum_scal_r. apply msum_ext. intros; ring. }
  rewrite msum_swap. rewrite (msum_ext n _ (fun l => (V i l * w l) * delta l k)).
  - rewrite msum_delta_r by exact Hk. ring.
  - intros l Hl. rewrite msum_scal. f_equal. destruct (D l k Hl Hk) as (_ & E & _). exact E.
Qed.

(** Selecting the k largest. *)
Lemma sel_spec argsort n (f : nat -> R) k m c : argsort_contract argsort ->
  (m < k)%nat -> (m < n)%nat -> (c < n)%nat ->
  let sel := firstn k (rev (argsort n f)) in
  (nth m sel 0 < n)%nat /\ ((exists l, (l < m)%nat /\ nth l sel 0%nat = c) \/ f c <= f (nth m sel 0%nat)).
Proof.
  intros H Hm Hn Hc sel. destruct (H n f) as [P So]. set (a := argsort n f) in *.
  assert (La : length a = n) by (rewrite (Permutation_length P); apply seq_length).
  assert (N : forall q, (q < k)%nat -> nth q sel 0%nat = nth q (rev a) 0%nat).
  { intros q Hq. unfold sel. clear -Hq. revert k Hq. generalize (rev a). intros l. revert q.
    induction l as [|x l IH]; intros q k Hq; destruct k; try lia; [reflexivity|]. destruct q; simpl; auto. apply IH. lia. }
  assert (In c a). { apply (Permutation_in c (Permutation_sym P)). apply in_seq. lia. }
  apply In_nth with (d := 0%nat) in H0. destruct H0 as (p & Hp & Ep). rewrite La in Hp.
  assert (R : forall q, (q < n)%nat -> nth q (rev a) 0%nat = nth (n - S q) a 0%nat)
    by (intros q Hq; rewrite rev_nth by lia; rewrite La; reflexivity).
  split.
  - rewrite N, R by assumption. assert (In (nth (n - S m) a 0%nat) a) by (apply nth_In; lia).
    apply (Permutation_in _ P) in H0. apply in_seq in H0. lia.
  - destruct (Nat.lt_ge_cases (n - 1 - p) m) as [L|L].
    + left. exists (n - 1 - p)%nat. split; auto. rewrite N by lia. rewrite R by lia.
      replace (n - S (n - 1 - p))%nat with p by lia. exact Ep.
    + right. rewrite N, R by assumption. rewrite <- Ep. apply So; lia.
Qed.

Lemma tca_fit_eq solve eigh argsort nc mu ns nt d K w V : eigh (ns + nt)%nat (solve (ns + nt)%nat (tca_A ns nt mu K) (tca_B (ns + nt) K)) = (w, V) ->
  tca_fit solve eigh argsort nc mu ns nt d K = map (fun a i => V i a)
   (firstn (match nc with None => Nat.min (ns + nt) d | Some k => k end) (rev (argsort (ns + nt)%nat (fun a => Rabs (w a))))).
Proof. intros E. unfold tca_fit. rewrite E. reflexivity. Qed.

Lemma tca_B_sym n K : symm n K -> symm n (tca_B n K).
Proof.
  intros S i j Hi Hj. unfold tca_B. rewrite mmul_assoc. unfold mmul. apply msum_ext. intros a Ha.
  rewrite (S i a) by auto. rewrite Rmult_comm. f_equal. apply msum_ext. intros b Hb. rewrite (S b j), (Rmult_comm (K j b)) by auto.
  f_equal. unfold tca_H. now rewrite delta_sym.
Qed.

Lemma diag_ext n C C' wV : (forall i j, (i < n)%nat -> (j < n)%nat -> C i j = C' i j) -> diagonalises n C wV -> diagonalises n C' wV.
Proof. destruct wV as [w V]. intros E D i j Hi Hj. rewrite <- E by auto. now apply D. Qed.

Lemma tca_pca_case solve eigh argsort nc mu ns nt d K :
  linear_solver solve -> eigh_contract eigh -> argsort_contract argsort ->
  (0 < ns)%nat -> (0 < nt)%nat -> 0 <= mu -> symm (ns + nt) K ->
  (mu = 0 \/ forall v, domain_gap ns nt K v = 0) ->
  let comps := tca_fit solve eigh argsort nc mu ns nt d K in
  length comps = Nat.min (match nc with None => Nat.min (ns + nt) d | Some k => k end) (ns + nt) /\
  forall m, (m < length comps)%nat ->
   let v := nth m comps (fun _ => 0) in
   norm2 (ns + nt) v = 1 /\
   forall u, (forall l, (l < m)%nat -> sigma (ns + nt) (fun i => u i * nth l comps (fun _ => 0) i) = 0) ->
    scatter (ns + nt) K u * norm2 (ns + nt) v <= scatter (ns + nt) K v * norm2 (ns + nt) u.
Proof.
  intros HS HE HA Ns Nt Mu Sy Z comps. subst comps.
  destruct (eigh (ns + nt)%nat (solve (ns + nt)%nat (tca_A ns nt mu K) (tca_B (ns + nt) K))) as [w V] eqn:E.
  rewrite (tca_fit_eq _ _ _ nc mu ns nt d K w V E).
  set (k := match nc with None => Nat.min (ns + nt) d | Some k => k end). set (n := (ns + nt)%nat) in *.
  set (sel := firstn k (rev (argsort n (fun a => Rabs (w a))))).
  assert (Ls : length sel = Nat.min k n).
  { unfold sel. rewrite firstn_length, rev_length. destruct (HA n (fun a => Rabs (w a))) as [P _].
    rewrite (Permutation_length P), seq_length. reflexivity. }
  split; [now rewrite map_length|]. rewrite map_length, Ls. intros m Hm.
  assert (Nth : forall l, (l < Nat.min k n)%nat -> nth l (map (fun a i => V i a) sel) (fun _ => 0) = fun i => V i (nth l sel 0%nat)).
  { intros l Hl. rewrite (nth_indep _ _ ((fun a i => V i a) 0%nat)) by (rewrite map_length; lia). exact (map_nth (fun a i => V i a) sel 0%nat l). }
  rewrite Nth by exact Hm. set (c := nth m sel 0%nat).
  assert (Hc : (c < n)%nat) by (apply (sel_spec argsort n (fun a => Rabs (w a)) k m 0 HA); lia).
  assert (D : diagonalises n (tca_B n K) (w, V)).
  { pose proof (HE n (solve n (tca_A ns nt mu K) (tca_B n K))) as D. rewrite E in D. revert D. apply diag_ext.
    assert (X : forall i j, (i < n)%nat -> (j < n)%nat -> solve n (tca_A ns nt mu K) (tca_B n K) i j = tca_B n K i j).
    { intros i j Hi Hj. rewrite <- (HS n (tca_A ns nt mu K) (tca_B n K) (tca_A_nonsingular ns nt mu K Sy Mu) i j Hi Hj).
      change sigma with msum. rewrite (msum_ext n _ (fun l => delta i l * solve n (tca_A ns nt mu K) (tca_B n K) l j)).
      - now rewrite (msum_delta_l n (fun l => solve n (tca_A ns nt mu K) (tca_B n K) l j)).
      - intros l Hl. f_equal. rewrite tca_A_outer. destruct Z as [-> | Z]; [ring|].
        replace (msum (ns + nt) (fun b => lvec ns nt b * K b l)) with 0; [ring|].
        rewrite <- (Z (fun j => delta j l)), gap_lin. fold n. rewrite msum_delta_r by exact Hl. reflexivity. }
    intros i j Hi Hj. unfold lower. destruct (Nat.leb_spec j i); rewrite X by auto; auto. now apply tca_B_sym. }
  assert (Nv : norm2 n (fun i => V i c) = 1).
  { rewrite (parseval n _ _ (fun i => V i c) D). cbn [snd].
    rewrite (msum_ext n _ (fun l => delta c l * delta c l)).
    - rewrite (msum_delta_l n (fun l => delta c l)) by exact Hc. unfold delta. now rewrite Nat.eqb_refl.
    - intros l Hl. now rewrite (coef_column n (tca_B n K) w V c l D Hc Hl). }
  split; [exact Nv|]. intros u Hu. rewrite Nv, Rmult_1_r.
  assert (Sv : scatter n K (fun i => V i c) = w c).
  { rewrite scatter_qf by (auto; unfold n; lia). rewrite (qf_diag n _ _ _ D). cbn [fst snd].
    rewrite (msum_ext n _ (fun l => delta c l * (w l * delta c l))).
    - rewrite (msum_delta_l n (fun l => w l * delta c l)) by exact Hc. unfold delta. rewrite Nat.eqb_refl. ring.
    - intros l Hl. rewrite (coef_column n (tca_B n K) w V c l D Hc Hl). ring. }
  assert (Wc : 0 <= w c) by (rewrite <- Sv; apply scatter_nonneg).
  rewrite Sv, scatter_qf by (auto; unfold n; lia). rewrite (qf_diag n _ _ u D), (parseval n _ _ u D). cbn [fst snd].
  rewrite <- msum_scal. apply msum_le. intros l Hl.
  pose proof (Rle_0_sqr (coef n V u l)) as Q. unfold Rsqr in Q.
  destruct (sel_spec argsort n (fun a => Rabs (w a)) k m l HA) as [_ [(p & Hp & Ep)|Hle]]; try lia.
  - fold sel in Ep. specialize (Hu p Hp). rewrite Nth in Hu by lia. rewrite Ep in Hu. change (coef n V u l = 0) in Hu. rewrite Hu. lra.
  - fold sel in Hle. fold c in Hle. apply Rmult_le_compat_r; auto. rewrite (Rabs_pos_eq (w c)) in Hle by exact Wc.
    pose proof (Rle_abs (w l)). lra.
Qed.
