(** The contracts by which the theorems describe numerical routines (linear solvers, inverses, Cholesky and QR factors, eigensolvers, sorting, principal
    components) can be met, so that no theorem that assumes them speaks about nothing. *)
From Coq Require Import List ZArith Bool Arith Lia Reals Lra Psatz Setoid Morphisms Permutation Sorted FunctionalExtensionality.
From Verif Require Import MapModel MapSpec RMat MapProofs2 MongeProofs TurnProofs ThmSpectral SubSpec ThmRot.
Import ListNotations.
Local Open Scope R_scope.

(** ** Orthonormal columns of a square matrix are orthonormal rows *)
Lemma msum_zero_all k (f : nat -> R) : (forall i, (i < k)%nat -> 0 <= f i) -> msum k f = 0 -> forall i, (i < k)%nat -> f i = 0.
Proof.
  induction k as [|k IH]; intros H E i Hi; [lia|]. cbn [msum] in E. assert (0 <= msum k f) by (apply msum_nonneg; auto).
  assert (0 <= f k) by auto. destruct (Nat.eq_dec i k) as [->|N]; [lra|]. apply IH; auto; [lra|lia].
Qed.
Lemma delta_sq i j : delta i j * delta i j = delta i j.
Proof. unfold delta. destruct (i =? j)%nat; ring. Qed.
Lemma trace_delta n : msum n (fun i => delta i i) = INR n.
Proof. rewrite (msum_ext n _ (fun _ => 1)) by (intros; unfold delta; now rewrite Nat.eqb_refl). rewrite msum_const. ring. Qed.
Lemma left_right n U : meq n n (mmul n (mT U) U) delta -> meq n n (mmul n U (mT U)) delta.
Proof.
  intros H. set (P := mmul n U (mT U)).
  assert (SP : forall i j, P i j = P j i) by (intros i j; unfold P; rewrite mmul_T; unfold mmul, mT; apply msum_ext; intros; reflexivity).
  assert (PP : meq n n (mmul n P P) P).
  { unfold P. rewrite (assoc n n n U (mT U)), <- (assoc n n n (mT U) U (mT U)), H, one_l. reflexivity. }
  assert (TP : msum n (fun i => P i i) = INR n).
  { rewrite <- (trace_delta n). rewrite (msum_ext n (fun i => delta i i) (fun i => mmul n (mT U) U i i)) by (intros; symmetry; apply H; auto).
    unfold P, mmul, mT. rewrite msum_swap. apply msum_ext. intros; apply msum_ext; intros; ring. }
  assert (Z : msum n (fun i => msum n (fun j => Rsqr (P i j - delta i j))) = 0).
  { rewrite (msum_ext n _ (fun i => P i i + (-2) * P i i + delta i i)).
    - rewrite !msum_plus, (msum_scal n (-2) (fun i => P i i)), TP, trace_delta. ring.
    - intros i Hi. rewrite (msum_ext n _ (fun j => P i j * P j i + ((-2) * P i j * (if (j =? i)%nat then 1 else 0) + (if (j =? i)%nat then 1 else 0)))).
      + rewrite !msum_plus. rewrite (msum_delta n (fun j => -2 * P i j) i Hi).
        assert (E1 : msum n (fun j => if (j =? i)%nat then 1 else 0) = 1).
        { rewrite (msum_ext n _ (fun j => (fun _ => 1) j * (if (j =? i)%nat then 1 else 0))) by (intros; cbn; ring). now rewrite (msum_delta n (fun _ => 1) i Hi). }
        rewrite E1. change (msum n (fun j => P i j * P j i)) with (mmul n P P i i). rewrite (PP i i Hi Hi). unfold delta. rewrite Nat.eqb_refl. ring.
      + intros j _. unfold Rsqr, delta. rewrite (SP j i), (Nat.eqb_sym j i). destruct (i =? j)%nat; ring. }
  intros i j Hi Hj. assert (Q : forall i, (i < n)%nat -> msum n (fun j => Rsqr (P i j - delta i j)) = 0).
  { apply msum_zero_all; auto. intros; apply msum_nonneg; intros; apply Rle_0_sqr. }
  pose proof (msum_zero_all n (fun j => Rsqr (P i j - delta i j)) ltac:(intros; apply Rle_0_sqr) (Q i Hi) j Hj) as E. apply Rsqr_0_uniq in E. lra.
Qed.

(** ** Inverses *)
Definition clip (n : nat) (A : mat) : mat := fun i j => if ((i <? n) && (j <? n))%nat then A i j else 0.
Lemma clip_in n A i j : (i < n)%nat -> (j < n)%nat -> clip n A i j = A i j.
Proof. intros Hi Hj. unfold clip. now rewrite (proj2 (Nat.ltb_lt i n) Hi), (proj2 (Nat.ltb_lt j n) Hj). Qed.
Lemma gram_sym n A i j : mmul n (mT A) A i j = mmul n (mT A) A j i.
Proof. unfold mmul, mT. apply msum_ext. intros; ring. Qed.
Definition some_inv (n : nat) (A0 : mat) : mat :=
  let A := clip n A0 in let wV := proj1_sig (spectral n (mmul n (mT A) A) (gram_sym n A)) in
  mmul n (mmul n (mmul n (snd wV) (dg (fun k => / fst wV k))) (mT (snd wV))) (mT A).
Lemma some_inv_ok : inverse_contract some_inv.
Proof.
  intros n A0 NS. change sigma with msum in *. change (forall i j, (i < n)%nat -> (j < n)%nat -> mmul n A0 (some_inv n A0) i j = delta i j).
  unfold some_inv. set (A := clip n A0). assert (EA : meq n n A0 A) by (intros i j Hi Hj; symmetry; now apply clip_in).
  destruct (spectral n (mmul n (mT A) A) (gram_sym n A)) as [[w V] [[V1 V2] E]]. cbn [proj1_sig fst snd] in *.
  assert (W : forall k, (k < n)%nat -> w k = msum n (fun i => Rsqr (mmul n A V i k))).
  { intros k Hk. transitivity (mmul n (mT V) (mmul n (mmul n (mT A) A) V) k k).
    - assert (Q : meq n n (mmul n (mT V) (mmul n (mmul n (mT A) A) V)) (dg w)).
      { rewrite E, (assoc n n n (mmul n V (dg w)) (mT V) V), V1, one_r, <- (assoc n n n (mT V) V), V1, one_l. reflexivity. }
      rewrite (Q k k Hk Hk). unfold dg. now rewrite Nat.eqb_refl.
    - assert (Q : meq n n (mmul n (mT V) (mmul n (mmul n (mT A) A) V)) (mmul n (mT (mmul n A V)) (mmul n A V))).
      { rewrite (assoc n n n (mT A) A V), <- (assoc n n n (mT V) (mT A)). apply mmul_proper; [|reflexivity]. intros i j _ _. unfold mT at 3. now rewrite mmul_T. }
      rewrite (Q k k Hk Hk). unfold mmul at 1, mT, Rsqr. reflexivity. }
  assert (P : forall k, (k < n)%nat -> 0 < w k).
  { intros k Hk. assert (0 <= w k) by (rewrite (W k Hk); apply msum_nonneg; intros; apply Rle_0_sqr).
    destruct (Req_dec (w k) 0) as [Z|Z]; [|lra]. exfalso. rewrite (W k Hk) in Z.
    assert (VZ : forall j, (j < n)%nat -> V j k = 0).
    { apply (NS (fun j => V j k)). intros i Hi. pose proof (msum_zero_all n _ ltac:(intros; apply Rle_0_sqr) Z i Hi) as E0. cbn in E0. apply Rsqr_0_uniq in E0.
      rewrite <- E0. unfold mmul. apply msum_ext. intros l Hl. now rewrite (EA i l Hi Hl). }
    pose proof (V1 k k Hk Hk) as N1. unfold mmul, mT in N1. rewrite (msum_ext n _ (fun _ => 0)), msum_zero in N1 by (intros; rewrite VZ by auto; ring).
    unfold delta in N1. rewrite Nat.eqb_refl in N1. lra. }
  set (r := dg (fun k => / sqrt (w k))). set (U := mmul n (mmul n A V) r).
  assert (SR : mT r = r).
  { apply functional_extensionality. intros i. apply functional_extensionality. intros j. unfold mT, r, dg. rewrite Nat.eqb_sym. destruct (Nat.eqb_spec i j) as [->|]; reflexivity. }
  assert (TT : forall A B, meq n n (mT (mmul n A B)) (mmul n (mT B) (mT A))) by (intros X Y i j _ _; unfold mT at 1; apply mmul_T).
  assert (DD : forall a b, meq n n (mmul n (dg a) (dg b)) (dg (fun k => a k * b k))).
  { intros a b i j Hi Hj. rewrite mul_dg by auto. unfold dg. destruct (Nat.eqb_spec i j) as [->|]; ring. }
  assert (UU : meq n n (mmul n (mT U) U) delta).
  { unfold U. rewrite TT, TT, SR. rewrite (assoc n n n r (mmul n (mT V) (mT A))), (assoc n n n (mT V) (mT A)), <- (assoc n n n (mT A) (mmul n A V) r).
    rewrite <- (assoc n n n (mT A) A V), E. rewrite (assoc n n n (mmul n V (dg w)) (mT V) V), V1, one_r. rewrite <- (assoc n n n (mT V) (mmul n V (dg w)) r), <- (assoc n n n (mT V) V (dg w)), V1, one_l.
    unfold r. rewrite DD, DD. intros i j Hi Hj. unfold dg, delta. destruct (i =? j)%nat; [|reflexivity]. specialize (P i Hi).
    rewrite <- (sqrt_sqrt (w i)) at 2 by lra. assert (0 < sqrt (w i)) by now apply sqrt_lt_R0. field. lra. }
  pose proof (left_right n U UU) as R1. intros i j Hi Hj. transitivity (mmul n U (mT U) i j); [|now apply R1]. revert i j Hi Hj.
  change (meq n n (mmul n A0 (mmul n (mmul n (mmul n V (dg (fun k => / w k))) (mT V)) (mT A))) (mmul n U (mT U))).
  assert (RR : meq n n (dg (fun k => / w k)) (mmul n r r)).
  { unfold r. rewrite DD. intros i j Hi Hj. unfold dg. destruct (i =? j)%nat; [|reflexivity]. specialize (P i Hi). rewrite <- (sqrt_sqrt (w i)) at 1 by lra.
    assert (0 < sqrt (w i)) by now apply sqrt_lt_R0. field. lra. }
  rewrite RR, EA. unfold U. rewrite TT, TT, SR. rewrite !(assoc n n n). reflexivity.
Qed.
Lemma some_inv_entrywise : entrywise some_inv.
Proof.
  intros k A B H i j _ _. unfold some_inv. assert (E : clip k A = clip k B); [|now rewrite E].
  apply functional_extensionality. intros a. apply functional_extensionality. intros b. unfold clip.
  destruct ((a <? k) && (b <? k))%nat eqn:C; [|reflexivity]. apply andb_prop in C as [C1 C2]. apply H; now apply Nat.ltb_lt.
Qed.
Lemma some_solver_ok : linear_solver (fun n A B => mmul n (some_inv n A) B).
Proof.
  intros n A B NS. pose proof (some_inv_ok n A NS) as H. change sigma with msum in *. change (meq n n (mmul n A (mmul n (some_inv n A) B)) B).
  rewrite <- (assoc n n n A). change (meq n n (mmul n A (some_inv n A)) delta) in H. rewrite H, one_l. reflexivity.
Qed.

(** ** Cholesky factors *)
Definition schur (A : mat) : mat := fun i j => A (S i) (S j) - A (S i) 0%nat * A (S j) 0%nat / A 0%nat 0%nat.
Fixpoint some_chol (k : nat) (A : mat) : mat :=
  match k with
  | 0%nat => fun _ _ => 0
  | S k' => fun i j => match i, j with
                       | 0%nat, 0%nat => sqrt (A 0%nat 0%nat)
                       | 0%nat, S _ => 0
                       | S _, 0%nat => A i 0%nat / sqrt (A 0%nat 0%nat)
                       | S i', S j' => some_chol k' (schur A) i' j'
                       end
  end.
Lemma msum_first k f : msum (S k) f = f 0%nat + msum k (fun i => f (S i)).
Proof. induction k as [|k IH]; [cbn; ring|]. change (msum (S (S k)) f) with (msum (S k) f + f (S k)). rewrite IH. cbn [msum]. ring. Qed.
Lemma corner k A : pos_def (S k) A -> 0 < A 0%nat 0%nat.
Proof.
  intros P. specialize (P (fun i => if (i =? 0)%nat then 1 else 0)). change sigma with msum in P. rewrite msum_first in P.
  rewrite (msum_ext k _ (fun _ => 0)) in P.
  2:{ intros i _. rewrite (msum_ext (S k) _ (fun _ => 0)); [apply msum_zero|]. intros; cbn; ring. }
  rewrite msum_zero, msum_first in P. rewrite (msum_ext k _ (fun _ => 0)) in P by (intros; cbn; ring). rewrite msum_zero in P. cbn in P.
  assert (E : (exists i, (i < S k)%nat /\ (if (i =? 0)%nat then 1 else 0) <> 0)) by (exists 0%nat; split; [lia|cbn; lra]). specialize (P E). lra.
Qed.
Lemma schur_pd k A : (forall i j, (i < S k)%nat -> (j < S k)%nat -> A i j = A j i) -> pos_def (S k) A -> pos_def k (schur A).
Proof.
  intros SY P v (i0 & Hi0 & Hv). pose proof (corner k A P) as A0. change sigma with msum. set (c := msum k (fun i => A (S i) 0%nat * v i)).
  set (u := fun i => match i with 0%nat => - c / A 0%nat 0%nat | S i' => v i' end).
  specialize (P u). change sigma with msum in P. assert (E : exists i, (i < S k)%nat /\ u i <> 0) by (exists (S i0); split; [lia|exact Hv]). specialize (P E). clear E.
  rewrite msum_first, msum_first in P. cbn [u] in P.
  rewrite (msum_ext k (fun i => - c / A 0%nat 0%nat * A 0%nat (S i) * v i) (fun i => - c / A 0%nat 0%nat * (A (S i) 0%nat * v i))) in P
    by (intros i Hi; rewrite (SY 0%nat (S i)) by lia; ring).
  rewrite (msum_scal k (- c / A 0%nat 0%nat) (fun i => A (S i) 0%nat * v i)) in P. fold c in P.
  rewrite (msum_ext k _ (fun i => (- c / A 0%nat 0%nat) * (A (S i) 0%nat * v i) + msum k (fun j => v i * A (S i) (S j) * v j))) in P
    by (intros i Hi; rewrite msum_first; cbn [u]; f_equal; ring).
  rewrite msum_plus, (msum_scal k (- c / A 0%nat 0%nat) (fun i => A (S i) 0%nat * v i)) in P. fold c in P.
  rewrite (msum_ext k _ (fun i => msum k (fun j => v i * A (S i) (S j) * v j) + (- c / A 0%nat 0%nat) * (A (S i) 0%nat * v i))).
  2:{ intros i Hi. rewrite (msum_ext k _ (fun j => v i * A (S i) (S j) * v j + (- (A (S i) 0%nat * v i) / A 0%nat 0%nat) * (A (S j) 0%nat * v j))) by (intros; unfold schur; field; lra).
      rewrite msum_plus, (msum_scal k (- (A (S i) 0%nat * v i) / A 0%nat 0%nat) (fun j => A (S j) 0%nat * v j)). fold c. f_equal. field. lra. }
  rewrite msum_plus, (msum_scal k (- c / A 0%nat 0%nat) (fun i => A (S i) 0%nat * v i)). fold c.
  replace (- c / A 0%nat 0%nat * A 0%nat 0%nat * (- c / A 0%nat 0%nat) + - c / A 0%nat 0%nat * c) with 0 in P by (field; lra). lra.
Qed.
Lemma some_chol_ok : cholesky_contract some_chol.
Proof.
  intros k. induction k as [|k IH]; intros A SY P; [repeat split; intros; lia|]. pose proof (corner k A P) as A0. assert (S0 : 0 < sqrt (A 0%nat 0%nat)) by now apply sqrt_lt_R0.
  assert (SS : sqrt (A 0%nat 0%nat) * sqrt (A 0%nat 0%nat) = A 0%nat 0%nat) by (apply sqrt_sqrt; lra).
  assert (SY' : forall i j, (i < k)%nat -> (j < k)%nat -> schur A i j = schur A j i) by (intros i j Hi Hj; unfold schur; rewrite (SY (S i) (S j)) by lia; f_equal; f_equal; ring).
  destruct (IH (schur A) SY' (schur_pd k A SY P)) as (H1 & H2 & H3). change sigma with msum in *. split; [|split].
  - intros i j Hi Hj. rewrite msum_first. destruct i as [|i], j as [|j]; cbn [some_chol].
    + rewrite (msum_ext k _ (fun _ => 0)) by (intros; ring). rewrite msum_zero. lra.
    + rewrite (msum_ext k _ (fun _ => 0)) by (intros; ring). rewrite msum_zero, (SY 0%nat (S j)) by lia. field. lra.
    + rewrite (msum_ext k _ (fun _ => 0)) by (intros; ring). rewrite msum_zero. field. lra.
    + rewrite H1 by lia. unfold schur. rewrite <- SS at 3. field. lra.
  - intros i j Hi Hj Hij. destruct i as [|i], j as [|j]; cbn [some_chol]; try lia; [reflexivity|]. apply H2; lia.
  - intros i Hi. destruct i as [|i]; cbn [some_chol]; [exact S0|]. apply H3; lia.
Qed.
Lemma some_chol_entrywise : entrywise some_chol.
Proof.
  intros k. induction k as [|k IH]; intros A B H i j Hi Hj; [lia|]. destruct i as [|i], j as [|j]; cbn [some_chol]; rewrite ?(H 0%nat 0%nat) by lia; auto.
  - rewrite (H (S i) 0%nat) by lia. reflexivity.
  - apply IH; [|lia|lia]. intros a b Ha Hb. unfold schur. rewrite (H (S a) (S b)), (H (S a) 0%nat), (H (S b) 0%nat), (H 0%nat 0%nat) by lia. reflexivity.
Qed.

(** ** Sorting *)
Section Sort.
  Variable f : nat -> R.
  Fixpoint ins (x : nat) (l : list nat) : list nat := match l with [] => [x] | y :: t => if Rle_dec (f x) (f y) then x :: l else y :: ins x t end.
  Lemma ins_perm x l : Permutation (ins x l) (x :: l).
  Proof. induction l as [|y t IH]; [auto|]. cbn. destruct (Rle_dec _ _); [auto|]. rewrite IH. apply perm_swap. Qed.
  Lemma ins_sorted x l : StronglySorted (fun a b => f a <= f b) l -> StronglySorted (fun a b => f a <= f b) (ins x l).
  Proof.
    induction l as [|y t IH]; intros H; [repeat constructor|]. inversion H as [|? ? H1 H2]; subst. cbn. destruct (Rle_dec (f x) (f y)) as [L|L].
    - constructor; auto. constructor; auto. eapply Forall_impl; [|exact H2]. cbn. intros; lra.
    - constructor; [auto|]. apply (Permutation_Forall (Permutation_sym (ins_perm x t))). constructor; [lra|auto].
  Qed.
  Definition isort (l : list nat) : list nat := fold_right ins [] l.
  Lemma isort_perm l : Permutation (isort l) l.
  Proof. induction l as [|x l IH]; [auto|]. cbn. rewrite ins_perm. auto. Qed.
  Lemma isort_sorted l : StronglySorted (fun a b => f a <= f b) (isort l).
  Proof. induction l as [|x l IH]; [constructor|]. cbn. now apply ins_sorted. Qed.
  Lemma sorted_nth l : StronglySorted (fun a b => f a <= f b) l -> forall a b, (a <= b)%nat -> (b < length l)%nat -> f (nth a l 0%nat) <= f (nth b l 0%nat).
  Proof.
    induction 1 as [|x l H IH F]; intros a b Hab Hb; [cbn in Hb; lia|]. destruct a as [|a], b as [|b]; try lia; [lra| |apply IH; cbn in Hb; lia].
    cbn. rewrite Forall_forall in F. apply F, nth_In. cbn in Hb. lia.
  Qed.
End Sort.

(** ** The theorems *)
(** C126: linear solvers, eigensolvers and sorting. *)
Theorem C126_contracts_met : (exists solve, linear_solver solve) /\ (exists eigh, eigh_contract eigh) /\ (exists argsort, argsort_contract argsort).
Proof.
  split; [exists (fun n A B => mmul n (some_inv n A) B); exact some_solver_ok|]. split.
  - assert (SY : forall M i j, lower M i j = lower M j i).
    { intros M i j. unfold lower. destruct (Nat.leb_spec j i), (Nat.leb_spec i j); auto; [|lia]. replace j with i by lia. reflexivity. }
    exists (fun n M => proj1_sig (spectral n (lower M) (SY M))). intros n M. destruct (spectral n (lower M) (SY M)) as [[w V] [[V1 V2] E]]. cbn [proj1_sig fst snd] in *.
    intros i j Hi Hj. split; [|split].
    + rewrite (E i j Hi Hj). change sigma with msum. unfold mmul at 1. apply msum_ext. intros k Hk. now rewrite mul_dg.
    + exact (V1 i j Hi Hj).
    + exact (V2 i j Hi Hj).
  - exists (fun n f => isort f (seq 0 n)). intros n f. pose proof (isort_perm f (seq 0 n)) as P. split; [exact P|].
    intros a b Hab Hb. apply sorted_nth; auto; [apply isort_sorted|]. rewrite (Permutation_length P), seq_length. exact Hb.
Qed.
(** C128: inverses and Cholesky factors that look only at the entries of the matrix. *)
Theorem C128_contracts_met : exists inv chol, entrywise inv /\ entrywise chol /\ inverse_contract inv /\ cholesky_contract chol.
Proof. exists some_inv, some_chol. auto using some_inv_entrywise, some_chol_entrywise, some_inv_ok, some_chol_ok. Qed.
(** C129, C206: orthonormal columns and rows. *)
Theorem C129_contract_met : exists qr, qr_contract qr.
Proof.
  exists (fun _ _ _ => delta). intros d k W Hk a b Ha Hb. change sigma with msum.
  rewrite (msum_ext d _ (fun j => (fun j => delta j b) j * (if (j =? a)%nat then 1 else 0))) by (intros; unfold delta; cbn; ring).
  rewrite (msum_delta d (fun j => delta j b) a) by lia. reflexivity.
Qed.
Theorem C206_contract_met : forall d, exists pca, pca_contract pca d.
Proof.
  intros d. exists (fun _ _ _ _ => delta). intros k rows X Hr Hd a b Ha Hb. change sigma with msum.
  rewrite (msum_ext d _ (fun j => (fun j => delta j b) j * (if (j =? a)%nat then 1 else 0))).
  - rewrite (msum_delta d (fun j => delta j b) a) by lia. reflexivity.
  - intros j _. unfold delta. rewrite (Nat.eqb_sym a j), (Nat.eqb_sym b j). ring.
Qed.
(** The inverse of the matrix with rows (2, 1) and (1, 1). *)
Example C126_contracts_ex : nonsingular 2 (fun i j => if (i =? 0)%nat && (j =? 0)%nat then 2 else 1).
Proof. intros v H j Hj. pose proof (H 0%nat ltac:(lia)) as H0. pose proof (H 1%nat ltac:(lia)) as H1. cbn in H0, H1. destruct j as [|[|]]; [lra|lra|lia]. Qed.
