(** Finite sums and matrices as functions: facts. *)
From Coq Require Import List ZArith Bool Arith Lia Reals Lra.
From Verif Require Import MapModel.
Local Open Scope R_scope.

Lemma msum_ext k f g : (forall i, (i < k)%nat -> f i = g i) -> msum k f = msum k g.
Proof. intros H. induction k; simpl; auto. rewrite IHk by (intros; apply H; lia). now rewrite H by lia. Qed.
Lemma msum_plus k f g : msum k (fun i => f i + g i) = msum k f + msum k g.
Proof. induction k; simpl; [ring|]. rewrite IHk. ring. Qed.
Lemma msum_scal k a f : msum k (fun i => a * f i) = a * msum k f.
Proof. induction k; simpl; [ring|]. rewrite IHk. ring. Qed.
Lemma msum_scal_r k a f : msum k (fun i => f i * a) = msum k f * a.
Proof. induction k; simpl; [ring|]. rewrite IHk. ring. Qed.
Lemma msum_zero k : msum k (fun _ => 0) = 0.
Proof. induction k; simpl; auto. rewrite IHk. ring. Qed.
Lemma msum_const k a : msum k (fun _ => a) = INR k * a.
Proof. induction k; [simpl; ring|]. cbn [msum]. rewrite IHk, S_INR. ring. Qed.
Lemma msum_swap k l f : msum k (fun i => msum l (fun j => f i j)) = msum l (fun j => msum k (fun i => f i j)).
Proof. induction k; simpl; [now rewrite msum_zero|]. now rewrite IHk, <- msum_plus. Qed.
Lemma msum_delta k f i : (i < k)%nat -> msum k (fun j => f j * (if (j =? i)%nat then 1 else 0)) = f i.
Proof.
  intros H. induction k; [lia|]. simpl. destruct (Nat.eq_dec i k) as [->|N].
  - rewrite Nat.eqb_refl. rewrite (msum_ext k _ (fun _ => 0)).
    + rewrite msum_zero. ring.
    + intros j Hj. destruct (Nat.eqb_spec j k); [lia|ring].
  - destruct (Nat.eqb_spec k i); [lia|]. rewrite IHk by lia. ring.
Qed.
Lemma msum_nonneg k f : (forall i, (i < k)%nat -> 0 <= f i) -> 0 <= msum k f.
Proof. intros H. induction k; simpl; [lra|]. assert (0 <= f k) by (apply H; lia). assert (0 <= msum k f) by (apply IHk; intros; apply H; lia). lra. Qed.

(** Equality of the entries below the sizes. *)
Definition meq (n m : nat) (A B : mat) : Prop := forall i j, (i < n)%nat -> (j < m)%nat -> A i j = B i j.

Lemma meq_trans n m A B C : meq n m A B -> meq n m B C -> meq n m A C.
Proof. intros H1 H2 i j Hi Hj. rewrite H1; auto. Qed.
Lemma meq_sym n m A B : meq n m A B -> meq n m B A.
Proof. intros H i j Hi Hj. symmetry; auto. Qed.

Lemma mmul_assoc k l A B C i j : mmul l (mmul k A B) C i j = mmul k A (mmul l B C) i j.
Proof.
  unfold mmul. rewrite (msum_ext l _ (fun b => msum k (fun a => A i a * B a b * C b j))).
  2:{ intros b _. now rewrite <- msum_scal_r. }
  rewrite msum_swap. apply msum_ext. intros a _. rewrite <- msum_scal. apply msum_ext. intros; ring.
Qed.
Lemma mmul_meq n k m A A' B B' : meq n k A A' -> meq k m B B' -> meq n m (mmul k A B) (mmul k A' B').
Proof. intros H1 H2 i j Hi Hj. apply msum_ext. intros l Hl. now rewrite H1, H2. Qed.
Lemma mmul_T k A B i j : mmul k A B i j = mmul k (mT B) (mT A) j i.
Proof. apply msum_ext. intros. unfold mT. ring. Qed.
