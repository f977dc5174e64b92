(** Covariances, roots and maps to the barycentre under a similarity of the feature space. *)
From Coq Require Import List ZArith Bool Arith Lia Reals Lra Setoid Morphisms.
From Verif Require Import Np MapModel MapSpec MapProofs2 RMat CovSpec CovProofs MongeModel MongeProofs.
Import ListNotations.
Local Open Scope R_scope.

#[global] Instance meq_equiv n m : Equivalence (meq n m).
Proof. split; [intros A i j _ _; reflexivity|intros A B H; now apply meq_sym|intros A B C; apply meq_trans]. Qed.
#[global] Instance mmul_proper n k m : Proper (meq n k ==> meq k m ==> meq n m) (mmul k).
Proof. intros A A' HA B B' HB. now apply mmul_meq. Qed.
Definition sc (s : R) (A : mat) : mat := fun i j => s * A i j.
#[global] Instance sc_proper s n m : Proper (meq n m ==> meq n m) (sc s).
Proof. intros A A' H i j Hi Hj. unfold sc. now rewrite H. Qed.
Lemma assoc r n m A B C : meq r m (mmul n (mmul n A B) C) (mmul n A (mmul n B C)).
Proof. intros i j _ _. apply mmul_assoc. Qed.
Lemma sc_l r n m s A B : meq r m (mmul n (sc s A) B) (sc s (mmul n A B)).
Proof. intros i j _ _. unfold sc, mmul. rewrite <- msum_scal. apply msum_ext. intros; ring. Qed.
Lemma sc_r r n m s A B : meq r m (mmul n A (sc s B)) (sc s (mmul n A B)).
Proof. intros i j _ _. unfold sc, mmul. rewrite <- msum_scal. apply msum_ext. intros; ring. Qed.
Lemma sc_sc n m s t A : meq n m (sc s (sc t A)) (sc (s * t) A).
Proof. intros i j _ _. unfold sc. ring. Qed.
Lemma sc_one n m s A : s = 1 -> meq n m (sc s A) A.
Proof. intros -> i j _ _. unfold sc. ring. Qed.
Lemma one_l n m A : meq n m (mmul n delta A) A.
Proof. intros i j Hi _. now apply mmul_delta_l. Qed.
Lemma one_r n m A : meq m n (mmul n A delta) A.
Proof. intros i j _ Hj. now apply mmul_delta_r. Qed.

Section Turn.
  Variables (eigh : mat -> (nat -> R) * mat) (n : nat).
  Hypothesis HE : eigensolver n eigh.
  Variables (s : R) (Q : mat).
  Hypothesis Hs : 0 < s.
  Hypothesis Q1 : meq n n (mmul n (mT Q) Q) delta.
  Hypothesis Q2 : meq n n (mmul n Q (mT Q)) delta.
  Definition conj (A : mat) : mat := mmul n (mmul n (mT Q) A) Q.
  Lemma conj_proper : Proper (meq n n ==> meq n n) conj.
  Proof. intros A A' H. unfold conj. now rewrite H. Qed.
  Local Existing Instance conj_proper.
  Lemma conj_mul A B : meq n n (mmul n (conj A) (conj B)) (conj (mmul n A B)).
  Proof.
    unfold conj. rewrite !assoc. rewrite <- (assoc n n n Q (mT Q) (mmul n B Q)). rewrite Q2, one_l. reflexivity.
  Qed.
  Lemma conj_sc t A : meq n n (conj (sc t A)) (sc t (conj A)).
  Proof. unfold conj. rewrite sc_r, sc_l. reflexivity. Qed.
  Lemma conj_one : meq n n (conj delta) delta.
  Proof. unfold conj. rewrite one_r. exact Q1. Qed.
  Lemma conj_sym A : (forall i j, A i j = A j i) -> forall i j, conj A i j = conj A j i.
  Proof.
    intros S i j. unfold conj. rewrite (mmul_assoc n n (mT Q) A Q j i). rewrite mmul_T. unfold mmul at 1 3. apply msum_ext. intros l _. unfold mT at 1 4. f_equal.
    unfold mT at 1. rewrite mmul_T. unfold mmul. apply msum_ext. intros k _. unfold mT. now rewrite (S k l).
  Qed.
  Lemma conj_psd A : pos_semidef n A -> pos_semidef n (conj A).
  Proof.
    intros P v. rewrite qf_sigma. specialize (P (mv n Q v)). rewrite qf_sigma in P. replace (qf n (conj A) v) with (qf n A (mv n Q v)); auto.
    rewrite !qf_ip. unfold conj. transitivity (ip n v (mv n (mT Q) (mv n A (mv n Q v)))).
    - unfold ip, mv, mT. rewrite (msum_ext n _ (fun i => msum n (fun j => Q i j * v j * msum n (fun k => A i k * msum n (fun l => Q k l * v l))))).
      2:{ intros i _. now rewrite <- msum_scal_r. }
      rewrite msum_swap. apply msum_ext. intros j _. rewrite <- msum_scal. apply msum_ext. intros; ring.
    - apply ip_ext; auto. intros i _. rewrite mv_mmul. rewrite mv_mmul. reflexivity.
  Qed.
  Lemma zero_or (v : nat -> R) m : (forall i, (i < m)%nat -> v i = 0) \/ (exists i, (i < m)%nat /\ v i <> 0).
  Proof.
    induction m as [|m [IH|[i [Hi Hv]]]]; [left; lia| |right; exists i; split; auto; lia].
    destruct (Req_dec (v m) 0) as [E|E]; [left|right; exists m; split; auto; lia]. intros i Hi. destruct (Nat.eq_dec i m) as [->|]; auto. apply IH. lia.
  Qed.
  Lemma conj_qf A v : qf n (conj A) v = qf n A (mv n Q v).
  Proof.
    rewrite !qf_ip. unfold conj. symmetry. transitivity (ip n v (mv n (mT Q) (mv n A (mv n Q v)))).
    - unfold ip, mv, mT. rewrite (msum_ext n _ (fun i => msum n (fun j => Q i j * v j * msum n (fun k => A i k * msum n (fun l => Q k l * v l))))).
      2:{ intros i _. now rewrite <- msum_scal_r. }
      rewrite msum_swap. apply msum_ext. intros j _. rewrite <- msum_scal. apply msum_ext. intros; ring.
    - apply ip_ext; auto. intros i _. rewrite mv_mmul. rewrite mv_mmul. reflexivity.
  Qed.
  Lemma conj_pd A : pos_def n A -> pos_def n (conj A).
  Proof.
    intros P v (i & Hi & Hv). rewrite qf_sigma. rewrite conj_qf, <- qf_sigma. apply P. destruct (zero_or (mv n Q v) n) as [Z|Z]; [|exact Z]. exfalso. apply Hv.
    transitivity (mv n (mmul n (mT Q) Q) v i).
    - rewrite (mv_ext n _ delta v v i Hi Q1) by auto. unfold mv. change (v i = mmul n delta (fun j _ => v j) i 0%nat). now rewrite mmul_delta_l.
    - rewrite mv_mmul. unfold mv at 1. rewrite (msum_ext n _ (fun _ => 0)); [apply msum_zero|]. intros j Hj. rewrite Z by auto. ring.
  Qed.
  Lemma qf_meq A B v : meq n n A B -> qf n A v = qf n B v.
  Proof. intros E. apply msum_ext. intros i Hi. apply msum_ext. intros j Hj. now rewrite E. Qed.
  Lemma qf_sc t A v : qf n (sc t A) v = t * qf n A v.
  Proof. unfold qf, sc. rewrite <- msum_scal. apply msum_ext. intros i _. rewrite <- msum_scal. apply msum_ext. intros; ring. Qed.
  Lemma pd_meq A B : meq n n A B -> pos_def n A -> pos_def n B.
  Proof. intros E P v Hv. specialize (P v Hv). rewrite qf_sigma in *. now rewrite <- (qf_meq A B v E). Qed.
  Lemma psd_meq A B : meq n n A B -> pos_semidef n A -> pos_semidef n B.
  Proof. intros E P v. specialize (P v). rewrite qf_sigma in *. now rewrite <- (qf_meq A B v E). Qed.
  Lemma sc_pd t A : 0 < t -> pos_def n A -> pos_def n (sc t A).
  Proof. intros Ht P v Hv. specialize (P v Hv). rewrite qf_sigma in *. rewrite qf_sc. now apply Rmult_lt_0_compat. Qed.
  Lemma sc_psd t A : 0 <= t -> pos_semidef n A -> pos_semidef n (sc t A).
  Proof. intros Ht P v. specialize (P v). rewrite qf_sigma in *. rewrite qf_sc. now apply Rmult_le_pos. Qed.
  Lemma root_psd C : pos_semidef n (sqrtm eigh n C).
  Proof.
    intros v. unfold sqrtm. destruct (eigh C) as [w V]. rewrite qf_sigma.
    assert (E1 : qf n (mmul n (fun i k => V i k * sqrt (w k)) (mT V)) v = msum n (fun k => sqrt (w k) * (msum n (fun i => v i * V i k) * msum n (fun i => v i * V i k)))).
    { unfold qf. rewrite (msum_ext n _ (fun i => msum n (fun k => sqrt (w k) * (v i * V i k) * msum n (fun j => v j * V j k)))).
      2:{ intros i _. rewrite (msum_ext n _ (fun j => msum n (fun k => (sqrt (w k) * (v i * V i k)) * (v j * V j k)))).
          2:{ intros j _. unfold mmul, mT. rewrite <- msum_scal, <- msum_scal_r. apply msum_ext. intros; ring. }
          rewrite msum_swap. apply msum_ext. intros k _. apply msum_scal. }
      rewrite msum_swap. apply msum_ext. intros k _. rewrite msum_scal_r, msum_scal. ring. }
    rewrite E1. apply msum_nonneg. intros k _. apply Rmult_le_pos; [apply sqrt_pos|apply Rle_0_sqr].
  Qed.
  (** The root of a matrix whose square we know. *)
  Lemma root_is C B : (forall i j, C i j = C j i) -> pos_semidef n C -> (forall i j, B i j = B j i) -> pos_semidef n B -> meq n n (mmul n B B) C -> meq n n (sqrtm eigh n C) B.
  Proof.
    intros SC PC SB PB E. apply (root_unique eigh n HE); auto; [intros; apply sqrtm_sym|apply root_psd|]. rewrite (sqrtm_sq eigh n HE C SC PC). now symmetry.
  Qed.
  Lemma root_turned C C' : (forall i j, C i j = C j i) -> (forall i j, C' i j = C' j i) -> pos_semidef n C -> meq n n C' (sc (s * s) (conj C)) ->
    meq n n (sqrtm eigh n C') (sc s (conj (sqrtm eigh n C))).
  Proof.
    intros SC SC' PC E. apply root_is; auto.
    - apply (psd_meq (sc (s * s) (conj C))); [now symmetry|]. apply sc_psd; [nra|]. intros v. rewrite qf_sigma, conj_qf, <- qf_sigma. apply PC.
    - intros i j. unfold sc. rewrite (conj_sym (sqrtm eigh n C)) by (intros; apply sqrtm_sym). reflexivity.
    - apply sc_psd; [lra|]. intros v. rewrite qf_sigma, conj_qf, <- qf_sigma. apply root_psd.
    - rewrite sc_l, sc_r, sc_sc, conj_mul, (sqrtm_sq eigh n HE C SC PC). now symmetry.
  Qed.
  Lemma invroot_turned C C' : (forall i j, C i j = C j i) -> (forall i j, C' i j = C' j i) -> pos_def n C -> meq n n C' (sc (s * s) (conj C)) ->
    meq n n (invsqrtm eigh n C') (sc (/ s) (conj (invsqrtm eigh n C))).
  Proof.
    intros SC SC' PC E. assert (PC' : pos_def n C') by (apply (pd_meq (sc (s * s) (conj C))); [now symmetry|]; apply sc_pd; [nra|now apply conj_pd]).
    assert (PS : pos_semidef n C). { intros v. destruct (classic_zero n v) as [Z|Z]; [rewrite Z; lra|]. apply Rlt_le. now apply PC. }
    destruct (roots_inverse eigh n HE C SC PC) as (_ & I). destruct (roots_inverse eigh n HE C' SC' PC') as (I' & _).
    rewrite <- (one_r n n (invsqrtm eigh n C')). rewrite <- (one_l n n (sc (/ s) _)). rewrite <- I' at 2. rewrite assoc.
    apply mmul_proper; [reflexivity|]. rewrite (root_turned C C' SC SC' PS E). rewrite sc_l, sc_r, sc_sc, conj_mul, I, conj_one. symmetry. apply sc_one. field. lra.
  Qed.
End Turn.
