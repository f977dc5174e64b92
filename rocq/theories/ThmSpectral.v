(** Every symmetric matrix can be diagonalised in an orthonormal basis: the contract of the eigensolvers used by the model ([eigensolver]) can be met for every number of features, so that no theorem that assumes it speaks about nothing. *)
From Coq Require Import ZArith Bool Arith Lia Reals Lra Psatz Setoid Morphisms Ranalysis5.
From Verif Require Import MapModel MapSpec RMat MapProofs2 MongeProofs TurnProofs.
Local Open Scope R_scope.

Definition dg (w : nat -> R) : mat := fun i j => if (i =? j)%nat then w i else 0.
Definition orth (n : nat) (V : mat) : Prop := meq n n (mmul n (mT V) V) delta /\ meq n n (mmul n V (mT V)) delta.
Definition dec (n : nat) (C : mat) (wV : (nat -> R) * mat) : Prop := orth n (snd wV) /\ meq n n C (mmul n (mmul n (snd wV) (dg (fst wV))) (mT (snd wV))).
Lemma mul_dg n V w i k : (k < n)%nat -> mmul n V (dg w) i k = V i k * w k.
Proof.
  intros H. unfold mmul. rewrite (msum_ext n _ (fun j => (V i j * w j) * (if (j =? k)%nat then 1 else 0))); [now apply (msum_delta n (fun j => V i j * w j))|].
  intros j _. unfold dg. destruct (j =? k)%nat; ring.
Qed.
Lemma msum_single n f i : (i < n)%nat -> (forall k, (k < n)%nat -> 0 <= f k) -> f i <= msum n f.
Proof.
  intros Hi Hp. induction n as [|n IH]; [lia|]. cbn [msum]. assert (0 <= msum n f) by (apply msum_nonneg; intros; apply Hp; lia). assert (0 <= f n) by (apply Hp; lia). destruct (Nat.eq_dec i n) as [->|]; [lra|].
  assert (f i <= msum n f) by (apply IH; [lia|intros; apply Hp; lia]). lra.
Qed.
Lemma msum_le n f g : (forall k, (k < n)%nat -> f k <= g k) -> msum n f <= msum n g.
Proof. induction n as [|n IH]; intros H; cbn [msum]; [lra|]. assert (f n <= g n) by (apply H; lia). assert (msum n f <= msum n g) by (apply IH; intros; apply H; lia). lra. Qed.
Lemma zero_dec n (f : nat -> R) : {k | (k < n)%nat /\ f k = 0} + {forall k, (k < n)%nat -> f k <> 0}.
Proof.
  induction n as [|n [[k H]|IH]]; [right; lia|left; exists k; split; [lia|apply H]|]. destruct (Req_EM_T (f n) 0) as [E|E]; [left; exists n; auto|right].
  intros k Hk. destruct (Nat.eq_dec k n) as [->|]; auto. apply IH. lia.
Qed.
Lemma top n (w : nat -> R) : {k | (k < S n)%nat /\ forall i, (i < S n)%nat -> w i <= w k}.
Proof.
  induction n as [|n [k [Hk IH]]]; [exists 0%nat; split; [lia|]; intros i Hi; assert (i = 0)%nat as -> by lia; lra|].
  destruct (Rle_dec (w (S n)) (w k)) as [L|L].
  - exists k. split; [lia|]. intros i Hi. destruct (Nat.eq_dec i (S n)) as [->|]; auto. apply IH. lia.
  - exists (S n). split; [lia|]. intros i Hi. destruct (Nat.eq_dec i (S n)) as [->|]; [lra|]. specialize (IH i ltac:(lia)). lra.
Qed.

(** A root of the secular equation above all poles. *)
Lemma secular n (w b : nat -> R) c : (forall k, (k < S n)%nat -> b k <> 0) ->
  {l | (forall k, (k < S n)%nat -> w k < l) /\ c + msum (S n) (fun k => b k * b k / (l - w k)) = l}.
Proof.
  intros B. destruct (top n w) as [k [Hk HM]]. set (D := w k) in *. set (N := S n) in *.
  set (f := fun l => l - c - msum N (fun k => b k * b k / (l - w k))).
  assert (Bk : 0 < b k * b k) by (apply Rlt_0_sqr; auto). set (q := b k * b k) in *.
  set (A := Rabs (D - c)). assert (A0 : 0 <= A) by apply Rabs_pos. assert (A1 : D - c <= A) by apply Rle_abs. assert (A2 : c - D <= A) by (unfold A; rewrite Rabs_minus_sym; apply Rle_abs).
  set (e := q / (q + A + 2)). assert (E0 : 0 < e) by (apply Rdiv_lt_0_compat; lra).
  assert (E1 : e < 1) by (unfold e; apply (Rmult_lt_reg_r (q + A + 2)); [lra|]; unfold Rdiv; rewrite Rmult_assoc, Rinv_l by lra; lra).
  assert (E2 : q / e = q + A + 2) by (unfold e; field; split; lra).
  set (T := msum N (fun k => b k * b k)). assert (T0 : 0 <= T) by (apply msum_nonneg; intros; apply Rle_0_sqr).
  destruct (IVT_interv f (D + e) (D + 1 + A + T)) as [l [[L1 L2] L3]].
  - intros a [Ha1 Ha2]. unfold f. apply continuity_pt_minus; [apply continuity_pt_minus; [apply derivable_continuous_pt, derivable_pt_id|apply continuity_pt_const; intros x y; reflexivity]|].
    assert (G : forall M, (M <= N)%nat -> continuity_pt (fun l => msum M (fun k => b k * b k / (l - w k))) a).
    { induction M as [|M IH]; intros HMN; cbn [msum]; [apply continuity_pt_const; intros x y; reflexivity|]. apply continuity_pt_plus; [apply IH; lia|].
      apply continuity_pt_div; [apply continuity_pt_const; intros x y; reflexivity| |].
      - apply continuity_pt_minus; [apply derivable_continuous_pt, derivable_pt_id|apply continuity_pt_const; intros x y; reflexivity].
      - specialize (HM M ltac:(lia)). fold D in HM. lra. }
    now apply G.
  - lra.
  - unfold f. assert (q / e <= msum N (fun k0 => b k0 * b k0 / (D + e - w k0))).
    { replace (q / e) with (b k * b k / (D + e - w k)) by (unfold q, D; f_equal; ring). apply (msum_single N (fun k0 => b k0 * b k0 / (D + e - w k0))); auto.
      intros j Hj. specialize (HM j Hj). apply Rmult_le_pos; [apply Rle_0_sqr|]. left. apply Rinv_0_lt_compat. lra. }
    rewrite E2 in H. lra.
  - unfold f. assert (msum N (fun k0 => b k0 * b k0 / (D + 1 + A + T - w k0)) <= T).
    { apply msum_le. intros j Hj. specialize (HM j Hj). assert (0 <= b j * b j) by apply Rle_0_sqr. apply (Rmult_le_reg_r (D + 1 + A + T - w j)); [lra|]. unfold Rdiv. rewrite Rmult_assoc, Rinv_l by lra. rewrite Rmult_1_r.
      assert (1 <= D + 1 + A + T - w j) by lra. nra. }
    lra.
  - exists l. split; [|unfold f in L3; fold N; lra]. intros j Hj. specialize (HM j Hj). lra.
Qed.

Definition eigenpair (N : nat) (C : mat) (lx : R * (nat -> R)) : Prop :=
  0 < msum N (fun i => snd lx i * snd lx i) /\ forall i, (i < N)%nat -> msum N (fun j => C i j * snd lx j) = fst lx * snd lx i.
Lemma border n C : (forall i j, C i j = C j i) -> {wV | dec n C wV} -> {lx | eigenpair (S n) C lx}.
Proof.
  intros SY [[w V] [[V1 V2] EC]]. cbn [fst snd] in *. set (b := fun k => msum n (fun j => C j n * V j k)).
  assert (AV : forall i k, (i < n)%nat -> (k < n)%nat -> msum n (fun j => C i j * V j k) = V i k * w k).
  { intros i k Hi Hk. rewrite <- (mul_dg n V w i k Hk). change (mmul n C V i k = mmul n V (dg w) i k). assert (E : meq n n (mmul n C V) (mmul n V (dg w))) by (rewrite EC, assoc, V1, one_r; reflexivity). now apply E. }
  assert (LT : forall f g : nat -> R, msum n (fun j => f j * (if (j <? n)%nat then g j else 0)) = msum n (fun j => f j * g j)) by (intros f g; apply msum_ext; intros j Hj; destruct (Nat.ltb_spec j n); [reflexivity|lia]).
  destruct (zero_dec n b) as [[k [Hk B]]|B].
  - exists (w k, fun i => if (i <? n)%nat then V i k else 0). split; cbn [fst snd msum].
    + rewrite Nat.ltb_irrefl, Rmult_0_r, Rplus_0_r. rewrite (msum_ext n _ (fun i => mT V k i * V i k)); [|intros i Hi; destruct (Nat.ltb_spec i n); [reflexivity|lia]].
      change (0 < mmul n (mT V) V k k). rewrite V1 by auto. unfold delta. rewrite Nat.eqb_refl. lra.
    + intros i Hi. rewrite LT, Nat.ltb_irrefl, Rmult_0_r, Rplus_0_r. destruct (Nat.ltb_spec i n) as [L|L]; [rewrite AV by auto; ring|].
      assert (i = n) as -> by lia. rewrite Rmult_0_r, <- B. unfold b. apply msum_ext. intros j _. now rewrite (SY n j).
  - destruct n as [|m].
    { exists (C 0%nat 0%nat, fun _ => 1). split; cbn; [lra|]. intros i Hi. assert (i = 0)%nat as -> by lia. ring. }
    set (n := S m) in *. destruct (secular m w b (C n n) B) as [l [L1 L2]]. fold n in L1, L2. set (y := fun k => b k / (l - w k)).
    assert (Y : forall k, (k < n)%nat -> w k * y k + b k = l * y k) by (intros k Hk; specialize (L1 k Hk); unfold y; field; lra).
    exists (l, fun i => if (i <? n)%nat then msum n (fun k => V i k * y k) else 1). split; cbn [fst snd]; rewrite ?(eq_refl : msum (S n) = fun f => msum n f + f n).
    + change (0 < msum n (fun i => (if (i <? n)%nat then msum n (fun k => V i k * y k) else 1) * (if (i <? n)%nat then msum n (fun k => V i k * y k) else 1)) + (if (n <? n)%nat then msum n (fun k => V n k * y k) else 1) * (if (n <? n)%nat then msum n (fun k => V n k * y k) else 1)).
      rewrite Nat.ltb_irrefl. match goal with |- 0 < ?s + _ => assert (0 <= s) by (apply msum_nonneg; intros; apply Rle_0_sqr) end. lra.
    + intros i Hi. change (msum n (fun j => C i j * (if (j <? n)%nat then msum n (fun k => V j k * y k) else 1)) + C i n * (if (n <? n)%nat then msum n (fun k => V n k * y k) else 1) = l * (if (i <? n)%nat then msum n (fun k => V i k * y k) else 1)).
      rewrite Nat.ltb_irrefl, Rmult_1_r. rewrite (msum_ext n _ (fun j => msum n (fun k => C i j * V j k * y k))).
      2:{ intros j Hj. destruct (Nat.ltb_spec j n); [|lia]. rewrite <- msum_scal. apply msum_ext. intros; ring. }
      rewrite msum_swap. rewrite (msum_ext n _ (fun k => msum n (fun j => C i j * V j k) * y k)) by (intros; apply msum_scal_r).
      destruct (Nat.ltb_spec i n) as [L|L].
      * rewrite (msum_ext n _ (fun k => V i k * (w k * y k))) by (intros k Hk; rewrite AV by auto; ring).
        assert (CN : C i n = msum n (fun k => V i k * b k)).
        { unfold b. rewrite (msum_ext n _ (fun k => msum n (fun j => C j n * (V i k * mT V k j)))) by (intros k _; rewrite <- msum_scal; apply msum_ext; intros; unfold mT; ring). rewrite msum_swap.
          rewrite (msum_ext n _ (fun j => C j n * (if (j =? i)%nat then 1 else 0))); [symmetry; now apply (msum_delta n (fun j => C j n))|]. intros j Hj. rewrite msum_scal. f_equal. change (mmul n V (mT V) i j = if (j =? i)%nat then 1 else 0). rewrite V2 by auto. unfold delta. now rewrite Nat.eqb_sym. }
        rewrite CN, <- msum_plus, <- msum_scal. apply msum_ext. intros k Hk. rewrite <- Rmult_plus_distr_l, Y by auto. ring.
      * assert (i = n) as -> by lia. rewrite Rmult_1_r, <- L2, Rplus_comm. f_equal. apply msum_ext. intros k Hk. rewrite (msum_ext n _ (fun j => C j n * V j k)) by (intros; now rewrite (SY n)). fold (b k). unfold y, Rdiv. ring.
Qed.

(** A reflection that takes the last unit vector to a multiple of [x]. *)
Lemma reflection n (x : nat -> R) : 0 < msum (S n) (fun i => x i * x i) ->
  {H : mat | (forall i j, H i j = H j i) /\ meq (S n) (S n) (mmul (S n) H H) delta /\ exists r, r <> 0 /\ forall i, (i < S n)%nat -> H i n = r * x i}.
Proof.
  intros P. set (N := S n) in *. set (q := sqrt (msum N (fun i => x i * x i))). assert (Q : 0 < q) by now apply sqrt_lt_R0. set (u := fun i => / q * x i).
  assert (U : msum N (fun i => u i * u i) = 1).
  { rewrite (msum_ext N _ (fun i => / q * / q * (x i * x i))) by (intros; unfold u; ring). rewrite msum_scal. replace (msum N (fun i => x i * x i)) with (q * q) by (apply sqrt_sqrt; lra). field. lra. }
  destruct (Req_EM_T (u n) 1) as [E|E].
  - exists delta. split; [intros i j; unfold delta; now rewrite Nat.eqb_sym|]. split; [apply one_l|]. exists (/ q). split; [apply Rinv_neq_0_compat; lra|]. intros i Hi. change (delta i n = u i).
    unfold delta. destruct (Nat.eqb_spec i n) as [->|D]; [auto|]. unfold N in U. cbn [msum] in U. rewrite E in U. assert (Z : u i * u i <= msum n (fun i => u i * u i)) by (apply (msum_single n (fun i => u i * u i)); [lia|intros; apply Rle_0_sqr]).
    assert (0 <= u i * u i) by apply Rle_0_sqr. assert (u i * u i = 0) by lra. symmetry. apply Rmult_integral in H0. tauto.
  - set (v := fun i => delta i n - u i). assert (D : 1 - u n <> 0) by lra.
    assert (S2 : msum N (fun i => v i * v i) = 2 * (1 - u n)).
    { rewrite (msum_ext N _ (fun i => delta i n * delta i n + (-2 * (u i * delta i n) + u i * u i))) by (intros; unfold v; ring). rewrite !msum_plus, msum_scal, U. unfold delta. rewrite !(msum_delta N) by (unfold N; lia). rewrite Nat.eqb_refl. ring. }
    exists (fun i j => delta i j - v i * v j / (1 - u n)). split; [intros i j; unfold delta; rewrite (Nat.eqb_sym j i); field; auto|]. split.
    + intros i j Hi Hj. unfold mmul. rewrite (msum_ext N _ (fun k => delta i k * delta k j + (- / (1 - u n) * (v i * (v k * delta k j)) + (- / (1 - u n) * (v j * (v k * delta k i)) + / (1 - u n) * / (1 - u n) * (v i * v j) * (v k * v k))))).
      2:{ intros k _. unfold delta. rewrite (Nat.eqb_sym i k). field. auto. }
      rewrite !msum_plus, !msum_scal, S2. assert (MD : forall (g : nat -> R) a, (a < N)%nat -> msum N (fun k => g k * delta k a) = g a) by (intros g a Ha; exact (msum_delta N g a Ha)). rewrite (MD v i Hi), (MD v j Hj), (MD (delta i) j Hj). field. auto.
    + exists (/ q). split; [apply Rinv_neq_0_compat; lra|]. intros i Hi. change (delta i n - v i * v n / (1 - u n) = u i). unfold v at 2. unfold delta at 2. rewrite Nat.eqb_refl. unfold v. field. auto.
Qed.

Lemma spectral n : forall C, (forall i j, C i j = C j i) -> {wV | dec n C wV}.
Proof.
  induction n as [|n IH]; intros C SY; [exists (fun _ => 0, delta); split; [split|]; intros i j Hi; lia|].
  destruct (border n C SY (IH C SY)) as [[l x] [NX EX]]. cbn [fst snd] in *. destruct (reflection n x NX) as [H [HS [HH HX]]]. set (N := S n) in *.
  set (M := mmul N (mmul N H C) H).
  assert (MS : forall i j, M i j = M j i).
  { intros i j. unfold M. rewrite (mmul_assoc N N H C H j i), mmul_T. unfold mmul. apply msum_ext. intros k _. unfold mT. rewrite (HS j k). f_equal. apply msum_ext. intros a _. rewrite (HS a i), (SY a k). ring. }
  assert (ML : forall i, (i < N)%nat -> M i n = l * delta i n).
  { intros i Hi. destruct HX as (r & Hr & HX). unfold M. rewrite (mmul_assoc N N H C H).
    transitivity (msum N (fun k => l * (H i k * H k n))); [|rewrite msum_scal; f_equal; apply HH; auto; unfold N; lia].
    unfold mmul at 1. apply msum_ext. intros k Hk. assert (E : mmul N C H k n = l * H k n).
    { unfold mmul. rewrite (msum_ext N _ (fun j => r * (C k j * x j))) by (intros j Hj; rewrite HX by auto; ring). rewrite msum_scal, EX, HX by auto. ring. }
    rewrite E. ring. }
  destruct (IH M MS) as [[w V] [[V1 V2] EM]]. cbn [fst snd] in *.
  set (w' := fun i => if (i <? n)%nat then w i else l). set (V' := fun i j => if ((i <? n) && (j <? n))%nat then V i j else delta i j).
  assert (VV : forall i j, (i < n)%nat -> (j < n)%nat -> V' i j = V i j) by (intros i j Hi Hj; unfold V'; now rewrite (proj2 (Nat.ltb_lt i n) Hi), (proj2 (Nat.ltb_lt j n) Hj)).
  assert (VN : forall i, V' i n = delta i n) by (intros i; unfold V'; now rewrite Nat.ltb_irrefl, andb_false_r).
  assert (VN' : forall i, V' n i = delta n i) by (intros i; unfold V'; now rewrite Nat.ltb_irrefl).
  assert (DN : forall i, (i < n)%nat -> delta i n = 0 /\ delta n i = 0) by (intros i Hi; unfold delta; destruct (Nat.eqb_spec i n), (Nat.eqb_spec n i); try lia; auto).
  assert (D1 : delta n n = 1) by (unfold delta; now rewrite Nat.eqb_refl).
  assert (LT : forall i, (i < N)%nat -> (i < n)%nat \/ i = n) by (unfold N; lia).
  assert (O : orth N V').
  { split; intros i j Hi Hj; unfold mmul, mT; unfold N; cbn [msum]; destruct (LT i Hi) as [Li| ->], (LT j Hj) as [Lj| ->].
    - rewrite !VN', (proj2 (DN i Li)), Rmult_0_l, Rplus_0_r. rewrite <- (V1 i j Li Lj). unfold mmul, mT. apply msum_ext. intros k Hk. now rewrite !VV.
    - rewrite !VN', (proj2 (DN i Li)), (proj1 (DN i Li)), Rmult_0_l, Rplus_0_r. rewrite (msum_ext n _ (fun _ => 0)); [apply msum_zero|]. intros k Hk. rewrite VN, (proj1 (DN k Hk)). ring.
    - rewrite !VN', (proj2 (DN j Lj)), Rmult_0_r, Rplus_0_r. rewrite (msum_ext n _ (fun _ => 0)); [apply msum_zero|]. intros k Hk. rewrite VN, (proj1 (DN k Hk)). ring.
    - rewrite VN', D1. rewrite (msum_ext n _ (fun _ => 0)); [rewrite msum_zero; ring|]. intros k Hk. rewrite VN, (proj1 (DN k Hk)). ring.
    - rewrite !VN, (proj1 (DN i Li)), Rmult_0_l, Rplus_0_r. rewrite <- (V2 i j Li Lj). unfold mmul, mT. apply msum_ext. intros k Hk. now rewrite !VV.
    - rewrite !VN, (proj1 (DN i Li)), Rmult_0_l, Rplus_0_r. rewrite (msum_ext n _ (fun _ => 0)); [apply msum_zero|]. intros k Hk. rewrite VN', (proj2 (DN k Hk)). ring.
    - rewrite !VN, (proj1 (DN j Lj)), (proj2 (DN j Lj)), Rmult_0_r, Rplus_0_r. rewrite (msum_ext n _ (fun _ => 0)); [apply msum_zero|]. intros k Hk. rewrite VN', (proj2 (DN k Hk)). ring.
    - rewrite VN, D1. rewrite (msum_ext n _ (fun _ => 0)); [rewrite msum_zero; ring|]. intros k Hk. rewrite VN', (proj2 (DN k Hk)). ring. }
  assert (EM' : meq N N M (mmul N (mmul N V' (dg w')) (mT V'))).
  { intros i j Hi Hj. unfold mmul at 1. rewrite (msum_ext N _ (fun k => V' i k * w' k * V' j k)) by (intros k Hk; rewrite mul_dg by auto; reflexivity). unfold N. cbn [msum]. rewrite !VN.
    assert (Wn : w' n = l) by (unfold w'; now rewrite Nat.ltb_irrefl). rewrite Wn. destruct (LT i Hi) as [Li| ->], (LT j Hj) as [Lj| ->].
    - rewrite (proj1 (DN i Li)), !Rmult_0_l, Rplus_0_r. rewrite (EM i j Li Lj). unfold mmul at 1. apply msum_ext. intros k Hk. rewrite mul_dg, !VV by auto. unfold w'. rewrite (proj2 (Nat.ltb_lt k n) Hk). reflexivity.
    - rewrite ML by auto. rewrite (proj1 (DN i Li)), D1. rewrite (msum_ext n _ (fun _ => 0)); [rewrite msum_zero; ring|]. intros k Hk. rewrite VN', (proj2 (DN k Hk)). ring.
    - rewrite MS, ML by auto. rewrite (proj1 (DN j Lj)), D1. rewrite (msum_ext n _ (fun _ => 0)); [rewrite msum_zero; ring|]. intros k Hk. rewrite VN', (proj2 (DN k Hk)). ring.
    - rewrite ML by auto. rewrite D1. rewrite (msum_ext n _ (fun _ => 0)); [rewrite msum_zero; ring|]. intros k Hk. rewrite VN', (proj2 (DN k Hk)). ring. }
  destruct O as (O1 & O2).
  assert (HT : meq N N (mT H) H) by (intros i j _ _; apply HS).
  assert (TT : forall A B, meq N N (mT (mmul N A B)) (mmul N (mT B) (mT A))) by (intros A B i j _ _; unfold mT at 1; apply mmul_T).
  exists (w', mmul N H V'). split; cbn [fst snd].
  - split; rewrite TT, HT.
    + rewrite assoc, <- (assoc N N N H H), HH, one_l. exact O1.
    + rewrite assoc, <- (assoc N N N V'), O2, one_l. exact HH.
  - rewrite TT, HT. rewrite (assoc N N N H V'), (assoc N N N H), <- (assoc N N N (mmul N V' (dg w')) (mT V') H), <- EM'. unfold M. rewrite <- (assoc N N N H (mmul N (mmul N H C) H)), <- (assoc N N N H (mmul N H C) H). rewrite <- (assoc N N N H H C), HH, one_l.
    rewrite (assoc N N N C H H), HH, one_r. reflexivity.
Qed.

(** The contract of a symmetric eigensolver can be met. *)
Theorem C86_eigensolver_exists : forall n, exists eigh, eigensolver n eigh.
Proof.
  intros n. set (sy := fun (C : mat) i j => (C i j + C j i) / 2). assert (SY : forall C i j, sy C i j = sy C j i) by (intros; unfold sy; lra).
  exists (fun C => proj1_sig (spectral n (sy C) (SY C))). intros C HC. destruct (spectral n (sy C) (SY C)) as [[w V] [[V1 V2] E]]. cbn [proj1_sig fst snd] in *. intros i j Hi Hj. split; [|split].
  - assert (EC : C i j = sy C i j) by (unfold sy; rewrite (HC j i); lra). rewrite EC, (E i j Hi Hj). change sigma with msum. unfold mmul at 1. apply msum_ext. intros k Hk. now rewrite mul_dg.
  - exact (V1 i j Hi Hj).
  - exact (V2 i j Hi Hj).
Qed.
