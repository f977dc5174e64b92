(** C201, C202, C203: what survives rounding. *)
From Coq Require Import List ZArith Bool Arith Lia Reals Lra Psatz.
From Flocq Require Import Core Relative Mult_error.
From Verif Require Import Np NpFacts RVec RVecFacts FWModel FWSpec FWProofs FloatModel.
Import ListNotations.
Local Open Scope nat_scope.

(** ** Rounding *)
#[local] Instance v64 : Valid_exp (FLT_exp (-1074) 53). Proof. apply FLT_exp_valid. reflexivity. Qed.
#[local] Instance p53 : Prec_gt_0 53. Proof. reflexivity. Qed.
#[local] Instance v53 : Valid_exp (FLX_exp 53). Proof. apply FLX_exp_valid. exact p53. Qed.
Lemma f64_le x y : (x <= y)%R -> (f64 x <= f64 y)%R. Proof. intros. apply round_le; auto with typeclass_instances. Qed.
Lemma f64_id x : is_f64 x -> f64 x = x. Proof. intros. apply round_generic; auto with typeclass_instances. Qed.
Lemma f64_is x : is_f64 (f64 x). Proof. apply generic_format_round; auto with typeclass_instances. Qed.
Lemma int_f64 n : (Z.abs n < 2 ^ 53)%Z -> is_f64 (IZR n).
Proof. intros H. apply generic_format_FLT. exists (Float radix2 n 0); [unfold F2R; cbn; ring|exact H|cbn; lia]. Qed.
Lemma f64_int n : (Z.abs n < 2 ^ 53)%Z -> f64 (IZR n) = IZR n. Proof. intros. now apply f64_id, int_f64. Qed.
(** The value of a rounding from its mantissa and exponent. *)
Lemma f64_eval x m e : (-1074 <= e)%Z -> (bpow radix2 (e + 53 - 1) <= x < bpow radix2 (e + 53))%R -> (Rabs (x * bpow radix2 (- e) - IZR m) < / 2)%R -> f64 x = (IZR m * bpow radix2 e)%R.
Proof.
  intros He Hx Hm. unfold f64, round, F2R, scaled_mantissa. assert (C : cexp radix2 (FLT_exp (-1074) 53) x = e).
  { unfold cexp. rewrite (mag_unique_pos radix2 x (e + 53)) by auto. unfold FLT_exp. lia. }
  rewrite C. cbn [Fnum Fexp]. now rewrite (Znearest_imp _ _ m).
Qed.

(** ** C201: fractions of a data set. *)
(** [f]: a float in [0, 1]; [n]: a number of samples. *)
Theorem C201_never_too_many : forall n f, (0 <= n < 2 ^ 53)%Z -> (0 <= f <= 1)%R -> (0 <= int_times n f <= n)%Z.
Proof.
  intros n f Hn Hf. unfold int_times. assert (N : (0 <= IZR n)%R) by (apply IZR_le; lia).
  assert (L : (f64 0 <= f64 (IZR n * f))%R) by (apply f64_le; nra). assert (U : (f64 (IZR n * f) <= f64 (IZR n))%R) by (apply f64_le; nra).
  rewrite f64_int in U by lia. rewrite (f64_int 0) in L by lia. apply Ztrunc_le in L, U. rewrite Ztrunc_IZR in L, U. lia.
Qed.
Theorem C201_all_and_none : forall n, (0 <= n < 2 ^ 53)%Z -> int_times n 1 = n /\ int_times n 0 = 0%Z.
Proof.
  intros n Hn. unfold int_times. rewrite Rmult_1_r, Rmult_0_r. rewrite f64_int, (f64_int 0) by lia. now rewrite !Ztrunc_IZR.
Qed.
Theorem C201_monotone : forall n n' f f', (0 <= n <= n')%Z -> (0 <= f <= f')%R -> (int_times n f <= int_times n' f')%Z.
Proof.
  intros n n' f f' Hn Hf. unfold int_times. apply Ztrunc_le, f64_le. assert (0 <= IZR n)%R by (apply IZR_le; lia). assert (IZR n <= IZR n')%R by (apply IZR_le; lia). nra.
Qed.
(** The integer part of the exact product, or one more when the product is within rounding of the next integer. *)
Theorem C201_within_one : forall n f, (0 <= n < 2 ^ 53 - 1)%Z -> (0 <= f <= 1)%R ->
  int_times n f = Zfloor (IZR n * f) \/
  (int_times n f = (Zfloor (IZR n * f) + 1)%Z /\ (0 < IZR (int_times n f) - IZR n * f <= / 2 * bpow radix2 (- 52) * (IZR n * f))%R).
Proof.
  intros n f Hn Hf. set (p := (IZR n * f)%R). assert (N : (0 <= IZR n)%R) by (apply IZR_le; lia). assert (Pp : (0 <= p <= IZR n)%R) by (unfold p; nra).
  set (q := Zfloor p). pose proof (Zfloor_lb p) as L. pose proof (Zfloor_ub p) as U. fold q in L, U.
  assert (Q : (0 <= q <= n)%Z). { split; [apply Zfloor_lub; apply Pp|]. apply le_IZR. lra. }
  assert (L' := f64_le _ _ L). rewrite f64_int in L' by lia.
  assert (U' : (f64 p <= IZR (q + 1))%R). { rewrite <- (f64_int (q + 1)) by lia. apply f64_le. rewrite plus_IZR. lra. }
  assert (K : (q <= Ztrunc (f64 p) <= q + 1)%Z). { apply Ztrunc_le in L', U'. rewrite Ztrunc_IZR in L', U'. lia. }
  unfold int_times. fold p. destruct (Z.eq_dec (Ztrunc (f64 p)) q) as [E|E]; [now left|right].
  assert (E1 : Ztrunc (f64 p) = (q + 1)%Z) by lia. split; [exact E1|].
  assert (F : f64 p = IZR (q + 1)).
  { apply Rle_antisym; auto. rewrite <- E1. assert (0 <= f64 p)%R by (assert (0 <= IZR q)%R by (apply IZR_le; lia); lra). rewrite Ztrunc_floor by auto. apply Zfloor_lb. }
  rewrite E1, <- F. split; [rewrite F, plus_IZR; lra|].
  assert (B : (bpow radix2 (-1074 + 53 - 1) <= Rabs p)%R).
  { rewrite Rabs_pos_eq by apply Pp. destruct (Z.eq_dec q 0) as [Q0|Q0].
    - apply Rnot_lt_le. intros Lt. assert (X : (f64 p <= f64 (bpow radix2 (-1074 + 53 - 1)))%R) by (apply f64_le; lra).
      rewrite (f64_id (bpow _ _)) in X by (apply generic_format_bpow; cbn; lia). rewrite F, Q0 in X. apply (Rle_not_lt _ _ X). apply Rle_lt_trans with (bpow radix2 (-1)); [apply bpow_le; lia|cbn; lra].
    - apply Rle_trans with 1%R; [apply (bpow_le radix2 _ 0); lia|]. assert (1 <= IZR q)%R by (apply IZR_le; lia). lra. }
  pose proof (relative_error_N_FLT radix2 (-1074) 53 p53 (fun x => negb (Z.even x)) p B) as Rl. rewrite (Rabs_pos_eq p) in Rl by apply Pp.
  apply Rle_trans with (2 := Rl). unfold f64. apply Rle_abs.
Qed.
(** under_sampling=0.7 keeps 62 of the 90 samples of a domain, not 63. *)
Theorem C201_exact_refuted : int_times 90 (f64 (7 / 10)) = 62%Z /\ Zfloor (90 * (7 / 10)) = 63%Z.
Proof.
  split.
  - unfold int_times. rewrite (f64_eval (7 / 10) 6305039478318694 (-53)); [|lia|cbn; lra|cbn; apply Rabs_def1; lra].
    rewrite (f64_eval _ 8866461766385663 (-47)); [|lia|cbn; lra|cbn; apply Rabs_def1; lra].
    rewrite Ztrunc_floor by (cbn; lra). apply Zfloor_imp. cbn. lra.
  - apply Zfloor_imp. cbn. lra.
Qed.
(** Target shift: the two groups make up the sample and both can be drawn without repetition from the 12 n candidates of each class. *)
Theorem C201_target_shift : forall n ratio, (0 <= n)%Z -> (8 * n < 2 ^ 53)%Z -> (0 <= ratio <= 1)%R ->
  let '(n1, n2) := target_shift_sizes n ratio in (n1 + n2 = 8 * n /\ 0 <= n1 <= 12 * n /\ 0 <= n2 <= 12 * n)%Z.
Proof. intros n ratio H0 H1 Hr. unfold target_shift_sizes. pose proof (C201_never_too_many (8 * n) ratio ltac:(lia) Hr). lia. Qed.
(** Gradual adaptation: the cut-off names an entry of the plan, whatever alpha is. *)
Theorem C201_cut_off : forall alpha n m, (1 <= n)%Z -> (1 <= m)%Z -> (0 <= alpha)%R -> (0 <= max_index alpha n m <= n * m - 1)%Z.
Proof.
  intros alpha n m Hn Hm Ha. unfold max_index. assert (P : (0 <= f64 (alpha * IZR (n + m)))%R).
  { rewrite <- (f64_int 0) by (cbn; lia). apply f64_le. assert (0 <= IZR (n + m))%R by (apply IZR_le; lia). nra. }
  assert (S : (0 <= IZR (n * m - 1))%R) by (apply IZR_le; nia). split.
  - rewrite <- (Ztrunc_IZR 0). apply Ztrunc_le. now apply Rmin_glb.
  - rewrite <- (Ztrunc_IZR (n * m - 1)) at 2. apply Ztrunc_le, Rmin_r.
Qed.

(** ** C202: frank_wolfe and the normalised weights under rounding. *)
(** Rounding keeps the order and does not touch 0, 1 and 2. *)
Definition ordered (rnd : R -> R) : Prop := (forall x y, (x <= y)%R -> (rnd x <= rnd y)%R) /\ rnd 0%R = 0%R /\ rnd 1%R = 1%R /\ rnd 2%R = 2%R.
(** It changes a number by at most a fraction [u] of it. *)
Definition accurate (u : R) (rnd : R -> R) : Prop := forall x, (Rabs (rnd x - x) <= u * Rabs x)%R.
(** binary64 as long as neither underflow nor overflow occurs. *)
Definition f53 (x : R) : R := round radix2 (FLX_exp 53) ZnearestE x.
Lemma f64_ordered : ordered f64.
Proof. split; [exact f64_le|]. repeat split; [apply (f64_int 0)|apply (f64_int 1)|apply (f64_int 2)]; cbn; lia. Qed.
Lemma f53_f64 x : (bpow radix2 (-1022) <= Rabs x)%R -> f53 x = f64 x.
Proof. intros H. symmetry. apply round_FLT_FLX. exact H. Qed.
Lemma f53_ordered : ordered f53.
Proof.
  split; [intros; apply round_le; auto with typeclass_instances|]. split; [apply round_0; auto with typeclass_instances|].
  destruct f64_ordered as (_ & _ & E1 & E2). split; [rewrite <- E1 at 2|rewrite <- E2 at 2]; apply f53_f64; rewrite Rabs_pos_eq by lra; (apply Rle_trans with (bpow radix2 0); [apply bpow_le; lia|cbn; lra]).
Qed.
Lemma f53_accurate : accurate (/ 2 * bpow radix2 (- 52)) f53.
Proof. intros x. apply (relative_error_N_FLX radix2 53 p53 (fun x => negb (Z.even x)) x). Qed.

Section FW.
  Variable rnd : R -> R.
  Hypothesis Ho : ordered rnd.
  Lemma rnd_nonneg x : (0 <= x)%R -> (0 <= rnd x)%R.
  Proof. intros H. destruct Ho as (M & Z0 & _). rewrite <- Z0. now apply M. Qed.
  Lemma rnd_lr k : 1 <= k -> (0 <= rnd (2 / rnd (INR k + 1)) <= 1)%R.
  Proof.
    intros Hk. destruct Ho as (M & Z0 & Z1 & Z2). apply le_INR in Hk. cbn in Hk. assert (2 <= rnd (INR k + 1))%R by (rewrite <- Z2 at 1; apply M; lra).
    split; [apply rnd_nonneg; apply Rmult_le_pos; [lra|]; left; apply Rinv_0_lt_compat; lra|]. apply Rle_trans with (rnd 1%R); [|lra]. apply M. apply (Rmult_le_reg_r (rnd (INR k + 1))); [lra|]. unfold Rdiv. rewrite Rmult_assoc, Rinv_l by lra. lra.
  Qed.
  Lemma rnd_lr1 : rnd (2 / rnd (INR 1 + 1)) = 1%R.
  Proof. destruct Ho as (M & Z0 & Z1 & Z2). replace (INR 1 + 1)%R with 2%R by (cbn; ring). rewrite Z2. replace (2 / 2)%R with 1%R by field. exact Z1. Qed.
  Lemma fwr_vertex_spec c clb cub g v : positive c -> (0 <= clb <= cub)%R -> fwr_vertex rnd c clb cub g = Ok v ->
    length v = length c /\ nonneg v /\ exists i b, i < length c /\ (b = clb \/ b = cub) /\ dot c v = (nth i c 0 * rnd (rnd (1 / nth i c 0) * b))%R.
  Proof.
    intros Hc Hb H. unfold fwr_vertex in H. apply bind_ok in H as [p [Hp H]]. apply np_map2_ok in Hp as [L ->]. rewrite map_length in L. apply bind_ok in H as [i [Hi H]].
    destruct (np_argmin_spec _ _ Hi) as [Li _]. rewrite map2_length in Li by now rewrite map_length. rewrite L in Li.
    assert (IC : nth i (map (fun t => rnd (1 / t)%R) c) 0%R = rnd (1 / nth i c 0%R)) by now rewrite nth_map0.
    assert (CP : (0 < nth i c 0)%R) by (apply (proj1 (Forall_nth_R _ _) Hc); auto).
    assert (G : forall b, (0 <= b)%R -> (0 <= rnd (rnd (1 / nth i c 0%R) * b))%R).
    { intros b Hb0. apply rnd_nonneg. apply Rmult_le_pos; auto. apply rnd_nonneg. apply Rmult_le_pos; [lra|]. left. now apply Rinv_0_lt_compat. }
    destruct (Rleb 0 _); injection H as <-; rewrite IC; (split; [now rewrite update_length, repeat_length|]); (split; [apply update_zeros_nonneg; apply G; lra|]); [exists i, clb|exists i, cub]; (split; [auto|split; [tauto|]]); rewrite dot_update_zeros by auto; reflexivity.
  Qed.
  Definition moved_r (lr : R) (x v : list R) : list R := map2 (fun a b => rnd (a + b)%R) (map (fun t => rnd (rnd (1 - lr) * t)%R) x) (map (fun t => rnd (lr * t)%R) v).
  Lemma fwr_step_spec jac c clb cub k x z : positive c -> (0 <= clb <= cub)%R -> fwr_step rnd jac c clb cub k x = Ok z ->
    exists v, length v = length c /\ nonneg v /\ length x = length c /\ z = moved_r (rnd (2 / rnd (INR k + 1))) x v /\
      exists i b, i < length c /\ (b = clb \/ b = cub) /\ dot c v = (nth i c 0 * rnd (rnd (1 / nth i c 0) * b))%R.
  Proof.
    intros Hc Hb H. unfold fwr_step in H. apply bind_ok in H as [g [_ H]]. apply bind_ok in H as [v [Hv H]]. apply np_map2_ok in H as [L ->]. rewrite !map_length in L.
    apply fwr_vertex_spec in Hv as (L1 & N1 & E); auto. exists v. repeat (split; [auto; try congruence|]). exact E.
  Qed.
  Lemma moved_nonneg lr x v : (0 <= lr <= 1)%R -> nonneg x -> nonneg v -> nonneg (moved_r lr x v).
  Proof.
    intros Hl Hx. revert v. induction Hx as [|a x Ha _ IH]; intros v Hv; [constructor|]. destruct Hv as [|b v Hb Hv]; [constructor|]. cbn. constructor; [|now apply IH].
    apply rnd_nonneg. apply Rplus_le_le_0_compat; apply rnd_nonneg; apply Rmult_le_pos; try lra. apply rnd_nonneg. lra.
  Qed.
  Lemma moved_first x v : length x = length v -> nonneg v -> nonneg (moved_r 1 x v) /\ moved_r 1 x v = map2 (fun a b => rnd (a + b)%R) (map (fun _ => 0%R) x) (map (fun t => rnd (1 * t)%R) v).
  Proof.
    intros L Hv. destruct Ho as (M & Z0 & _). assert (E : moved_r 1 x v = map2 (fun a b => rnd (a + b)%R) (map (fun _ => 0%R) x) (map (fun t => rnd (1 * t)%R) v)).
    { unfold moved_r. f_equal. apply map_ext. intros t. replace (1 - 1)%R with 0%R by ring. rewrite Z0, Rmult_0_l. exact Z0. }
    split; [|exact E]. rewrite E. clear E M. revert x L. induction Hv as [|b v Hb _ IH]; intros [|a x] L; try discriminate; cbn; constructor.
    - apply rnd_nonneg. apply Rplus_le_le_0_compat; [lra|]. apply rnd_nonneg. lra.
    - apply IH. now injection L.
  Qed.
  Lemma moved_length lr x v : length x = length v -> length (moved_r lr x v) = length x.
  Proof. intros L. unfold moved_r. rewrite map2_length; rewrite !map_length; auto. Qed.
  Lemma fwr_loop_nonneg jac c clb cub : positive c -> (0 <= clb <= cub)%R ->
    forall n k x z, 1 <= k -> length x = length c -> nonneg x -> fwr_loop rnd jac c clb cub k n x = Ok z -> length z = length c /\ nonneg z.
  Proof.
    intros Hc Hb. induction n as [|n IH]; intros k x z Hk L Hx H; cbn in H; [injection H as <-; auto|].
    apply bind_ok in H as [x' [H1 H]]. apply fwr_step_spec in H1 as (v & L1 & N1 & L2 & -> & _); auto. revert H. apply IH; auto; [rewrite moved_length; congruence|apply moved_nonneg; auto; now apply rnd_lr].
  Qed.
  Lemma frank_wolfe_r_nonneg jac c clb cub x0 n x : positive c -> (0 <= clb <= cub)%R -> 1 <= n -> frank_wolfe_r rnd jac c clb cub x0 n = Ok x -> length x = length c /\ nonneg x.
  Proof.
    intros Hc Hb Hn H. destruct n as [|n]; [lia|]. unfold frank_wolfe_r in H. cbn [fwr_loop] in H. apply bind_ok in H as [x1 [H1 H]].
    apply fwr_step_spec in H1 as (v & L1 & N1 & L2 & -> & _); auto. rewrite rnd_lr1 in H. revert H. apply fwr_loop_nonneg; auto; [rewrite moved_length; congruence|apply moved_first; auto; congruence].
  Qed.

  (** ** The linear constraint. *)
  Variable u : R.
  Hypothesis Hu : (0 <= u < 1)%R.
  Hypothesis Ha : accurate u rnd.
  Lemma rnd_hi x : (0 <= x)%R -> (rnd x <= (1 + u) * x)%R.
  Proof. intros H. pose proof (Ha x) as A. rewrite (Rabs_pos_eq x) in A by auto. apply Rabs_le_inv in A. lra. Qed.
  Lemma rnd_lo x : (0 <= x)%R -> ((1 - u) * x <= rnd x)%R.
  Proof. intros H. pose proof (Ha x) as A. rewrite (Rabs_pos_eq x) in A by auto. apply Rabs_le_inv in A. lra. Qed.
  Lemma coord_hi lr a b : (0 <= lr <= 1)%R -> (0 <= a)%R -> (0 <= b)%R -> (rnd (rnd (rnd (1 - lr) * a) + rnd (lr * b)) <= (1 + u) ^ 3 * ((1 - lr) * a + lr * b))%R.
  Proof.
    intros Hl H1 H2. assert (A1 := rnd_hi (1 - lr) ltac:(lra)). assert (A0 := rnd_nonneg (1 - lr) ltac:(lra)).
    assert (B1 := rnd_hi (rnd (1 - lr) * a) ltac:(nra)). assert (B0 := rnd_nonneg (rnd (1 - lr) * a) ltac:(nra)).
    assert (C1 := rnd_hi (lr * b) ltac:(nra)). assert (C0 := rnd_nonneg (lr * b) ltac:(nra)).
    assert (D1 := rnd_hi (rnd (rnd (1 - lr) * a) + rnd (lr * b)) ltac:(lra)).
    assert (E1 : (rnd (1 - lr) * a <= (1 + u) * (1 - lr) * a)%R) by (apply Rmult_le_compat_r; auto).
    assert (E2 : (rnd (rnd (1 - lr) * a) <= (1 + u) * ((1 + u) * (1 - lr) * a))%R) by (eapply Rle_trans; [exact B1|]; apply Rmult_le_compat_l; lra).
    assert (P : (0 <= lr * b)%R) by nra. assert (E3 : ((1 + u) * (lr * b) <= (1 + u) * ((1 + u) * (lr * b)))%R) by (apply Rmult_le_compat_l; [lra|]; nra).
    eapply Rle_trans; [exact D1|]. replace ((1 + u) ^ 3 * ((1 - lr) * a + lr * b))%R with ((1 + u) * ((1 + u) * ((1 + u) * (1 - lr) * a) + (1 + u) * ((1 + u) * (lr * b))))%R by ring.
    apply Rmult_le_compat_l; lra.
  Qed.
  Lemma coord_lo lr a b : (0 <= lr <= 1)%R -> (0 <= a)%R -> (0 <= b)%R -> ((1 - u) ^ 3 * ((1 - lr) * a + lr * b) <= rnd (rnd (rnd (1 - lr) * a) + rnd (lr * b)))%R.
  Proof.
    intros Hl H1 H2. assert (A1 := rnd_lo (1 - lr) ltac:(lra)). assert (A0 := rnd_nonneg (1 - lr) ltac:(lra)).
    assert (B1 := rnd_lo (rnd (1 - lr) * a) ltac:(nra)). assert (B0 := rnd_nonneg (rnd (1 - lr) * a) ltac:(nra)).
    assert (C1 := rnd_lo (lr * b) ltac:(nra)). assert (C0 := rnd_nonneg (lr * b) ltac:(nra)).
    assert (D1 := rnd_lo (rnd (rnd (1 - lr) * a) + rnd (lr * b)) ltac:(lra)).
    assert (E1 : ((1 - u) * (1 - lr) * a <= rnd (1 - lr) * a)%R) by (apply Rmult_le_compat_r; auto).
    assert (E2 : ((1 - u) * ((1 - u) * (1 - lr) * a) <= rnd (rnd (1 - lr) * a))%R) by (eapply Rle_trans; [|exact B1]; apply Rmult_le_compat_l; lra).
    assert (P : (0 <= lr * b)%R) by nra. assert (E3 : ((1 - u) * ((1 - u) * (lr * b)) <= (1 - u) * (lr * b))%R) by (apply Rmult_le_compat_l; [lra|]; nra).
    eapply Rle_trans; [|exact D1]. replace ((1 - u) ^ 3 * ((1 - lr) * a + lr * b))%R with ((1 - u) * ((1 - u) * ((1 - u) * (1 - lr) * a) + (1 - u) * ((1 - u) * (lr * b))))%R by ring.
    apply Rmult_le_compat_l; lra.
  Qed.
  Lemma dot_moved lr c x v : (0 <= lr <= 1)%R -> positive c -> nonneg x -> nonneg v -> length x = length c -> length v = length c ->
    ((1 - u) ^ 3 * ((1 - lr) * dot c x + lr * dot c v) <= dot c (moved_r lr x v) <= (1 + u) ^ 3 * ((1 - lr) * dot c x + lr * dot c v))%R.
  Proof.
    intros Hl Hc. revert x v. induction Hc as [|p c Hp _ IH]; intros x v Hx Hv L1 L2.
    - unfold dot. cbn. lra.
    - destruct x as [|a x]; [discriminate|]. destruct v as [|b v]; [discriminate|]. inversion Hx. inversion Hv. subst. change (moved_r lr (a :: x) (b :: v)) with (rnd (rnd (rnd (1 - lr) * a) + rnd (lr * b))%R :: moved_r lr x v). rewrite !dot_cons.
      destruct (IH x v) as (I1 & I2); auto. pose proof (coord_hi lr a b Hl ltac:(auto) ltac:(auto)) as G1. pose proof (coord_lo lr a b Hl ltac:(auto) ltac:(auto)) as G2.
      apply (Rmult_le_compat_l p) in G1; [|lra]. apply (Rmult_le_compat_l p) in G2; [|lra]. set (h := (1 + u)%R) in *. set (l := (1 - u)%R) in *. set (t := rnd (rnd (rnd (1 - lr) * a) + rnd (lr * b))) in *. clearbody h l t. split; nra.
  Qed.
  Lemma vertex_mass p b : (0 < p)%R -> (0 <= b)%R -> ((1 - u) ^ 2 * b <= p * rnd (rnd (1 / p) * b) <= (1 + u) ^ 2 * b)%R.
  Proof.
    intros Hp Hb. assert (I : (0 <= 1 / p)%R) by (apply Rmult_le_pos; [lra|]; left; now apply Rinv_0_lt_compat).
    assert (A1 := rnd_hi _ I). assert (A2 := rnd_lo _ I). assert (A0 := rnd_nonneg _ I). assert (B0 : (0 <= rnd (1 / p) * b)%R) by now apply Rmult_le_pos. assert (B1 := rnd_hi _ B0). assert (B2 := rnd_lo _ B0).
    assert (E : (p * (1 / p) = 1)%R) by (field; lra).
    assert (U1 : (p * rnd (1 / p) <= 1 + u)%R). { apply (Rmult_le_compat_l p) in A1; [|lra]. replace (p * ((1 + u) * (1 / p)))%R with ((1 + u) * (p * (1 / p)))%R in A1 by ring. rewrite E in A1. lra. }
    assert (L1 : (1 - u <= p * rnd (1 / p))%R). { apply (Rmult_le_compat_l p) in A2; [|lra]. replace (p * ((1 - u) * (1 / p)))%R with ((1 - u) * (p * (1 / p)))%R in A2 by ring. rewrite E in A2. lra. }
    set (q := rnd (1 / p)) in *. set (t := rnd (q * b)) in *. clearbody q t. split.
    - apply Rle_trans with (p * ((1 - u) * (q * b)))%R; [|apply Rmult_le_compat_l; lra]. replace (p * ((1 - u) * (q * b)))%R with ((1 - u) * b * (p * q))%R by ring. replace ((1 - u) ^ 2 * b)%R with ((1 - u) * b * (1 - u))%R by ring. apply Rmult_le_compat_l; auto. apply Rmult_le_pos; lra.
    - apply Rle_trans with (p * ((1 + u) * (q * b)))%R; [apply Rmult_le_compat_l; lra|]. replace (p * ((1 + u) * (q * b)))%R with ((1 + u) * b * (p * q))%R by ring. replace ((1 + u) ^ 2 * b)%R with ((1 + u) * b * (1 + u))%R by ring. apply Rmult_le_compat_l; auto. apply Rmult_le_pos; lra.
  Qed.
  Definition near (c : list R) (clb cub : R) (j : nat) (x : list R) : Prop :=
    length x = length c /\ nonneg x /\ (clb * (1 - u) ^ (3 * j + 2) <= dot c x <= cub * (1 + u) ^ (3 * j + 2))%R.
  Lemma pow_hi j : ((1 + u) ^ 2 <= (1 + u) ^ (3 * j + 2))%R.
  Proof. apply Rle_pow; [lra|lia]. Qed.
  Lemma pow_lo j : (0 <= (1 - u) ^ (3 * j + 2) <= (1 - u) ^ 2)%R.
  Proof. split; [apply pow_le; lra|]. rewrite pow_add. rewrite <- (Rmult_1_l ((1 - u) ^ 2)) at 2. apply Rmult_le_compat_r; [apply pow_le; lra|]. apply Rle_trans with (1 ^ (3 * j))%R; [apply pow_incr; lra|rewrite pow1; lra]. Qed.
  Lemma near_step c clb cub lr j x v i b : positive c -> (0 <= clb <= cub)%R -> (0 <= lr <= 1)%R -> near c clb cub j x -> length v = length c -> nonneg v -> i < length c -> (b = clb \/ b = cub) ->
    dot c v = (nth i c 0 * rnd (rnd (1 / nth i c 0) * b))%R -> near c clb cub (S j) (moved_r lr x v).
  Proof.
    intros Hc Hb Hl (L & N & B) Lv Nv Hi Eb Ev. split; [rewrite moved_length; congruence|]. split; [now apply moved_nonneg|].
    destruct (dot_moved lr c x v Hl Hc N Nv L Lv) as (D1 & D2). destruct (vertex_mass (nth i c 0%R) b) as (V1 & V2); [apply (proj1 (Forall_nth_R _ _) Hc); auto|destruct Eb; lra|]. rewrite <- Ev in V1, V2.
    pose proof (pow_hi j) as PH. pose proof (pow_lo j) as PL. replace (3 * S j + 2) with (3 + (3 * j + 2)) by lia. rewrite !(pow_add _ 3).
    set (h := ((1 + u) ^ (3 * j + 2))%R) in *. set (l := ((1 - u) ^ (3 * j + 2))%R) in *. assert (H3 : (0 <= (1 + u) ^ 3)%R) by (apply pow_le; lra). assert (L3 : (0 <= (1 - u) ^ 3)%R) by (apply pow_le; lra).
    assert (L2 : (0 <= (1 - u) ^ 2)%R) by (apply pow_le; lra). assert (H2 : (0 <= (1 + u) ^ 2)%R) by (apply pow_le; lra).
    set (h3 := ((1 + u) ^ 3)%R) in *. set (l3 := ((1 - u) ^ 3)%R) in *. set (h2 := ((1 + u) ^ 2)%R) in *. set (l2 := ((1 - u) ^ 2)%R) in *. clearbody h l h3 l3 h2 l2. split.
    - apply Rle_trans with (2 := D1). replace (clb * (l3 * l))%R with (l3 * (clb * l))%R by ring. apply Rmult_le_compat_l; auto.
      assert (V : (clb * l <= dot c v)%R). { apply Rle_trans with (2 := V1). apply Rle_trans with (l2 * clb)%R; [rewrite (Rmult_comm l2); apply Rmult_le_compat_l; lra|apply Rmult_le_compat_l; [auto|destruct Eb; lra]]. }
      assert ((1 - lr) * (clb * l) <= (1 - lr) * dot c x)%R by (apply Rmult_le_compat_l; lra). assert (lr * (clb * l) <= lr * dot c v)%R by (apply Rmult_le_compat_l; lra). lra.
    - apply Rle_trans with (1 := D2). replace (cub * (h3 * h))%R with (h3 * (cub * h))%R by ring. apply Rmult_le_compat_l; auto.
      assert (V : (dot c v <= cub * h)%R). { apply Rle_trans with (1 := V2). apply Rle_trans with (h2 * cub)%R; [apply Rmult_le_compat_l; [auto|destruct Eb; lra]|rewrite (Rmult_comm h2); apply Rmult_le_compat_l; lra]. }
      assert ((1 - lr) * dot c x <= (1 - lr) * (cub * h))%R by (apply Rmult_le_compat_l; lra). assert (lr * dot c v <= lr * (cub * h))%R by (apply Rmult_le_compat_l; lra). lra.
  Qed.
  Lemma near_first c clb cub x v i b : positive c -> (0 <= clb <= cub)%R -> length x = length c -> length v = length c -> nonneg v -> i < length c -> (b = clb \/ b = cub) ->
    dot c v = (nth i c 0 * rnd (rnd (1 / nth i c 0) * b))%R -> near c clb cub 1 (moved_r 1 x v).
  Proof.
    intros Hc Hb L Lv Nv Hi Eb Ev. set (z := map (fun _ => 0%R) x).
    assert (E : moved_r 1 x v = moved_r 1 z v). { destruct (moved_first x v) as (_ & ->); [congruence|auto|]. destruct (moved_first z v) as (_ & ->); [unfold z; rewrite map_length; congruence|auto|]. unfold z. now rewrite map_map. }
    rewrite E. assert (Nz : nonneg z). { unfold z. clear. induction x; constructor; auto; lra. } assert (Lz : length z = length c) by (unfold z; now rewrite map_length).
    split; [rewrite moved_length; congruence|]. split; [apply moved_nonneg; auto; lra|].
    destruct (dot_moved 1 c z v) as (D1 & D2); auto; try lra. destruct (vertex_mass (nth i c 0%R) b) as (V1 & V2); [apply (proj1 (Forall_nth_R _ _) Hc); auto|destruct Eb; lra|]. rewrite <- Ev in V1, V2.
    replace (3 * 1 + 2) with (3 + 2) by lia. rewrite !(pow_add _ 3 2). assert (H3 : (0 <= (1 + u) ^ 3)%R) by (apply pow_le; lra). assert (L3 : (0 <= (1 - u) ^ 3)%R) by (apply pow_le; lra).
    assert (L2 : (0 <= (1 - u) ^ 2)%R) by (apply pow_le; lra). assert (H2 : (0 <= (1 + u) ^ 2)%R) by (apply pow_le; lra).
    set (h3 := ((1 + u) ^ 3)%R) in *. set (l3 := ((1 - u) ^ 3)%R) in *. set (h2 := ((1 + u) ^ 2)%R) in *. set (l2 := ((1 - u) ^ 2)%R) in *. clearbody h3 l3 h2 l2.
    assert (W : ((1 - 1) * dot c z + 1 * dot c v = dot c v)%R) by ring. rewrite W in D1, D2. split.
    - apply Rle_trans with (2 := D1). replace (clb * (l3 * l2))%R with (l3 * (l2 * clb))%R by ring. apply Rmult_le_compat_l; auto. apply Rle_trans with (2 := V1). apply Rmult_le_compat_l; [auto|destruct Eb; lra].
    - apply Rle_trans with (1 := D2). replace (cub * (h3 * h2))%R with (h3 * (h2 * cub))%R by ring. apply Rmult_le_compat_l; auto. apply Rle_trans with (1 := V2). apply Rmult_le_compat_l; [auto|destruct Eb; lra].
  Qed.
  Lemma near_loop jac c clb cub : positive c -> (0 <= clb <= cub)%R ->
    forall n k x z, 1 <= k -> near c clb cub k x -> fwr_loop rnd jac c clb cub (S k) n x = Ok z -> near c clb cub (k + n) z.
  Proof.
    intros Hc Hb. induction n as [|n IH]; intros k x z Hk Hx H; cbn [fwr_loop] in H; [injection H as <-; now rewrite Nat.add_0_r|].
    apply bind_ok in H as [x' [H1 H]]. apply fwr_step_spec in H1 as (v & L1 & N1 & L2 & -> & i & b & Hi & Eb & Ev); auto. replace (k + S n) with (S k + n) by lia. revert H. apply IH; [lia|].
    eapply near_step; eauto. apply rnd_lr. lia.
  Qed.
  Lemma frank_wolfe_r_near jac c clb cub x0 n x : positive c -> (0 <= clb <= cub)%R -> 1 <= n -> frank_wolfe_r rnd jac c clb cub x0 n = Ok x -> near c clb cub n x.
  Proof.
    intros Hc Hb Hn H. destruct n as [|n]; [lia|]. unfold frank_wolfe_r in H. cbn [fwr_loop] in H. apply bind_ok in H as [x1 [H1 H]].
    apply fwr_step_spec in H1 as (v & L1 & N1 & L2 & -> & i & b & Hi & Eb & Ev); auto. rewrite rnd_lr1 in H. revert H. apply (near_loop jac c clb cub Hc Hb n 1); [lia|]. eapply near_first; eauto.
  Qed.
End FW.

(** In binary64 the returned point has no negative coordinate, whatever the gradients are. *)
Theorem C202_nonnegative : forall jac c clb cub x0 max_iter x, positive c -> (0 <= clb <= cub)%R -> 1 <= max_iter ->
  frank_wolfe_r f64 jac c clb cub x0 max_iter = Ok x -> length x = length c /\ nonneg x.
Proof. intros. eapply (frank_wolfe_r_nonneg f64 f64_ordered); eauto. Qed.
(** The linear constraint holds up to three roundings per iteration. *)
Theorem C202_constraint : forall rnd u jac c clb cub x0 max_iter x, ordered rnd -> accurate u rnd -> (0 <= u < 1)%R ->
  positive c -> (0 <= clb <= cub)%R -> 1 <= max_iter -> frank_wolfe_r rnd jac c clb cub x0 max_iter = Ok x ->
  (clb * (1 - u) ^ (3 * max_iter + 2) <= dot c x <= cub * (1 + u) ^ (3 * max_iter + 2))%R.
Proof. intros rnd u jac c clb cub x0 n x Ho Ha Hu Hc Hb Hn H. eapply (frank_wolfe_r_near rnd Ho u Hu Ha); eauto. Qed.
Lemma bernoulli u m : (0 <= u <= 1)%R -> (1 - INR m * u <= (1 - u) ^ m)%R.
Proof.
  intros H. induction m as [|m IH]; [cbn; lra|]. rewrite S_INR. cbn [pow]. assert (0 <= INR m)%R by apply pos_INR. assert (P : (0 <= (1 - u) ^ m)%R) by (apply pow_le; lra).
  destruct (Rle_lt_dec 0 (1 - INR m * u)) as [G|G].
  - apply Rle_trans with ((1 - u) * (1 - INR m * u))%R; [nra|]. apply Rmult_le_compat_l; lra.
  - assert (0 <= (1 - u) * (1 - u) ^ m)%R by (apply Rmult_le_pos; lra). nra.
Qed.
Lemma bernoulli_hi u m : (0 <= u <= 1)%R -> (INR m * u <= / 2)%R -> ((1 + u) ^ m <= 1 + 2 * (INR m * u))%R.
Proof.
  intros H Hm. pose proof (bernoulli u m H) as B. assert (E : ((1 - u) ^ m * (1 + u) ^ m <= 1)%R).
  { rewrite <- Rpow_mult_distr. apply Rle_trans with (1 ^ m)%R; [apply pow_incr; nra|rewrite pow1; lra]. }
  assert (0 <= INR m * u)%R by (apply Rmult_le_pos; [apply pos_INR|lra]). set (t := (INR m * u)%R) in *. set (a := ((1 - u) ^ m)%R) in *. set (b := ((1 + u) ^ m)%R) in *.
  assert (0 <= b)%R by (apply pow_le; lra). clearbody t a b. assert ((1 - t) * b <= 1)%R by nra. apply (Rmult_le_reg_l (1 - t)); [lra|]. nra.
Qed.
(** binary64 without underflow: after at most a million iterations the constraint holds to a relative 1e-9. *)
Theorem C202_million : forall jac c clb cub x0 max_iter x, positive c -> (0 <= clb <= cub)%R -> 1 <= max_iter -> (INR max_iter <= 1000000)%R ->
  frank_wolfe_r f53 jac c clb cub x0 max_iter = Ok x -> (clb * (1 - / 1000000000) <= dot c x <= cub * (1 + / 1000000000))%R.
Proof.
  intros jac c clb cub x0 n x Hc Hb Hn H6 H. set (u := (/ 2 * bpow radix2 (- 52))%R). assert (Hu : (0 <= u <= / 9000000000000000)%R) by (unfold u; cbn; lra).
  pose proof (C202_constraint f53 u jac c clb cub x0 n x f53_ordered f53_accurate ltac:(lra) Hc Hb Hn H) as (L & U).
  assert (E : (INR (3 * n + 2) = 3 * INR n + 2)%R) by (rewrite plus_INR, mult_INR; cbn; ring). assert (P := pos_INR n).
  assert (M : (0 <= INR (3 * n + 2) * u <= / 2000000000)%R). { rewrite E. split; [apply Rmult_le_pos; lra|]. apply Rle_trans with (3000002 * / 9000000000000000)%R; [apply Rmult_le_compat; lra|lra]. }
  pose proof (bernoulli u (3 * n + 2) ltac:(lra)) as B1. pose proof (bernoulli_hi u (3 * n + 2) ltac:(lra) ltac:(lra)) as B2. split.
  - apply Rle_trans with (2 := L). apply Rmult_le_compat_l; lra.
  - apply Rle_trans with (1 := U). apply Rmult_le_compat_l; lra.
Qed.
(** Without rounding this is the exact model of C08 to C10. *)
Theorem C202_no_rounding : forall jac c clb cub x0 max_iter, frank_wolfe_r (fun x => x) jac c clb cub x0 max_iter = frank_wolfe jac c clb cub x0 max_iter.
Proof.
  intros jac c clb cub x0 n. unfold frank_wolfe_r, frank_wolfe. assert (E : map (fun t => 1 / t)%R c = map Rinv c) by (apply map_ext; intros; unfold Rdiv; ring). rewrite E.
  generalize (match x0 with Some x => x | None => map (fun ic => ic * ((cub - clb) / 2) / INR (length c))%R (map Rinv c) end) as x. generalize 1 as k.
  induction n as [|n IH]; intros k x; cbn [fwr_loop fw_loop]; [reflexivity|]. assert (S1 : fwr_step (fun x => x) jac c clb cub k x = fw_step jac c clb cub k x).
  { unfold fwr_step, fw_step, fwr_vertex, fw_vertex. rewrite E. reflexivity. }
  rewrite S1. destruct (fw_step jac c clb cub k x) as [y|]; cbn [bind]; auto.
Qed.

(** Normalised weights: each in [0, 1] in binary64, in whatever order numpy adds. *)
Lemma add_up_f64 t : Forall is_f64 (leaves t) -> is_f64 (add_up f64 t).
Proof. destruct t; cbn; intros H; [now inversion H|apply f64_is]. Qed.
Lemma add_up_ge t : Forall is_f64 (leaves t) -> nonneg (leaves t) -> (0 <= add_up f64 t)%R /\ Forall (fun w => (w <= add_up f64 t)%R) (leaves t).
Proof.
  induction t as [w|a IHa b IHb]; cbn [leaves add_up]; intros F N; [inversion N; subst; split; auto; constructor; auto; lra|].
  apply Forall_app in F as (Fa & Fb). apply Forall_app in N as (Na & Nb). destruct (IHa Fa Na) as (A0 & A1). destruct (IHb Fb Nb) as (B0 & B1).
  assert (Ga : (add_up f64 a <= f64 (add_up f64 a + add_up f64 b))%R). { rewrite <- (f64_id (add_up f64 a)) at 1 by now apply add_up_f64. apply f64_le. lra. }
  assert (Gb : (add_up f64 b <= f64 (add_up f64 a + add_up f64 b))%R). { rewrite <- (f64_id (add_up f64 b)) at 1 by now apply add_up_f64. apply f64_le. lra. }
  split; [lra|]. apply Forall_app. split; eapply Forall_impl; try eassumption; cbn; intros; lra.
Qed.
Theorem C202_weights_in_range : forall t, Forall is_f64 (leaves t) -> nonneg (leaves t) -> Forall (fun w => (0 <= w <= 1)%R) (normalise_r f64 t).
Proof.
  intros t F N. destruct (add_up_ge t F N) as (S0 & S1). unfold normalise_r. destruct (Reqb (add_up f64 t) 0) eqn:E.
  - apply Reqb_iff in E. apply Forall_forall. intros w Hw. pose proof (proj1 (Forall_forall _ _) N w Hw) as H1. pose proof (proj1 (Forall_forall _ _) S1 w Hw) as H2. cbn beta in *. lra.
  - apply Reqb_false in E. apply Forall_forall. intros z Hz. apply in_map_iff in Hz as (w & <- & Hw). pose proof (proj1 (Forall_forall _ _) N w Hw) as H1. pose proof (proj1 (Forall_forall _ _) S1 w Hw) as H2. cbn beta in *.
    assert (P : (0 < add_up f64 t)%R) by lra. split.
    + rewrite <- (f64_int 0) by (cbn; lia). apply f64_le. apply Rmult_le_pos; auto. left. now apply Rinv_0_lt_compat.
    + rewrite <- (f64_int 1) by (cbn; lia). apply f64_le. apply (Rmult_le_reg_r (add_up f64 t)); auto. unfold Rdiv. rewrite Rmult_assoc, Rinv_l by lra. lra.
Qed.
(** Their sum is one up to one rounding per level of the additions. *)
Fixpoint depth (t : addition) : nat := match t with Leaf _ => 0 | Node a b => S (Nat.max (depth a) (depth b)) end.
Lemma add_up_close rnd u t : ordered rnd -> accurate u rnd -> (0 <= u < 1)%R -> nonneg (leaves t) ->
  ((1 - u) ^ depth t * vsum (leaves t) <= add_up rnd t <= (1 + u) ^ depth t * vsum (leaves t))%R.
Proof.
  intros Ho Ha Hu. induction t as [w|a IHa b IHb]; cbn [leaves add_up depth]; intros N; [cbn; lra|].
  apply Forall_app in N as (Na & Nb). destruct (IHa Na) as (A1 & A2). destruct (IHb Nb) as (B1 & B2). rewrite vsum_app.
  assert (Va := vsum_nonneg _ Na). assert (Vb := vsum_nonneg _ Nb). set (d := Nat.max (depth a) (depth b)).
  assert (PL : forall k, k <= d -> ((1 - u) ^ d <= (1 - u) ^ k)%R).
  { intros k Hk. replace d with (k + (d - k)) by lia. rewrite pow_add. rewrite <- (Rmult_1_r ((1 - u) ^ k)) at 2. apply Rmult_le_compat_l; [apply pow_le; lra|]. apply Rle_trans with (1 ^ (d - k))%R; [apply pow_incr; lra|rewrite pow1; lra]. }
  assert (PH : forall k, k <= d -> ((1 + u) ^ k <= (1 + u) ^ d)%R) by (intros; apply Rle_pow; [lra|auto]).
  assert (La := PL (depth a) ltac:(lia)). assert (Lb := PL (depth b) ltac:(lia)). assert (Ha' := PH (depth a) ltac:(lia)). assert (Hb' := PH (depth b) ltac:(lia)).
  assert (Z0 : (0 <= (1 - u) ^ d)%R) by (apply pow_le; lra).
  assert (A3 : ((1 - u) ^ d * vsum (leaves a) <= add_up rnd a <= (1 + u) ^ d * vsum (leaves a))%R) by (split; [eapply Rle_trans; [|exact A1]|eapply Rle_trans; [exact A2|]]; apply Rmult_le_compat_r; auto).
  assert (B3 : ((1 - u) ^ d * vsum (leaves b) <= add_up rnd b <= (1 + u) ^ d * vsum (leaves b))%R) by (split; [eapply Rle_trans; [|exact B1]|eapply Rle_trans; [exact B2|]]; apply Rmult_le_compat_r; auto).
  assert (S0 : (0 <= add_up rnd a + add_up rnd b)%R). { assert (0 <= (1 - u) ^ d * vsum (leaves a))%R by now apply Rmult_le_pos. assert (0 <= (1 - u) ^ d * vsum (leaves b))%R by now apply Rmult_le_pos. lra. }
  pose proof (rnd_hi rnd u Ha _ S0) as U1. pose proof (rnd_lo rnd u Ha _ S0) as L1. cbn [pow]. rewrite !Rmult_assoc. split.
  - apply Rle_trans with (2 := L1). apply Rmult_le_compat_l; lra.
  - apply Rle_trans with (1 := U1). apply Rmult_le_compat_l; lra.
Qed.
Theorem C202_weights_sum : forall rnd u t, ordered rnd -> accurate u rnd -> (0 <= u < 1)%R -> nonneg (leaves t) -> (0 < vsum (leaves t))%R ->
  ((1 - u) / (1 + u) ^ depth t <= vsum (normalise_r rnd t) <= (1 + u) / (1 - u) ^ depth t)%R.
Proof.
  intros rnd u t Ho Ha Hu N V. destruct (add_up_close rnd u t Ho Ha Hu N) as (L & U). assert (PL : (0 < (1 - u) ^ depth t)%R) by (apply pow_lt; lra). assert (PH : (0 < (1 + u) ^ depth t)%R) by (apply pow_lt; lra).
  assert (SP : (0 < add_up rnd t)%R) by (apply Rlt_le_trans with (2 := L); now apply Rmult_lt_0_compat). unfold normalise_r. destruct (Reqb (add_up rnd t) 0) eqn:E; [apply Reqb_iff in E; lra|]. clear E.
  assert (G : ((1 - u) * (vsum (leaves t) / add_up rnd t) <= vsum (map (fun w => rnd (w / add_up rnd t)) (leaves t)) <= (1 + u) * (vsum (leaves t) / add_up rnd t))%R).
  { set (s := add_up rnd t) in *. clearbody s. clear L U V. induction N as [|w l Hw _ IH]; cbn [map vsum]; [unfold Rdiv; lra|].
    assert (Q : (0 <= w / s)%R) by (apply Rmult_le_pos; auto; left; now apply Rinv_0_lt_compat). pose proof (rnd_hi rnd u Ha _ Q). pose proof (rnd_lo rnd u Ha _ Q).
    replace ((w + vsum l) / s)%R with (w / s + vsum l / s)%R by (field; lra). lra. }
  set (s := add_up rnd t) in *. set (v := vsum (leaves t)) in *. destruct G as (G1 & G2). split.
  - apply Rle_trans with (2 := G1). unfold Rdiv at 1. apply Rmult_le_compat_l; [lra|]. apply (Rmult_le_reg_r ((1 + u) ^ depth t * s)); [now apply Rmult_lt_0_compat|].
    replace (/ (1 + u) ^ depth t * ((1 + u) ^ depth t * s))%R with s by (field; lra). replace (v / s * ((1 + u) ^ depth t * s))%R with ((1 + u) ^ depth t * v)%R by (field; lra). exact U.
  - apply Rle_trans with (1 := G2). unfold Rdiv at 2. apply Rmult_le_compat_l; [lra|]. apply (Rmult_le_reg_r ((1 - u) ^ depth t * s)); [now apply Rmult_lt_0_compat|].
    replace (/ (1 - u) ^ depth t * ((1 - u) ^ depth t * s))%R with s by (field; lra). replace (v / s * ((1 - u) ^ depth t * s))%R with ((1 - u) ^ depth t * v)%R by (field; lra). exact L.
Qed.

(** ** C203: interpolation in floating point. *)
(** Step [s] of [n]: the point at s/n of the way, up to three roundings. *)
Theorem C203_accurate : forall rnd u n s x y, ordered rnd -> accurate u rnd -> (0 <= u)%R -> (0 < n)%Z -> (0 <= s <= n)%Z ->
  let t := (IZR s / IZR n)%R in
  (Rabs (interpolate_r rnd n s x y - ((1 - t) * x + t * y)) <= ((1 + u) ^ 3 - 1) * ((1 - t) * Rabs x + t * Rabs y))%R.
Proof.
  intros rnd u n s x y Ho Ha Hu Hn Hs t. assert (N : (0 < IZR n)%R) by (apply IZR_lt; lia). assert (S0 : (0 <= IZR s <= IZR n)%R) by (split; apply IZR_le; lia).
  assert (T : (0 <= t <= 1)%R). { unfold t. split; [apply Rmult_le_pos; [lra|left; now apply Rinv_0_lt_compat]|]. apply (Rmult_le_reg_r (IZR n)); auto. unfold Rdiv. rewrite Rmult_assoc, Rinv_l by lra. lra. }
  assert (Half : forall a w, (0 <= a)%R -> (Rabs (rnd (rnd (a * w) / IZR n) - a / IZR n * w) <= ((1 + u) ^ 2 - 1) * (a / IZR n * Rabs w))%R).
  { intros a w Ha0. assert (I0 : (0 < / IZR n)%R) by now apply Rinv_0_lt_compat. pose proof (Ha (a * w)%R) as E1. pose proof (Ha (rnd (a * w) / IZR n)%R) as E2. set (p := rnd (a * w)%R) in *. set (q := rnd (p / IZR n)%R) in *.
    assert (AW : Rabs (a * w) = (a * Rabs w)%R) by (rewrite Rabs_mult, (Rabs_pos_eq a); auto). rewrite AW in E1.
    assert (PN : Rabs (p / IZR n) = (Rabs p / IZR n)%R) by (unfold Rdiv; rewrite Rabs_mult, (Rabs_pos_eq (/ IZR n)); lra). rewrite PN in E2.
    assert (PB : (Rabs p <= (1 + u) * (a * Rabs w))%R). { replace p with ((p - a * w) + a * w)%R by ring. eapply Rle_trans; [apply Rabs_triang|]. rewrite AW. lra. }
    replace (q - a / IZR n * w)%R with ((q - p / IZR n) + (p - a * w) / IZR n)%R by (field; lra). eapply Rle_trans; [apply Rabs_triang|].
    assert (PD : Rabs ((p - a * w) / IZR n) = (Rabs (p - a * w) / IZR n)%R) by (unfold Rdiv; rewrite Rabs_mult, (Rabs_pos_eq (/ IZR n)); lra). rewrite PD.
    apply Rle_trans with (u * ((1 + u) * (a * Rabs w) / IZR n) + u * (a * Rabs w) / IZR n)%R.
    - apply Rplus_le_compat.
      + apply Rle_trans with (1 := E2). apply Rmult_le_compat_l; auto. apply Rmult_le_compat_r; lra.
      + apply Rmult_le_compat_r; lra.
    - right. field. lra. }
  unfold interpolate_r. pose proof (Half (IZR (n - s)) x ltac:(rewrite minus_IZR; lra)) as H1. pose proof (Half (IZR s) y ltac:(lra)) as H2.
  assert (E1 : (IZR (n - s) / IZR n = 1 - t)%R) by (unfold t; rewrite minus_IZR; field; lra). rewrite E1 in H1. fold t in H2.
  set (A := rnd (rnd (IZR (n - s) * x) / IZR n)%R) in *. set (B := rnd (rnd (IZR s * y) / IZR n)%R) in *. pose proof (Ha (A + B)%R) as H3. set (z := rnd (A + B)%R) in *.
  set (M := ((1 - t) * Rabs x + t * Rabs y)%R). assert (M0 : (0 <= M)%R) by (unfold M; pose proof (Rabs_pos x); pose proof (Rabs_pos y); nra).
  assert (D : (Rabs (A + B - ((1 - t) * x + t * y)) <= ((1 + u) ^ 2 - 1) * M)%R).
  { replace (A + B - ((1 - t) * x + t * y))%R with ((A - (1 - t) * x) + (B - t * y))%R by ring. eapply Rle_trans; [apply Rabs_triang|]. unfold M. lra. }
  assert (C : (Rabs ((1 - t) * x + t * y) <= M)%R). { eapply Rle_trans; [apply Rabs_triang|]. rewrite !Rabs_mult, (Rabs_pos_eq (1 - t)), (Rabs_pos_eq t) by lra. unfold M. lra. }
  assert (AB : (Rabs (A + B) <= (1 + u) ^ 2 * M)%R). { replace (A + B)%R with ((A + B - ((1 - t) * x + t * y)) + ((1 - t) * x + t * y))%R by ring. eapply Rle_trans; [apply Rabs_triang|]. lra. }
  replace (z - ((1 - t) * x + t * y))%R with ((z - (A + B)) + (A + B - ((1 - t) * x + t * y)))%R by ring. eapply Rle_trans; [apply Rabs_triang|].
  apply Rle_trans with (u * ((1 + u) ^ 2 * M) + ((1 + u) ^ 2 - 1) * M)%R; [|right; ring]. apply Rplus_le_compat; auto. apply Rle_trans with (1 := H3). now apply Rmult_le_compat_l.
Qed.
(** The last step is the target exactly when the number of steps is a power of two (no underflow). *)
Theorem C203_power_of_two : forall p x y, (0 <= p)%Z -> generic_format radix2 (FLX_exp 53) y -> interpolate_r f53 (2 ^ p) (2 ^ p) x y = y.
Proof.
  intros p x y Hp Fy. unfold interpolate_r. rewrite Z.sub_diag, Rmult_0_l. destruct f53_ordered as (_ & Z0 & _). rewrite Z0. unfold Rdiv at 1. rewrite Rmult_0_l, Z0, Rplus_0_l.
  assert (E : IZR (2 ^ p) = bpow radix2 p) by (rewrite <- IZR_Zpower by auto; reflexivity). rewrite E. assert (B := bpow_gt_0 radix2 p).
  assert (I : forall z, generic_format radix2 (FLX_exp 53) z -> f53 z = z) by (intros; apply round_generic; auto with typeclass_instances).
  rewrite (I (bpow radix2 p * y)%R) by (rewrite Rmult_comm; now apply mult_bpow_exact_FLX). replace (bpow radix2 p * y / bpow radix2 p)%R with y by (field; lra). rewrite (I y Fy). exact (I y Fy).
Qed.
(** With the default of ten steps it is not: the last intermediate sample for the target 5/11 differs from it in the last place. *)
Theorem C203_last_step_refuted : forall x, is_f64 (f64 (5 / 11)) /\ interpolate_r f64 10 10 x (f64 (5 / 11)) <> f64 (5 / 11).
Proof.
  intros x. split; [apply f64_is|]. unfold interpolate_r. rewrite Z.sub_diag, Rmult_0_l. assert (Z0 : f64 0 = 0%R) by (apply (f64_int 0); cbn; lia). rewrite Z0. unfold Rdiv at 1. rewrite Rmult_0_l, Z0, Rplus_0_l.
  rewrite (f64_eval (5 / 11)%R 8188362958855447 (-54)); [|lia|cbn; lra|cbn; apply Rabs_def1; lra].
  rewrite (f64_eval (10 * _)%R 5117726849284654 (-50)); [|lia|cbn; lra|cbn; apply Rabs_def1; lra].
  rewrite (f64_eval (_ / 10)%R 8188362958855446 (-54)); [|lia|cbn; lra|cbn; apply Rabs_def1; lra].
  rewrite (f64_eval _ 8188362958855446 (-54)); [|lia|cbn; lra|cbn; apply Rabs_def1; lra]. cbn. lra.
Qed.

(** ** Examples *)
Example C201_ex : int_times 10 (f64 (8 / 10)) = 8%Z /\ (0 <= f64 (8 / 10) <= 1)%R /\ int_times 7 (1 / 2) = 3%Z.
Proof.
  assert (E : f64 (8 / 10) = (7205759403792794 * bpow radix2 (-53))%R) by (apply (f64_eval (8 / 10)%R 7205759403792794 (-53)); [lia|cbn; lra|cbn; apply Rabs_def1; lra]).
  rewrite E. split; [|split; [cbn; lra|]].
  - unfold int_times. rewrite (f64_eval _ 4503599627370496 (-49)); [|lia|cbn; lra|cbn; apply Rabs_def1; lra]. rewrite Ztrunc_floor by (cbn; lra). apply Zfloor_imp. cbn. lra.
  - unfold int_times. rewrite (f64_eval _ 7881299347898368 (-51)); [|lia|cbn; lra|cbn; apply Rabs_def1; lra]. rewrite Ztrunc_floor by (cbn; lra). apply Zfloor_imp. cbn. lra.
Qed.
(** It does return when the gradient has the right shape. *)
Theorem C202_returns : forall rnd jac c clb cub x0 max_iter, c <> [] -> (forall x, x0 = Some x -> length x = length c) ->
  (forall x, length x = length c -> exists g, jac x = Ok g /\ length g = length c) -> exists x, frank_wolfe_r rnd jac c clb cub x0 max_iter = Ok x.
Proof.
  intros rnd jac c clb cub x0 n Hc Hx Hj. unfold frank_wolfe_r.
  set (x := match x0 with Some x => x | None => _ end). assert (L : length x = length c). { unfold x. destruct x0 as [y|]; auto. now rewrite !map_length. } clearbody x.
  revert L. generalize 1 as k. revert x. induction n as [|n IH]; intros x k L; cbn [fwr_loop]; [eauto|].
  destruct (Hj x L) as (g & Eg & Lg). assert (S : exists v, fwr_vertex rnd c clb cub g = Ok v /\ length v = length c).
  { unfold fwr_vertex. rewrite np_map2_eq by (rewrite map_length; auto). cbn [bind]. destruct (np_argmin_total (map2 (fun a b => rnd (a * b)%R) g (map (fun t => rnd (1 / t)%R) c))) as [i ->].
    { destruct g, c; try discriminate; try contradiction. }
    cbn [bind]. destruct (Rleb 0 _); eexists; (split; [reflexivity|]); now rewrite update_length, repeat_length. }
  destruct S as (v & Ev & Lv). unfold fwr_step. rewrite Eg. cbn [bind]. rewrite Ev. cbn [bind]. rewrite np_map2_eq by (rewrite !map_length; congruence). cbn [bind]. apply IH. rewrite map2_length; rewrite !map_length; congruence.
Qed.
(** 1000 steps for 1/2 |x|^2 on { x >= 0, 1 <= x1 + 3 x2 <= 2 }; four weights added pairwise. *)
Example C202_ex : (exists x, frank_wolfe_r f64 (fun x => Ok x) [1; 3]%R 1 2 None 1000 = Ok x /\ nonneg x) /\
  (exists x, frank_wolfe_r f53 (fun x => Ok x) [1; 3]%R 1 2 None 1000 = Ok x /\ (1 - / 1000000000 <= dot [1; 3] x <= 2 * (1 + / 1000000000))%R) /\
  Forall (fun w => (0 <= w <= 1)%R) (normalise_r f64 (Node (Node (Leaf 1) (Leaf 2)) (Node (Leaf 0) (Leaf 7)))).
Proof.
  assert (P : positive [1; 3]%R) by (repeat constructor; lra). split; [|split].
  - destruct (C202_returns f64 (fun x => Ok x) [1; 3]%R 1 2 None 1000) as (x & E); [discriminate|discriminate|eauto|]. exists x. split; [exact E|]. apply (C202_nonnegative _ _ _ _ _ _ x P) in E; [apply E|lra|lia].
  - destruct (C202_returns f53 (fun x => Ok x) [1; 3]%R 1 2 None 1000) as (x & E); [discriminate|discriminate|eauto|]. exists x. split; [exact E|]. apply (C202_million _ _ _ _ _ _ x P) in E; [lra|lra|lia|]. rewrite INR_IZR_INZ. apply IZR_le. lia.
  - apply C202_weights_in_range; [|repeat constructor; lra]. repeat constructor; apply int_f64; cbn; lia.
Qed.
Example C203_ex : interpolate_r f64 10 5 0 1 = (1 / 2)%R /\ interpolate_r f53 8 8 5 (3 / 4) = (3 / 4)%R.
Proof.
  split.
  - unfold interpolate_r. cbn [Z.sub Z.opp Z.add Z.pos_sub Pos.sub]. rewrite Rmult_0_r, Rmult_1_r. rewrite !(f64_int 0), (f64_int 5) by (cbn; lia). unfold Rdiv at 1. rewrite Rmult_0_l. rewrite (f64_int 0) by (cbn; lia).
    rewrite (f64_eval (5 / 10)%R 4503599627370496 (-53)); [|lia|cbn; lra|cbn; apply Rabs_def1; lra]. rewrite (f64_eval _ 4503599627370496 (-53)); [|lia|cbn; lra|cbn; apply Rabs_def1; lra]. cbn. lra.
  - apply (C203_power_of_two 3); [lia|]. apply generic_format_FLX. exists (Float radix2 3 (-2)); [unfold F2R; cbn; lra|cbn; lia].
Qed.
