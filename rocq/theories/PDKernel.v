(** Positive definite kernels on finitely many points, and the kernel exp(-a |x - y|) on lists of reals. *)
From Coq Require Import List ZArith Bool Arith Lia Reals Lra.
From Verif Require Import Np RVec RVecFacts.
Import ListNotations.
Local Open Scope R_scope.

Lemma Rabs_le_inv a b : Rabs a <= b -> - b <= a <= b.
Proof. unfold Rabs. destruct (Rcase_abs a); lra. Qed.
(** Elementary sums. *)
Lemma dot_app u1 : forall v1 u2 v2, length u1 = length v1 -> dot (u1 ++ u2) (v1 ++ v2) = dot u1 v1 + dot u2 v2.
Proof.
  induction u1 as [|a u IH]; intros [|b v] u2 v2 H; try discriminate.
  - cbn [app]. unfold dot at 2. cbn. ring.
  - cbn [app]. rewrite !dot_cons, IH by (cbn in H; lia). ring.
Qed.

Definition tensor_prod (u v : list R) : list R := concat (map (fun a => vscale a v) u).
Lemma tensor_length u v : length (tensor_prod u v) = (length u * length v)%nat.
Proof. unfold tensor_prod. induction u as [|a u IH]; [reflexivity|]. cbn [map concat]. rewrite app_length, vscale_length, IH. reflexivity. Qed.
Lemma dot_tensor u : forall u' v v', length v = length v' -> length u = length u' -> dot (tensor_prod u v) (tensor_prod u' v') = dot u u' * dot v v'.
Proof.
  unfold tensor_prod. induction u as [|a u IH]; intros [|b u'] v v' L L'; try discriminate.
  - cbn. unfold dot. cbn. ring.
  - cbn [map concat]. rewrite dot_app by (rewrite !vscale_length; auto). rewrite dot_scale_l, dot_scale_r, dot_cons, IH by (cbn in L'; auto; lia). ring.
Qed.

Section PD.
  Context {A : Type}.
  Variable pts : list A.

  (** [K] is, on the points, a limit of inner products of finite-dimensional feature vectors. *)
  Definition pd (K : A -> A -> R) : Prop :=
    forall e, 0 < e -> exists (m : nat) (f : A -> list R), (forall x, In x pts -> length (f x) = m) /\
      forall x y, In x pts -> In y pts -> Rabs (dot (f x) (f y) - K x y) <= e.

  Lemma pd_ext K K' : (forall x y, In x pts -> In y pts -> K x y = K' x y) -> pd K -> pd K'.
  Proof. intros E H e He. destruct (H e He) as (m & f & L & C). exists m, f. split; auto. intros x y Hx Hy. rewrite <- E; auto. Qed.

  Lemma pd_lim K : (forall e, 0 < e -> exists K', pd K' /\ forall x y, In x pts -> In y pts -> Rabs (K' x y - K x y) <= e) -> pd K.
  Proof.
    intros H e He. destruct (H (e / 2)) as (K' & P & C); [lra|]. destruct (P (e / 2)) as (m & f & L & D); [lra|]. exists m, f. split; auto.
    intros x y Hx Hy. specialize (C x y Hx Hy). specialize (D x y Hx Hy).
    replace (dot (f x) (f y) - K x y) with ((dot (f x) (f y) - K' x y) + (K' x y - K x y)) by ring.
    apply Rle_trans with (1 := Rabs_triang _ _). lra.
  Qed.

  Lemma pd_gram (m : nat) (f : A -> list R) : (forall x, In x pts -> length (f x) = m) -> pd (fun x y => dot (f x) (f y)).
  Proof. intros L e He. exists m, f. split; auto. intros. rewrite Rminus_diag_eq by reflexivity. rewrite Rabs_R0. lra. Qed.

  Lemma pd_const c : 0 <= c -> pd (fun _ _ => c).
  Proof.
    intros Hc. apply (pd_ext (fun _ _ => dot [sqrt c] [sqrt c])); [|apply (pd_gram 1); auto].
    intros _ _ _ _. rewrite dot_cons. unfold dot. cbn. rewrite sqrt_sqrt by auto. ring.
  Qed.

  Lemma pd_add K1 K2 : pd K1 -> pd K2 -> pd (fun x y => K1 x y + K2 x y).
  Proof.
    intros H1 H2 e He. destruct (H1 (e / 2)) as (m1 & f1 & L1 & C1); [lra|]. destruct (H2 (e / 2)) as (m2 & f2 & L2 & C2); [lra|].
    exists (m1 + m2)%nat, (fun x => f1 x ++ f2 x). split; [intros; rewrite app_length, L1, L2; auto|].
    intros x y Hx Hy. rewrite dot_app by (rewrite !L1; auto). specialize (C1 x y Hx Hy). specialize (C2 x y Hx Hy).
    replace (dot (f1 x) (f1 y) + dot (f2 x) (f2 y) - (K1 x y + K2 x y)) with ((dot (f1 x) (f1 y) - K1 x y) + (dot (f2 x) (f2 y) - K2 x y)) by ring.
    apply Rle_trans with (1 := Rabs_triang _ _). lra.
  Qed.

  (** Values on finitely many points are bounded. *)
  Lemma bounded1 (g : A -> R) : forall l : list A, exists B, 0 <= B /\ forall x, In x l -> Rabs (g x) <= B.
  Proof.
    induction l as [|a l (B & HB & H)]; [exists 0; split; [lra|contradiction]|]. exists (Rmax B (Rabs (g a))). split.
    - apply Rle_trans with B; auto. apply Rmax_l.
    - intros x [->|Hx]; [apply Rmax_r|]. apply Rle_trans with B; auto. apply Rmax_l.
  Qed.
  Lemma bounded2 (K : A -> A -> R) : exists B, 0 <= B /\ forall x y, In x pts -> In y pts -> Rabs (K x y) <= B.
  Proof.
    assert (G : forall l : list A, exists B, 0 <= B /\ forall x y, In x l -> In y pts -> Rabs (K x y) <= B).
    { induction l as [|a l (B & HB & H)]; [exists 0; split; [lra|contradiction]|]. destruct (bounded1 (K a) pts) as (B' & HB' & H').
      exists (Rmax B B'). split; [apply Rle_trans with B; auto; apply Rmax_l|].
      intros x y [->|Hx] Hy; [apply Rle_trans with B'; auto; apply Rmax_r|apply Rle_trans with B; auto; apply Rmax_l]. }
    apply G.
  Qed.

  Lemma pd_mul K1 K2 : pd K1 -> pd K2 -> pd (fun x y => K1 x y * K2 x y).
  Proof.
    intros H1 H2. destruct (bounded2 K1) as (B1 & P1 & Q1). destruct (bounded2 K2) as (B2 & P2 & Q2).
    intros e He. set (d := Rmin 1 (e / (B1 + B2 + 2))). assert (Hd : 0 < d) by (apply Rmin_pos; [lra|apply Rdiv_lt_0_compat; lra]).
    destruct (H1 d Hd) as (m1 & f1 & L1 & C1). destruct (H2 d Hd) as (m2 & f2 & L2 & C2).
    exists (m1 * m2)%nat, (fun x => tensor_prod (f1 x) (f2 x)). split; [intros; rewrite tensor_length, L1, L2; auto|].
    intros x y Hx Hy. rewrite dot_tensor by (rewrite ?L1, ?L2; auto). specialize (C1 x y Hx Hy). specialize (C2 x y Hx Hy).
    specialize (Q1 x y Hx Hy). specialize (Q2 x y Hx Hy). set (a := dot (f1 x) (f1 y)) in *. set (b := dot (f2 x) (f2 y)) in *.
    set (k1 := K1 x y) in *. set (k2 := K2 x y) in *.
    assert (D1 : d <= 1) by apply Rmin_l. assert (D2 : d * (B1 + B2 + 2) <= e).
    { apply Rle_trans with (e / (B1 + B2 + 2) * (B1 + B2 + 2)); [apply Rmult_le_compat_r; [lra|apply Rmin_r]|]. right. field. lra. }
    replace (a * b - k1 * k2) with ((a - k1) * (b - k2) + ((a - k1) * k2 + k1 * (b - k2))) by ring.
    apply Rle_trans with (1 := Rabs_triang _ _). apply Rle_trans with (d * d + (d * B2 + B1 * d)).
    - apply Rplus_le_compat; [rewrite Rabs_mult; apply Rmult_le_compat; auto using Rabs_pos|]. apply Rle_trans with (1 := Rabs_triang _ _).
      apply Rplus_le_compat; rewrite Rabs_mult; apply Rmult_le_compat; auto using Rabs_pos.
    - apply Rle_trans with (2 := D2). nra.
  Qed.

  Lemma pd_scale (g : A -> R) K : pd K -> pd (fun x y => g x * g y * K x y).
  Proof.
    intros H. apply (pd_mul (fun x y => g x * g y) K); auto. apply (pd_ext (fun x y => dot [g x] [g y])).
    - intros. rewrite dot_cons. unfold dot. cbn. ring.
    - now apply (pd_gram 1).
  Qed.
  Lemma pd_cmul c K : 0 <= c -> pd K -> pd (fun x y => c * K x y).
  Proof. intros Hc H. apply (pd_mul (fun _ _ => c) K); auto. now apply pd_const. Qed.
  Lemma pd_pow K n : pd K -> pd (fun x y => K x y ^ n).
  Proof. intros H. induction n as [|n IH]; [apply (pd_const 1); lra|]. cbn [pow]. now apply (pd_mul K (fun x y => K x y ^ n)). Qed.
  Lemma pd_sum (Ks : nat -> A -> A -> R) n : (forall i, pd (Ks i)) -> pd (fun x y => sum_f_R0 (fun i => Ks i x y) n).
  Proof. intros H. induction n as [|n IH]; cbn [sum_f_R0]; auto. now apply (pd_add (fun x y => sum_f_R0 (fun i => Ks i x y) n) (Ks (S n))). Qed.

  (** Uniform index of convergence on the points. *)
  Lemma uniform_index (U : nat -> A -> A -> R) (K : A -> A -> R) : (forall x y, In x pts -> In y pts -> Un_cv (fun n => U n x y) (K x y)) ->
    forall e, 0 < e -> exists n, forall x y, In x pts -> In y pts -> Rabs (U n x y - K x y) <= e.
  Proof.
    intros H e He.
    assert (G1 : forall x, In x pts -> forall l, incl l pts -> exists N, forall n, (N <= n)%nat -> forall y, In y l -> Rabs (U n x y - K x y) <= e).
    { intros x Hx. induction l as [|a l IH]; intros I; [exists 0%nat; contradiction|]. destruct IH as [N HN]; [intros z Hz; apply I; cbn; auto|].
      destruct (H x a Hx (I a (or_introl eq_refl)) e He) as [N' HN']. exists (Nat.max N N'). intros n Hn y [->|Hy]; [|apply HN; auto; lia].
      left. apply HN'. lia. }
    assert (G2 : forall l, incl l pts -> exists N, forall n, (N <= n)%nat -> forall x y, In x l -> In y pts -> Rabs (U n x y - K x y) <= e).
    { induction l as [|a l IH]; intros I; [exists 0%nat; contradiction|]. destruct IH as [N HN]; [intros z Hz; apply I; cbn; auto|].
      destruct (G1 a (I a (or_introl eq_refl)) pts (incl_refl _)) as [N' HN']. exists (Nat.max N N'). intros n Hn x y [->|Hx] Hy; [apply HN'; auto; lia|apply HN; auto; lia]. }
    destruct (G2 pts (incl_refl _)) as [N HN]. exists N. intros. now apply HN.
  Qed.
  Lemma pd_cv (U : nat -> A -> A -> R) K : (forall n, pd (U n)) -> (forall x y, In x pts -> In y pts -> Un_cv (fun n => U n x y) (K x y)) -> pd K.
  Proof. intros P H. apply pd_lim. intros e He. destruct (uniform_index U K H e He) as [n Hn]. exists (U n). split; auto. Qed.

  Lemma pd_exp K : pd K -> pd (fun x y => exp (K x y)).
  Proof.
    intros H. apply (pd_cv (fun n x y => E1 (K x y) n)); [|intros; apply E1_cvg].
    intros n. unfold E1. apply (pd_sum (fun i x y => / INR (fact i) * K x y ^ i)). intros i.
    apply (pd_cmul _ (fun x y => K x y ^ i)); [|now apply pd_pow]. left. apply Rinv_0_lt_compat, lt_0_INR, lt_O_fact.
  Qed.

  (** 1 - sqrt(1 - g) as a limit: q := (g + q^2) / 2 from 0. *)
  Fixpoint iter_q (g : R) (n : nat) : R := match n with 0%nat => 0 | S m => (g + iter_q g m * iter_q g m) / 2 end.
  Lemma iter_q_bound g n : 0 <= g <= 1 -> let L := 1 - sqrt (1 - g) in 0 <= iter_q g n <= L /\ L - iter_q g n <= 2 / (INR n + 2).
  Proof.
    intros Hg L. assert (SS : sqrt (1 - g) * sqrt (1 - g) = 1 - g) by (apply sqrt_sqrt; lra). pose proof (sqrt_pos (1 - g)) as SP.
    assert (HL : L * L = 2 * L - g) by (unfold L; nra). assert (L0 : 0 <= L <= 1).
    { unfold L. split; [|lra]. assert (sqrt (1 - g) <= sqrt 1) by (apply sqrt_le_1; lra). rewrite sqrt_1 in *. lra. }
    clearbody L. induction n as [|n [[I1 I2] I3]].
    - cbn. split; [lra|]. unfold Rdiv. rewrite Rplus_0_l, Rinv_r by lra. lra.
    - cbn [iter_q]. set (q := iter_q g n) in *. split; [split; nra|]. rewrite S_INR. set (N := INR n) in *. assert (HN : 0 <= N) by apply pos_INR.
      set (e := L - q) in *. assert (E : L - (g + q * q) / 2 = e * L - e * e / 2) by (unfold e; nra). rewrite E.
      assert (He : 0 <= e <= 1) by (unfold e; lra). apply Rle_trans with (e - e * e / 2); [nra|]. set (b := 2 / (N + 2)) in *.
      assert (Hb : 0 < b <= 1). { unfold b. split; [apply Rdiv_lt_0_compat; lra|]. apply Rmult_le_reg_r with (N + 2); [lra|]. unfold Rdiv. rewrite Rmult_assoc, Rinv_l by lra. lra. }
      apply Rle_trans with (b - b * b / 2); [nra|]. unfold b. replace (2 / (N + 2) - 2 / (N + 2) * (2 / (N + 2)) / 2) with (2 * (N + 1) / ((N + 2) * (N + 2))) by (field; lra).
      apply Rmult_le_reg_r with ((N + 2) * (N + 2) * (N + 1 + 2)); [apply Rmult_lt_0_compat; nra|].
      replace (2 * (N + 1) / ((N + 2) * (N + 2)) * ((N + 2) * (N + 2) * (N + 1 + 2))) with (2 * (N + 1) * (N + 1 + 2)) by (field; lra).
      replace (2 / (N + 1 + 2) * ((N + 2) * (N + 2) * (N + 1 + 2))) with (2 * ((N + 2) * (N + 2))) by (field; lra). nra.
  Qed.
  Lemma pd_one_minus_sqrt K : pd K -> (forall x y, In x pts -> In y pts -> 0 <= K x y <= 1) -> pd (fun x y => 1 - sqrt (1 - K x y)).
  Proof.
    intros H B. apply (pd_cv (fun n x y => iter_q (K x y) n)).
    - induction n as [|n IH]; [apply (pd_const 0); lra|]. cbn [iter_q].
      apply (pd_ext (fun x y => / 2 * (K x y + iter_q (K x y) n * iter_q (K x y) n))); [intros; unfold Rdiv; ring|].
      apply (pd_cmul (/ 2) (fun x y => K x y + iter_q (K x y) n * iter_q (K x y) n)); [lra|].
      apply (pd_add K (fun x y => iter_q (K x y) n * iter_q (K x y) n)); auto. now apply (pd_mul (fun x y => iter_q (K x y) n) (fun x y => iter_q (K x y) n)).
    - intros x y Hx Hy e He. destruct (archimed_cor1 (e / 2)) as (N & HN & HN0); [lra|]. exists N. intros n Hn. unfold R_dist.
      destruct (iter_q_bound (K x y) n (B x y Hx Hy)) as [[_ U] V]. rewrite Rabs_minus_sym, Rabs_right by lra. apply Rle_lt_trans with (1 := V).
      assert (P : 0 < INR N) by (apply lt_0_INR; lia). assert (Q : INR N <= INR n) by (apply le_INR; lia).
      apply Rlt_le_trans with (2 * / INR N); [|lra]. unfold Rdiv. apply Rmult_lt_compat_l; [lra|]. apply Rinv_lt_contravar; [nra|lra].
  Qed.

  (** Moving the origin to one of the points. *)
  Lemma pd_centred z K : In z pts -> pd K -> pd (fun x y => K x y - K x z - K z y + K z z).
  Proof.
    intros Hz H e He. destruct (H (e / 4)) as (m & f & L & C); [lra|]. exists m, (fun x => vsub (f x) (f z)).
    split; [intros; rewrite vsub_length; rewrite ?L; auto|]. intros x y Hx Hy.
    rewrite dot_sub_l by (rewrite ?L; auto). rewrite !dot_sub_r by (rewrite ?L; auto).
    pose proof (C x y Hx Hy) as C1. pose proof (C x z Hx Hz) as C2. pose proof (C z y Hz Hy) as C3. pose proof (C z z Hz Hz) as C4.
    apply Rabs_le_inv in C1, C2, C3, C4. apply Rabs_le. lra.
  Qed.

  (** Quadratic forms. *)
  Definition combine_features (f : A -> list R) (m : nat) (l : list (R * A)) : list R := fold_right (fun cx v => vadd (vscale (fst cx) (f (snd cx))) v) (repeat 0 m) l.
  Definition quad (K : A -> A -> R) (l l' : list (R * A)) : R := vsum (map (fun cx => vsum (map (fun dy => fst cx * fst dy * K (snd cx) (snd dy)) l')) l).
  Lemma combine_length f m l : (forall x, In x pts -> length (f x) = m) -> (forall cx, In cx l -> In (snd cx) pts) -> length (combine_features f m l) = m.
  Proof.
    intros L. induction l as [|c l IH]; intros H; [apply repeat_length|]. cbn [combine_features fold_right]. fold (combine_features f m l).
    assert (E : length (f (snd c)) = m) by (apply L, H; cbn; auto). assert (E' : length (combine_features f m l) = m) by (apply IH; intros; apply H; cbn; auto).
    rewrite vadd_length; rewrite vscale_length; congruence.
  Qed.
  Lemma dot_combine f m l u : (forall x, In x pts -> length (f x) = m) -> (forall cx, In cx l -> In (snd cx) pts) ->
    dot u (combine_features f m l) = vsum (map (fun cx => fst cx * dot u (f (snd cx))) l).
  Proof.
    intros L. induction l as [|c l IH]; intros H; [apply dot_zeros_r|]. cbn [combine_features fold_right map vsum]. fold (combine_features f m l).
    assert (H' : forall cx, In cx l -> In (snd cx) pts) by (intros; apply H; cbn; auto).
    rewrite dot_add_r, dot_scale_r, IH; auto. rewrite vscale_length, combine_length by auto. apply L, H. cbn. auto.
  Qed.
  Lemma quad_gram f m l l' : (forall x, In x pts -> length (f x) = m) -> (forall cx, In cx l -> In (snd cx) pts) -> (forall cx, In cx l' -> In (snd cx) pts) ->
    quad (fun x y => dot (f x) (f y)) l l' = dot (combine_features f m l) (combine_features f m l').
  Proof.
    intros L H H'. rewrite dot_comm, (dot_combine f m l) by auto. unfold quad. f_equal. apply map_ext. intros cx.
    rewrite dot_comm, (dot_combine f m l') by auto. rewrite <- vsum_scale. unfold vscale. rewrite map_map. f_equal. apply map_ext. intros. ring.
  Qed.
  Lemma dot_self_nonneg u : 0 <= dot u u.
  Proof. induction u as [|a u IH]; [unfold dot; cbn; lra|]. rewrite dot_cons. nra. Qed.

  Lemma vsum_close {B} (g h : B -> R) e : forall l, (forall x, In x l -> Rabs (g x - h x) <= e) -> Rabs (vsum (map g l) - vsum (map h l)) <= INR (length l) * e.
  Proof.
    induction l as [|a l IH]; intros H; [cbn; rewrite Rminus_diag_eq, Rabs_R0 by reflexivity; lra|]. cbn [map vsum]. change (length (a :: l)) with (S (length l)). rewrite S_INR.
    replace (g a + vsum (map g l) - (h a + vsum (map h l))) with ((g a - h a) + (vsum (map g l) - vsum (map h l))) by ring.
    apply Rle_trans with (1 := Rabs_triang _ _). assert (Rabs (g a - h a) <= e) by (apply H; cbn; auto).
    assert (Rabs (vsum (map g l) - vsum (map h l)) <= INR (length l) * e) by (apply IH; intros; apply H; cbn; auto). lra.
  Qed.

  Theorem pd_quad_nonneg K (l : list (R * A)) : pd K -> (forall cx, In cx l -> In (snd cx) pts) -> 0 <= quad K l l.
  Proof.
    intros H I. destruct (bounded1 (fun x : A => 0) []) as [_ _]. 
    assert (CB : exists B, 0 <= B /\ forall cx, In cx l -> Rabs (fst cx) <= B).
    { clear I. induction l as [|a l' (B & HB & HH)]; [exists 0; split; [lra|contradiction]|]. exists (Rmax B (Rabs (fst a))). split.
      - apply Rle_trans with B; auto. apply Rmax_l.
      - intros x [->|Hx]; [apply Rmax_r|]. apply Rle_trans with B; auto. apply Rmax_l. }
    destruct CB as (B & HB & CB). set (n := INR (length l)). assert (Hn : 0 <= n) by apply pos_INR.
    apply Rnot_lt_le. intros NEG. set (q := quad K l l) in *. set (e := - q / (2 * (n * (n * (B * B)) + 1))).
    assert (DN : 0 < 2 * (n * (n * (B * B)) + 1)) by (assert (0 <= n * (n * (B * B))) by (repeat apply Rmult_le_pos; auto); lra).
    assert (He : 0 < e) by (apply Rdiv_lt_0_compat; lra).
    destruct (H e He) as (m & f & L & C). pose proof (quad_gram f m l l L I I) as G. pose proof (dot_self_nonneg (combine_features f m l)) as P. rewrite <- G in P.
    assert (D : Rabs (quad (fun x y => dot (f x) (f y)) l l - q) <= n * (n * (B * B * e))).
    { unfold q, quad. apply vsum_close. intros cx Hcx. apply vsum_close. intros dy Hdy.
      replace (fst cx * fst dy * dot (f (snd cx)) (f (snd dy)) - fst cx * fst dy * K (snd cx) (snd dy)) with (fst cx * fst dy * (dot (f (snd cx)) (f (snd dy)) - K (snd cx) (snd dy))) by ring.
      rewrite !Rabs_mult. apply Rmult_le_compat; auto using Rabs_pos; [apply Rmult_le_pos; apply Rabs_pos|]. apply Rmult_le_compat; auto using Rabs_pos. }
    apply Rabs_le_inv in D. assert (E : e * (2 * (n * (n * (B * B)) + 1)) = - q) by (unfold e; field; lra). nra.
  Qed.
End PD.

(** The distance kernel. *)
Definition dist2 (x y : list R) : R := dot (vsub x y) (vsub x y).
Lemma dist2_expand x y : length x = length y -> dist2 x y = dot x x + dot y y - 2 * dot x y.
Proof. intros L. unfold dist2. rewrite dot_sub_l by auto. rewrite !dot_sub_r by auto. rewrite (dot_comm y x). ring. Qed.
Lemma dist2_nonneg x y : 0 <= dist2 x y.
Proof. apply dot_self_nonneg. Qed.

Section Laplace.
  Variable pts : list (list R).
  Variable d : nat.
  Hypothesis same_dim : forall x, In x pts -> length x = d.

  Lemma pd_gauss a : 0 <= a -> pd pts (fun x y => exp (- (a * dist2 x y))).
  Proof.
    intros Ha. apply (pd_ext pts (fun x y => exp (- (a * dot x x)) * exp (- (a * dot y y)) * exp (2 * a * dot x y))).
    - intros x y Hx Hy. rewrite <- !exp_plus. f_equal. rewrite dist2_expand by (rewrite !same_dim; auto). ring.
    - apply (pd_scale pts (fun x => exp (- (a * dot x x))) (fun x y => exp (2 * a * dot x y))).
      apply (pd_exp pts (fun x y => 2 * a * dot x y)). apply (pd_cmul pts (2 * a) (fun x y => dot x y)); [lra|].
      apply (pd_gram pts d (fun x => x)). exact same_dim.
  Qed.

  (** sqrt(1 - exp(-a s)) / sqrt a tends to sqrt s. *)
  Lemma exp_bounds u : 0 <= u -> u - u * u <= 1 - exp (- u) <= u.
  Proof.
    intros Hu. pose proof (exp_ineq1_le u) as H1. pose proof (exp_ineq1_le (- u)) as H2. split; [|lra].
    assert (E : exp (- u) * exp u = 1) by (rewrite <- exp_plus, Rplus_opp_l; apply exp_0). pose proof (exp_pos (- u)). nra.
  Qed.
  Lemma sqrt_split s w : 0 <= w <= s -> sqrt s <= sqrt w + sqrt (s - w).
  Proof.
    intros H. pose proof (sqrt_pos w). pose proof (sqrt_pos (s - w)). apply Rsqr_incr_0_var; [|lra]. rewrite Rsqr_sqrt by lra. unfold Rsqr.
    assert (sqrt w * sqrt w = w) by (apply sqrt_sqrt; lra). assert (sqrt (s - w) * sqrt (s - w) = s - w) by (apply sqrt_sqrt; lra). nra.
  Qed.
  Lemma root_close t s : 0 < t -> 0 <= s -> Rabs (/ t * sqrt (1 - exp (- (t * t * s))) - sqrt s) <= t * s.
  Proof.
    intros Ht Hs. assert (TS : 0 <= t * t * s) by (apply Rmult_le_pos; nra). destruct (exp_bounds (t * t * s) TS) as [L U]. set (v := 1 - exp (- (t * t * s))) in *.
    assert (V0 : 0 <= v). { unfold v. assert (exp (- (t * t * s)) <= exp 0); [|rewrite exp_0 in *; lra]. destruct (Req_dec (t * t * s) 0) as [->|N]; [rewrite Ropp_0; lra|]. left. apply exp_increasing. lra. }
    set (w := v * (/ t * / t)). assert (IT : 0 < / t) by (now apply Rinv_0_lt_compat).
    assert (W : / t * sqrt v = sqrt w). { unfold w. rewrite sqrt_mult, sqrt_square by nra. ring. }
    assert (E1 : t * t * s * (/ t * / t) = s) by (field; lra).
    assert (W0 : 0 <= w) by (unfold w; apply Rmult_le_pos; nra).
    assert (W1 : w <= s). { rewrite <- E1. unfold w. apply Rmult_le_compat_r; nra. }
    assert (W2 : s - w <= (t * s) * (t * s)).
    { assert (Q : (t * t * s - t * t * s * (t * t * s)) * (/ t * / t) <= w) by (unfold w; apply Rmult_le_compat_r; nra).
      replace ((t * t * s - t * t * s * (t * t * s)) * (/ t * / t)) with (s - (t * s) * (t * s)) in Q by (field; lra). lra. }
    rewrite W. pose proof (sqrt_le_1 w s W0 Hs W1). pose proof (sqrt_split s w (conj W0 W1)).
    assert (sqrt (s - w) <= t * s). { rewrite <- (sqrt_square (t * s)) by nra. apply sqrt_le_1; nra. }
    rewrite Rabs_minus_sym, Rabs_right by lra. lra.
  Qed.

  Definition dst (x y : list R) : R := sqrt (dist2 x y).
  Lemma pd_dist z : In z pts -> pd pts (fun x y => dst x z + dst z y - dst x y).
  Proof.
    intros Hz. apply pd_lim. intros e He. destruct (bounded2 pts dist2) as (B & HB & Q).
    set (t := e / (3 * (B + 1))). assert (Ht : 0 < t) by (apply Rdiv_lt_0_compat; lra).
    assert (TB : t * (3 * (B + 1)) = e) by (unfold t; field; lra).
    set (P := fun x y => 1 - sqrt (1 - exp (- (t * t * dist2 x y)))).
    assert (PP : pd pts P).
    { apply (pd_one_minus_sqrt pts (fun x y => exp (- (t * t * dist2 x y)))); [apply pd_gauss; nra|]. intros x y _ _. split; [left; apply exp_pos|].
      rewrite <- exp_0. pose proof (dist2_nonneg x y). assert (0 <= t * t * dist2 x y) by (apply Rmult_le_pos; nra).
      destruct (Req_dec (t * t * dist2 x y) 0) as [->|N]; [rewrite Ropp_0; lra|]. left. apply exp_increasing. lra. }
    exists (fun x y => / t * (P x y - P x z - P z y + P z z)). split.
    - apply (pd_cmul pts (/ t) (fun x y => P x y - P x z - P z y + P z z)); [left; now apply Rinv_0_lt_compat|]. now apply pd_centred.
    - intros x y Hx Hy.
      assert (ZZ : P z z = 1). { unfold P. replace (dist2 z z) with 0; [rewrite Rmult_0_r, Ropp_0, exp_0; replace (1 - 1) with 0 by ring; rewrite sqrt_0; ring|].
        rewrite dist2_expand by reflexivity. ring. }
      rewrite ZZ. unfold P, dst.
      assert (BD : forall u v, In u pts -> In v pts -> Rabs (/ t * sqrt (1 - exp (- (t * t * dist2 u v))) - sqrt (dist2 u v)) <= t * B).
      { intros u v Hu Hv. apply Rle_trans with (t * dist2 u v); [apply root_close; auto; apply dist2_nonneg|]. apply Rmult_le_compat_l; [lra|].
        apply Rle_trans with (2 := Q u v Hu Hv). apply Rle_abs. }
      pose proof (BD x z Hx Hz) as B1. pose proof (BD z y Hz Hy) as B2. pose proof (BD x y Hx Hy) as B3. apply Rabs_le_inv in B1, B2, B3. apply Rabs_le.
      set (r1 := sqrt (1 - exp (- (t * t * dist2 x z)))) in *. set (r2 := sqrt (1 - exp (- (t * t * dist2 z y)))) in *. set (r3 := sqrt (1 - exp (- (t * t * dist2 x y)))) in *.
      replace (/ t * (1 - r3 - (1 - r1) - (1 - r2) + 1)) with (/ t * r1 + / t * r2 - / t * r3) by ring. lra.
  Qed.

  Theorem pd_laplace b : 0 <= b -> pd pts (fun x y => exp (- (b * dst x y))).
  Proof.
    intros Hb. assert (D : pts = [] \/ exists z, In z pts) by (destruct pts as [|z l]; [auto|right; exists z; cbn; auto]).
    destruct D as [D|[z Hz]].
    - intros e He. exists 0%nat, (fun _ => []). rewrite D. split; contradiction.
    - apply (pd_ext pts (fun x y => exp (- (b * dst x z)) * exp (- (b * dst y z)) * exp (b * (dst x z + dst z y - dst x y)))).
      + intros x y Hx Hy. rewrite <- !exp_plus. f_equal. assert (E : dst y z = dst z y).
        { unfold dst. f_equal. rewrite !dist2_expand by (rewrite !same_dim by auto; reflexivity). rewrite (dot_comm y z). ring. }
        rewrite E. ring.
      + apply (pd_scale pts (fun x => exp (- (b * dst x z))) (fun x y => exp (b * (dst x z + dst z y - dst x y)))).
        apply (pd_exp pts (fun x y => b * (dst x z + dst z y - dst x y))). apply (pd_cmul pts b (fun x y => dst x z + dst z y - dst x y)); auto.
        now apply pd_dist.
  Qed.
End Laplace.
