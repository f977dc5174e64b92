(** Convergence of the Frank-Wolfe solver on convex quadratics. *)
From Coq Require Import String List ZArith Bool Arith Lia Reals Lra Psatz.
From Verif Require Import Np NpFacts RVec RVecFacts FWModel FWSpec FWProofs.
Import ListNotations.
Local Open Scope nat_scope.
Local Open Scope list_scope.

(** Finite sums over indices. *)
Definition sumn (n : nat) (f : nat -> R) : R := vsum (map f (seq 0 n)).

Lemma sumn_S n f : sumn (S n) f = (f 0%nat + sumn n (fun i => f (S i)))%R.
Proof. unfold sumn. simpl. now rewrite <- seq_shift, map_map. Qed.

Lemma sumn_ext n f g : (forall i, i < n -> f i = g i) -> sumn n f = sumn n g.
Proof.
  intros H. unfold sumn. f_equal. apply map_ext_in. intros i Hi. apply in_seq in Hi. apply H. lia.
Qed.

Lemma sumn_add n f g : sumn n (fun i => f i + g i)%R = (sumn n f + sumn n g)%R.
Proof. revert f g. induction n; intros; [unfold sumn; simpl; lra|]. rewrite !sumn_S, IHn. lra. Qed.

Lemma sumn_zero n : sumn n (fun _ => 0%R) = 0%R.
Proof. induction n; [reflexivity|]. rewrite sumn_S, IHn. lra. Qed.

Lemma sumn_exchange n m (f : nat -> nat -> R) : sumn n (fun i => sumn m (fun j => f i j)) = sumn m (fun j => sumn n (fun i => f i j)).
Proof.
  revert f. induction n; intros f.
  - unfold sumn at 1. simpl. rewrite <- (sumn_zero m). apply sumn_ext. intros. reflexivity.
  - rewrite sumn_S, IHn, <- sumn_add. apply sumn_ext. intros j _. now rewrite sumn_S.
Qed.

Lemma sumn_mul n a f : sumn n (fun i => a * f i)%R = (a * sumn n f)%R.
Proof. revert f. induction n; intros; [unfold sumn; simpl; lra|]. rewrite !sumn_S, IHn. lra. Qed.

Lemma dot_sumn u : forall v n, length u = n -> length v = n -> dot u v = sumn n (fun i => nth i u 0 * nth i v 0)%R.
Proof.
  induction u; intros [|y v] [|n] H1 H2; simpl in *; try discriminate; [reflexivity|].
  rewrite dot_cons, sumn_S. f_equal. apply IHu; lia.
Qed.

Lemma bilinear_sym n Q x y : square n Q -> symmetric Q -> length x = n -> length y = n ->
  dot x (matvec Q y) = dot y (matvec Q x).
Proof.
  intros [H1 H2] HS Hx Hy.
  assert (E : forall a b, length a = n -> length b = n ->
     dot a (matvec Q b) = sumn n (fun i => sumn n (fun j => nth i a 0 * (nth j (nth i Q []) 0 * nth j b 0))%R)).
  { intros a b Ha Hb. rewrite (dot_sumn a _ n) by (rewrite ?matvec_length; auto). apply sumn_ext. intros i Hi.
    rewrite sumn_mul. f_equal. unfold matvec.
    rewrite (nth_indep (map (fun r => dot r b) Q) 0%R (dot [] b)) by (rewrite map_length; lia).
    rewrite (map_nth (fun r => dot r b)). apply dot_sumn; auto. rewrite Forall_forall in H2. apply H2, nth_In. lia. }
  rewrite !E by auto. rewrite sumn_exchange. apply sumn_ext. intros i _. apply sumn_ext. intros j _.
  rewrite (HS i j). lra.
Qed.

(** One step. *)
Lemma quad_expand n Q t x v : square n Q -> symmetric Q -> length x = n -> length v = n ->
  let z := vadd (vscale (1 - t) x) (vscale t v) in
  dot z (matvec Q z) = ((1 - t) * (1 - t) * dot x (matvec Q x) + 2 * t * (1 - t) * dot v (matvec Q x) + t * t * dot v (matvec Q v))%R.
Proof.
  intros HQ HS Hx Hv z. unfold z.
  assert (L : length (vscale (1 - t) x) = length (vscale t v)) by (rewrite !vscale_length; congruence).
  rewrite matvec_add, !matvec_scale by auto.
  rewrite dot_add_l, !dot_add_r by (rewrite ?vscale_length, ?matvec_length; congruence).
  rewrite !dot_scale_l, !dot_scale_r, (bilinear_sym n Q x v) by auto. ring.
Qed.

Lemma quad_sub n Q u v : square n Q -> symmetric Q -> length u = n -> length v = n ->
  dot (vsub u v) (matvec Q (vsub u v)) = (dot u (matvec Q u) - 2 * dot u (matvec Q v) + dot v (matvec Q v))%R.
Proof.
  intros HQ HS Hu Hv. rewrite matvec_sub by congruence.
  rewrite dot_sub_l, !dot_sub_r by (rewrite ?matvec_length; congruence).
  rewrite (bilinear_sym n Q v u) by auto. ring.
Qed.

Lemma fw_progress n Q c x g v w t C :
  square n Q -> symmetric Q -> psd n Q -> length x = n -> length v = n -> length w = n ->
  (forall d, c = Some d -> length d = n) ->
  qp_jac Q c x = Ok g -> (dot g v <= dot g w)%R -> (0 <= t <= 1)%R ->
  (dot (vsub v x) (matvec Q (vsub v x)) <= C)%R ->
  (objective Q c (vadd (vscale (1 - t) x) (vscale t v)) - objective Q c w <=
     (1 - t) * (objective Q c x - objective Q c w) + t * t * C / 2)%R.
Proof.
  intros HQ HS HP Hx Hv Hw Hc Hg Hm Ht HC.
  pose proof (HP (vsub w x)) as P. rewrite vsub_length in P by congruence. specialize (P Hw).
  rewrite (quad_sub n Q w x) in P by auto. rewrite (quad_sub n Q v x) in HC by auto.
  rewrite (dot_comm g v), (dot_comm g w), !(qp_jac_ok Q c x g Hg) in Hm.
  unfold objective. rewrite (quad_expand n) by auto.
  assert (L : length (vscale (1 - t) x) = length (vscale t v)) by (rewrite !vscale_length; congruence).
  set (xx := dot x (matvec Q x)) in *. set (vx := dot v (matvec Q x)) in *. set (vv := dot v (matvec Q v)) in *.
  set (ww := dot w (matvec Q w)) in *. set (wx := dot w (matvec Q x)) in *.
  replace (match c with Some d => dot (vadd (vscale (1 - t) x) (vscale t v)) d | None => 0%R end)
    with ((1 - t) * (match c with Some d => dot x d | None => 0 end) + t * (match c with Some d => dot v d | None => 0 end))%R.
  2:{ destruct c as [d|]; [|lra]. rewrite dot_add_l, !dot_scale_l by auto. reflexivity. }
  set (cx := match c with Some d => dot x d | None => 0%R end) in *.
  set (cv := match c with Some d => dot v d | None => 0%R end) in *.
  set (cw := match c with Some d => dot w d | None => 0%R end) in *.
  assert (I1 : (t * (vx + cv) <= t * (wx + cw))%R) by (apply Rmult_le_compat_l; lra).
  assert (I2 : (0 <= t * (ww - 2 * wx + xx))%R) by (apply Rmult_le_pos; lra).
  assert (I3 : (t * t * (vv - 2 * vx + xx) <= t * t * C)%R) by (apply Rmult_le_compat_l; [nra|lra]).
  lra.
Qed.

(** Rate. *)
Lemma rate_first C : (0 <= C)%R -> (C / 2 <= 2 * C / (INR 1 + 2))%R.
Proof. intros. simpl. lra. Qed.

Lemma rate_step C k h : 1 <= k -> (0 <= C)%R -> (h <= 2 * C / (INR k + 2))%R ->
  let t := (2 / (INR (S k) + 1))%R in ((1 - t) * h + t * t * C / 2 <= 2 * C / (INR (S k) + 2))%R.
Proof.
  intros Hk HC Hh t. unfold t. rewrite S_INR. apply le_INR in Hk. simpl in Hk. set (r := INR k) in *.
  assert (P2 : (0 < r + 2)%R) by lra. assert (P3 : (0 < r + 3)%R) by lra.
  replace (r + 1 + 1)%R with (r + 2)%R by ring. replace (r + 1 + 2)%R with (r + 3)%R by ring.
  assert (E : ((1 - 2 / (r + 2)) = r / (r + 2))%R) by (field; lra). rewrite E.
  assert (A : (r / (r + 2) * h <= r / (r + 2) * (2 * C / (r + 2)))%R).
  { apply Rmult_le_compat_l; auto. apply Rmult_le_pos; [lra|]. left. now apply Rinv_0_lt_compat. }
  eapply Rle_trans; [apply Rplus_le_compat_r, A|].
  replace (r / (r + 2) * (2 * C / (r + 2)) + 2 / (r + 2) * (2 / (r + 2)) * C / 2)%R
    with (2 * C * ((r + 1) / ((r + 2) * (r + 2))))%R by (field; lra).
  unfold Rdiv at 2. apply Rmult_le_compat_l; [lra|].
  apply (Rmult_le_reg_r ((r + 2) * (r + 2) * (r + 3))).
  - apply Rmult_lt_0_compat; auto. nra.
  - replace ((r + 1) / ((r + 2) * (r + 2)) * ((r + 2) * (r + 2) * (r + 3)))%R with ((r + 1) * (r + 3))%R by (field; lra).
    replace (/ (r + 3) * ((r + 2) * (r + 2) * (r + 3)))%R with ((r + 2) * (r + 2))%R by (field; lra). nra.
Qed.

Lemma curvature_nonneg n Q a clb cub x0 C w : psd n Q -> length a = n -> square n Q -> symmetric Q ->
  curvature_bound Q a clb cub x0 C -> feasible a clb cub w -> (0 <= C)%R.
Proof.
  intros HP Ha HQ HS HC Hw. pose proof (HC w w Hw (or_introl Hw)) as H.
  pose proof (HP (vsub w w)) as P. rewrite vsub_length in P by auto. specialize (P (eq_trans (proj1 Hw) Ha)). lra.
Qed.

Section Rate.
  Variables (n : nat) (Q : list (list R)) (c : option (list R)) (a : list R) (clb cub : R) (x0 : list R) (C : R).
  Hypotheses (HQ : square n Q) (HS : symmetric Q) (HP : psd n Q) (Hc : forall d, c = Some d -> length d = n)
    (Ha : length a = n) (Hpos : positive a) (Hb : (0 <= clb <= cub)%R) (HC : curvature_bound Q a clb cub x0 C).

  Lemma fw_loop_rate w : feasible a clb cub w -> forall m k x z, 1 <= k -> feasible a clb cub x ->
    (objective Q c x - objective Q c w <= 2 * C / (INR k + 2))%R ->
    fw_loop (qp_jac Q c) a clb cub (S k) m x = Ok z ->
    (objective Q c z - objective Q c w <= 2 * C / (INR (k + m) + 2))%R.
  Proof.
    intros Hw. induction m; intros k x z Hk Hx Hr H; simpl in H.
    - injection H as <-. now rewrite Nat.add_0_r.
    - apply bind_ok in H as [y [Hy H]]. rewrite <- Nat.add_succ_comm. eapply IHm; [| | |exact H]; [lia| |].
      + apply fw_step_spec in Hy as (g & v & _ & [Hf _] & Hl & ->); auto. apply convex_feasible; auto. apply lr_range. lia.
      + apply fw_step_spec in Hy as (g & v & Hg & [Hf Hmin] & Hl & ->); auto.
        assert (Lv : length v = n) by (destruct Hf; congruence). assert (Lw : length w = n) by (destruct Hw; congruence).
        assert (Lx : length x = n) by congruence.
        eapply Rle_trans; [eapply (fw_progress n) with (C := C) (g := g) (w := w); eauto|].
        * apply lr_range. lia.
        * apply rate_step; auto. eapply (curvature_nonneg n Q a); eauto.
  Qed.

  Lemma frank_wolfe_rate w m z : feasible a clb cub w -> 1 <= m ->
    fw_loop (qp_jac Q c) a clb cub 1 m x0 = Ok z ->
    (objective Q c z - objective Q c w <= 2 * C / (INR m + 2))%R.
  Proof.
    intros Hw Hm H. destruct m as [|m]; [lia|]. simpl fw_loop in H. apply bind_ok in H as [y [Hy H]].
    change (S m) with (1 + m). eapply fw_loop_rate; [exact Hw| | | |exact H]; auto.
    - eapply fw_first; eauto.
    - apply fw_step_spec in Hy as (g & v & Hg & [Hf Hmin] & Hl & ->); auto.
      assert (C0 : (0 <= C)%R) by (eapply (curvature_nonneg n Q a); eauto).
      assert (Lv : length v = n) by (destruct Hf; congruence). assert (Lw : length w = n) by (destruct Hw; congruence).
      assert (Lx : length x0 = n) by congruence.
      eapply Rle_trans; [eapply (fw_progress n) with (C := C) (g := g) (w := w); eauto|].
      * now apply lr_range.
      * rewrite lr_one. pose proof (rate_first C C0). lra.
  Qed.
End Rate.

(** A curvature bound always exists. *)
Definition vabs (u : list R) : R := vsum (map Rabs u).

Lemma vabs_nonneg u : (0 <= vabs u)%R.
Proof. apply vsum_nonneg. apply Forall_map, Forall_forall. intros. apply Rabs_pos. Qed.

Lemma dot_bound B : forall u v, (0 <= B)%R -> Forall (fun t => Rabs t <= B)%R v -> (Rabs (dot u v) <= vabs u * B)%R.
Proof.
  intros u. induction u as [|x u IH]; intros [|y v] HB H.
  - unfold dot, vabs; simpl. rewrite Rabs_R0. lra.
  - unfold dot, vabs; simpl. rewrite Rabs_R0. lra.
  - rewrite dot_nil_r, Rabs_R0. apply Rmult_le_pos; auto. apply vabs_nonneg.
  - rewrite dot_cons. apply Forall_cons_iff in H as [H1 H2]. specialize (IH v HB H2).
    unfold vabs in *. simpl. eapply Rle_trans; [apply Rabs_triang|]. rewrite Rabs_mult.
    assert (Rabs x * Rabs y <= Rabs x * B)%R by (apply Rmult_le_compat_l; auto; apply Rabs_pos). lra.
Qed.

Lemma quad_bound n Q M : square n Q -> (0 <= M)%R -> exists C, forall d, length d = n -> Forall (fun t => Rabs t <= M)%R d ->
  (dot d (matvec Q d) <= C)%R.
Proof.
  intros [HQ1 HQ2] HM. set (S := vsum (map vabs Q)).
  assert (HS : forall r, In r Q -> (vabs r <= S)%R).
  { unfold S. clear. induction Q; simpl; [easy|]. intros r [->|H].
    - assert (0 <= vsum (map vabs Q))%R by (apply vsum_nonneg, Forall_map, Forall_forall; intros; apply vabs_nonneg). lra.
    - specialize (IHQ r H). pose proof (vabs_nonneg a). lra. }
  assert (HS0 : (0 <= S)%R) by (apply vsum_nonneg, Forall_map, Forall_forall; intros; apply vabs_nonneg).
  exists (INR n * M * (S * M))%R. intros d Hd Hb.
  assert (Hq : Forall (fun t => Rabs t <= S * M)%R (matvec Q d)).
  { apply Forall_map, Forall_forall. intros r Hr. eapply Rle_trans; [apply (dot_bound M); auto|].
    apply Rmult_le_compat_r; auto. }
  assert (Hv : (vabs d <= INR n * M)%R).
  { unfold vabs. rewrite <- Hd. clear -Hb. induction Hb; [simpl; lra|].
    replace (INR (length (x :: l))) with (INR (length l) + 1)%R by (cbn [length]; now rewrite S_INR).
    cbn [map vsum]. lra. }
  eapply Rle_trans; [apply Rle_abs|]. eapply Rle_trans; [apply (dot_bound (S * M)); auto; apply Rmult_le_pos; auto|].
  apply Rmult_le_compat_r; auto. apply Rmult_le_pos; auto.
Qed.

Lemma feasible_bounded a clb cub : positive a -> exists M, (0 <= M)%R /\ forall w, feasible a clb cub w -> Forall (fun t => Rabs t <= M)%R w.
Proof.
  intros Ha. revert clb cub. induction a as [|p a IH]; intros clb cub.
  - exists 0%R. split; [lra|]. intros w (L & _). destruct w; [constructor|discriminate].
  - apply Forall_cons_iff in Ha as [Hp Ha]. specialize (IH Ha 0%R (Rmax cub 0)). destruct IH as (M & HM & H).
    exists (Rmax M (Rabs (cub / p))). split.
    { eapply Rle_trans; [exact HM|apply Rmax_l]. }
    intros w (L & Nw & Hd). destruct w as [|y w]; [discriminate|]. apply Forall_cons_iff in Nw as [Hy Nw].
    rewrite dot_cons in Hd.
    assert (N0 : (0 <= dot a w)%R).
    { apply dot_nonneg; auto. eapply Forall_impl; [|exact Ha]. simpl. intros; lra. }
    assert (N1 : (0 <= p * y)%R) by (apply Rmult_le_pos; lra).
    constructor.
    + rewrite Rabs_pos_eq by auto. eapply Rle_trans; [|apply Rmax_r]. rewrite Rabs_pos_eq.
      * apply (Rmult_le_reg_r p); auto. unfold Rdiv. rewrite Rmult_assoc, Rinv_l; lra.
      * apply Rmult_le_pos; [lra|]. left. now apply Rinv_0_lt_compat.
    + eapply Forall_impl; [intros t Ht; eapply Rle_trans; [exact Ht|apply Rmax_l]|].
      apply H. repeat split; auto. eapply Rle_trans; [|apply Rmax_l]. lra.
Qed.

Lemma curvature_exists n Q a clb cub x0 : square n Q -> length a = n -> positive a -> length x0 = n ->
  exists C, curvature_bound Q a clb cub x0 C.
Proof.
  intros HQ Ha Hp Hx. destruct (feasible_bounded a clb cub Hp) as (M & HM & HF).
  set (M' := (M + Rmax M (vabs x0))%R).
  assert (HM' : (0 <= M')%R) by (unfold M'; pose proof (Rmax_l M (vabs x0)); lra).
  destruct (quad_bound n Q M' HQ HM') as [C HC]. exists C. intros u v Hu Hv.
  assert (Lv : length v = n) by (destruct Hv as [[]| ->]; congruence).
  assert (Lu : length u = n) by (destruct Hu; congruence).
  assert (Bv : Forall (fun t => Rabs t <= Rmax M (vabs x0))%R v).
  { destruct Hv as [Hv| ->].
    - eapply Forall_impl; [intros t Ht; eapply Rle_trans; [exact Ht|apply Rmax_l]|]. now apply HF.
    - apply Forall_forall. intros t Ht. eapply Rle_trans; [|apply Rmax_r]. unfold vabs. clear -Ht.
      induction x0; [easy|]. simpl. destruct Ht as [->|Ht].
      + assert (0 <= vsum (map Rabs x0))%R by apply vabs_nonneg. lra.
      + specialize (IHx0 Ht). pose proof (Rabs_pos a). lra. }
  apply HC.
  - rewrite vsub_length; congruence.
  - apply Forall_nth_R. intros i Hi. rewrite vsub_length in Hi by congruence. rewrite nth_vsub by congruence.
    assert (Rabs (nth i u 0) <= M)%R by (apply (proj1 (Forall_nth_R _ _) (HF u Hu)); auto).
    assert (Rabs (nth i v 0) <= Rmax M (vabs x0))%R by (apply (proj1 (Forall_nth_R _ _) Bv); lia).
    unfold M', Rminus. eapply Rle_trans; [apply Rabs_triang|]. rewrite Rabs_Ropp. lra.
Qed.
