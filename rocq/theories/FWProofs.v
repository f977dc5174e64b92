(** Proofs about the quadratic solvers. *)
From Coq Require Import String List ZArith Bool Arith Lia Reals Lra.
From Verif Require Import Np NpFacts RVec RVecFacts FWModel FWSpec.
Import ListNotations.
Local Open Scope nat_scope.
Local Open Scope list_scope.

Definition start (c : list R) (clb cub : R) (x0 : option (list R)) : list R :=
  match x0 with
  | Some x => x
  | None => map (fun ic => ic * ((cub - clb) / 2) / INR (length c))%R (map Rinv c)
  end.

Lemma product_bound m : forall g c w, length g = length c -> length w = length c ->
  positive c -> nonneg w -> Forall (fun t => m <= t)%R (map2 Rmult g (map Rinv c)) -> (m * dot c w <= dot g w)%R.
Proof.
  induction g as [|a g IH]; intros [|b c] [|d w] H1 H2 Hc Hw Hp; simpl in H1, H2; try discriminate;
    [unfold dot; simpl; lra|].
  rewrite !dot_cons. simpl in Hp. apply Forall_cons_iff in Hp as [P Hp]. apply Forall_cons_iff in Hc as [Pc Hc].
  apply Forall_cons_iff in Hw as [Pw Hw].
  assert (m * dot c w <= dot g w)%R by (apply IH; auto; lia).
  assert (m * b <= a)%R.
  { apply (Rmult_le_compat_r b) in P; [|lra]. rewrite Rmult_assoc, Rinv_l, Rmult_1_r in P; lra. }
  assert (m * b * d <= a * d)%R by (apply Rmult_le_compat_r; lra). lra.
Qed.

Lemma update_zeros_nonneg n : forall i a, (0 <= a)%R -> nonneg (update i a (repeat 0%R n)).
Proof.
  induction n; intros [|i] a Ha; simpl; try constructor; auto; try lra.
  - unfold nonneg. clear -n. induction n; constructor; auto; lra.
  - now apply IHn.
Qed.

Lemma nth_map_Rinv i c : i < length c -> nth i (map Rinv c) 0%R = (/ nth i c 0)%R.
Proof. apply nth_map0. Qed.

Lemma fw_vertex_spec c clb cub g v :
  positive c -> (0 <= clb <= cub)%R -> fw_vertex c clb cub g = Ok v -> linear_minimiser c clb cub g v.
Proof.
  intros Hc [H0 H1] H. unfold fw_vertex in H.
  apply bind_ok in H as [p [Hp H]]. apply bind_ok in H as [i [Hi H]].
  apply np_map2_ok in Hp as [Hl ->]. rewrite map_length in Hl.
  apply np_argmin_spec in Hi as (Hi & Hmin & _). rewrite map2_length in Hi by (rewrite map_length; lia).
  assert (Hic : i < length c) by lia.
  assert (Pi : (0 < nth i c 0)%R) by (apply (proj1 (Forall_nth_R _ _) Hc); auto).
  assert (Pinv : (0 < / nth i c 0)%R) by now apply Rinv_0_lt_compat.
  assert (Hb : forall w, feasible c clb cub w -> (nth i (map2 Rmult g (map Rinv c)) 0 * dot c w <= dot g w)%R).
  { intros w (L & Nw & _). apply product_bound; auto. apply Forall_nth_R. intros j Hj. now apply Hmin. }
  rewrite nth_map2 in Hb by (rewrite ?map_length; lia). rewrite nth_map_Rinv in Hb by auto.
  rewrite nth_map2 in H by (rewrite ?map_length; lia). rewrite nth_map_Rinv in H by auto.
  assert (Hf : forall a, (clb <= a <= cub)%R -> feasible c clb cub (update i (/ nth i c 0 * a)%R (repeat 0%R (length c)))).
  { intros a Ha. split; [|split].
    - now rewrite update_length, repeat_length.
    - apply update_zeros_nonneg. apply Rmult_le_pos; lra.
    - rewrite dot_update_zeros by auto. replace (nth i c 0 * (/ nth i c 0 * a))%R with a by (field; lra). auto. }
  assert (Hd : forall a, dot g (update i (/ nth i c 0 * a)%R (repeat 0%R (length c))) = (nth i g 0 * / nth i c 0 * a)%R).
  { intros a. rewrite dot_update_zeros by lia. lra. }
  destruct (Rleb 0 (nth i g 0%R * / nth i c 0%R)%R) eqn:E; injection H as <-.
  - apply Rleb_iff in E. split; [apply Hf; lra|]. intros w Hw. rewrite Hd. specialize (Hb w Hw).
    destruct Hw as (_ & _ & Hw). eapply Rle_trans; [|exact Hb]. apply Rmult_le_compat_l; lra.
  - apply Rleb_false in E. split; [apply Hf; lra|]. intros w Hw. rewrite Hd. specialize (Hb w Hw).
    destruct Hw as (_ & _ & Hw). eapply Rle_trans; [|exact Hb].
    apply Rmult_le_compat_neg_l; lra.
Qed.

Lemma fw_vertex_total c clb cub g : length g = length c -> c <> [] -> exists v, fw_vertex c clb cub g = Ok v /\ length v = length c.
Proof.
  intros H Hn. unfold fw_vertex. rewrite np_map2_eq by (rewrite map_length; auto). cbn [bind].
  destruct (np_argmin_total (map2 Rmult g (map Rinv c))) as [i ->].
  { destruct c, g; try easy; discriminate. }
  cbn [bind]. destruct (Rleb _ _); eexists; split; try reflexivity; now rewrite update_length, repeat_length.
Qed.

Lemma fw_step_spec jac c clb cub k x z : positive c -> (0 <= clb <= cub)%R ->
  fw_step jac c clb cub k x = Ok z ->
  exists g v, jac x = Ok g /\ linear_minimiser c clb cub g v /\ length x = length c /\
    z = vadd (vscale (1 - 2 / (INR k + 1)) x) (vscale (2 / (INR k + 1)) v).
Proof.
  intros Hc Hb H. unfold fw_step in H. apply bind_ok in H as [g [Hg H]]. apply bind_ok in H as [v [Hv H]].
  apply fw_vertex_spec in Hv as Hm; auto. apply np_map2_ok in H as [Hl ->].
  rewrite !vscale_length in Hl. exists g, v. repeat split; try apply Hm; auto.
  rewrite Hl. apply Hm.
Qed.

Lemma convex_feasible c clb cub t x v : (0 <= t <= 1)%R -> feasible c clb cub x -> feasible c clb cub v ->
  feasible c clb cub (vadd (vscale (1 - t) x) (vscale t v)).
Proof.
  intros Ht (L1 & N1 & B1) (L2 & N2 & B2).
  assert (L : length (vscale (1 - t) x) = length (vscale t v)) by (rewrite !vscale_length; congruence).
  split; [|split].
  - now rewrite vadd_length, vscale_length.
  - apply Forall_nth_R. intros i Hi. rewrite nth_vadd by auto. rewrite !nth_vscale.
    rewrite vadd_length, vscale_length in Hi by auto.
    assert (0 <= nth i x 0)%R by (apply (proj1 (Forall_nth_R _ _) N1); lia).
    assert (0 <= nth i v 0)%R by (apply (proj1 (Forall_nth_R _ _) N2); lia).
    assert (0 <= (1 - t) * nth i x 0)%R by (apply Rmult_le_pos; lra).
    assert (0 <= t * nth i v 0)%R by (apply Rmult_le_pos; lra). lra.
  - rewrite dot_add_r by auto. rewrite !dot_scale_r. nra.
Qed.

Lemma lr_range k : (1 <= k) -> (0 <= 2 / (INR k + 1) <= 1)%R.
Proof.
  intros H. apply le_INR in H. simpl in H. split.
  - apply Rmult_le_pos; [lra|]. left. apply Rinv_0_lt_compat. lra.
  - apply (Rmult_le_reg_r (INR k + 1)); [lra|]. unfold Rdiv. rewrite Rmult_assoc, Rinv_l; lra.
Qed.

Lemma lr_one : (2 / (INR 1 + 1) = 1)%R.
Proof. simpl. field. Qed.

Lemma vadd_scale_zero x v : length x = length v -> vadd (vscale (1 - 1) x) (vscale 1 v) = v.
Proof.
  intros H. apply vec_ext.
  - rewrite vadd_length; rewrite !vscale_length; auto.
  - intros i _. rewrite nth_vadd by (rewrite !vscale_length; auto). rewrite !nth_vscale. lra.
Qed.

Lemma fw_first jac c clb cub x z : positive c -> (0 <= clb <= cub)%R ->
  fw_step jac c clb cub 1 x = Ok z -> feasible c clb cub z.
Proof.
  intros Hc Hb H. apply fw_step_spec in H as (g & v & _ & [Hf _] & Hl & ->); auto.
  rewrite lr_one, vadd_scale_zero; auto. rewrite Hl. symmetry. apply Hf.
Qed.

Lemma fw_loop_feasible jac c clb cub : positive c -> (0 <= clb <= cub)%R ->
  forall n k x z, 1 <= k -> feasible c clb cub x -> fw_loop jac c clb cub k n x = Ok z -> feasible c clb cub z.
Proof.
  intros Hc Hb. induction n; intros k x z Hk Hx H; simpl in H.
  - now injection H as <-.
  - apply bind_ok in H as [y [Hy H]]. apply IHn in H; auto.
    apply fw_step_spec in Hy as (g & v & _ & [Hf _] & Hl & ->); auto.
    apply convex_feasible; auto. now apply lr_range.
Qed.

Lemma frank_wolfe_feasible jac c clb cub x0 n x : positive c -> (0 <= clb <= cub)%R -> 1 <= n ->
  frank_wolfe jac c clb cub x0 n = Ok x -> feasible c clb cub x.
Proof.
  intros Hc Hb Hn H. destruct n as [|n]; [lia|]. unfold frank_wolfe in H. simpl fw_loop in H.
  apply bind_ok in H as [y [Hy H]]. apply fw_first in Hy; auto. eapply fw_loop_feasible; [| | |exact Hy|exact H]; auto.
Qed.

(** Trace of the run. *)
Lemma fw_loop_trace jac c clb cub : positive c -> (0 <= clb <= cub)%R ->
  forall n k x z, fw_loop jac c clb cub k n x = Ok z ->
  exists xs, length xs = S n /\ nth 0 xs [] = x /\ nth n xs [] = z /\
    forall i, i < n -> exists g v, jac (nth i xs []) = Ok g /\ linear_minimiser c clb cub g v /\
      moved (2 / (INR (k + i) + 1)) (nth i xs []) v (nth (S i) xs []).
Proof.
  intros Hc Hb. induction n; intros k x z H; simpl in H.
  - injection H as <-. exists [x]. repeat split; auto. intros; lia.
  - apply bind_ok in H as [y [Hy H]]. apply IHn in H as (xs & L & H0 & Hz & Ht).
    exists (x :: xs). simpl. repeat split; auto.
    intros [|i] Hi.
    + apply fw_step_spec in Hy as (g & v & Hg & Hm & Hl & E); auto. exists g, v. rewrite Nat.add_0_r, H0. split; [auto|split; [auto|]].
      assert (Lv : length v = length x) by (rewrite Hl; apply Hm).
      rewrite E. split; [|split; auto].
      * rewrite vadd_length; rewrite !vscale_length; auto.
      * intros j Hj. rewrite nth_vadd by (rewrite !vscale_length; auto). now rewrite !nth_vscale.
    + destruct (Ht i) as (g & v & H1 & H2 & H3); [lia|]. exists g, v. rewrite <- Nat.add_succ_comm. auto.
Qed.

(** Success. *)
Lemma fw_loop_total jac c clb cub : c <> [] -> (forall x, length x = length c -> exists g, jac x = Ok g /\ length g = length c) ->
  forall n k x, length x = length c -> exists z, fw_loop jac c clb cub k n x = Ok z /\ length z = length c.
Proof.
  intros Hc Hj. induction n; intros k x Hx; simpl.
  - eauto.
  - destruct (Hj x Hx) as (g & Hg & Lg). unfold fw_step. rewrite Hg. cbn [bind].
    destruct (fw_vertex_total c clb cub g Lg Hc) as (v & -> & Lv). cbn [bind].
    rewrite np_map2_eq by (rewrite !vscale_length; congruence). cbn [bind]. apply IHn.
    rewrite map2_length; rewrite !vscale_length; congruence.
Qed.

Lemma start_length c clb cub x0 : (forall x, x0 = Some x -> length x = length c) -> length (start c clb cub x0) = length c.
Proof. intros H. destruct x0; simpl; auto. now rewrite !map_length. Qed.

Lemma qp_jac_total Q c n x : square n Q -> (forall v, c = Some v -> length v = n) -> length x = n ->
  exists g, qp_jac Q c x = Ok g /\ length g = n.
Proof.
  intros [H1 H2] Hc Hx. unfold qp_jac. rewrite np_matvec_eq by (rewrite Hx; auto). cbn [bind].
  destruct c as [v|].
  - rewrite np_map2_eq by (rewrite matvec_length, (Hc v); auto). eexists; split; eauto.
    rewrite map2_length; rewrite matvec_length; auto. rewrite (Hc v); auto.
  - eexists; split; eauto. now rewrite matvec_length.
Qed.

Lemma qp_jac_ok Q c x g : qp_jac Q c x = Ok g ->
  forall w, dot w g = (dot w (matvec Q x) + match c with Some v => dot w v | None => 0 end)%R.
Proof.
  intros H w. unfold qp_jac in H. apply bind_ok in H as [h [Hh H]]. apply np_matvec_ok in Hh as [_ ->].
  destruct c as [v|].
  - apply np_map2_ok in H as [L ->]. now apply (dot_add_r w).
  - injection H as <-. lra.
Qed.

Lemma qp_func_ok Q c x f : qp_func Q c x = Ok f -> f = objective Q c x.
Proof.
  intros H. unfold qp_func in H. apply bind_ok in H as [g [Hg H]]. apply np_matvec_ok in Hg as [_ ->].
  apply bind_ok in H as [h [Hh H]]. apply np_dot_ok in Hh as [_ ->]. unfold objective. destruct c as [v|].
  - apply bind_ok in H as [l [Hl H]]. apply np_dot_ok in Hl as [_ ->]. injection H as <-. reflexivity.
  - injection H as <-. lra.
Qed.
