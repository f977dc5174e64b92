(** Theorems C08-C10, C78, C79: the quadratic solvers. *)
From Coq Require Import String List ZArith Bool Arith Lia Reals Lra.
From Verif Require Import Np NpFacts RVec RVecFacts FWModel FWSpec FWProofs FWProofs2.
Import ListNotations.
Local Open Scope nat_scope.
Local Open Scope list_scope.

Ltac each := repeat ((match goal with |- _ /\ _ => split end) || apply Forall_cons || apply Forall_nil || apply Forall2_cons || apply Forall2_nil).

(** ** C08: frank_wolfe returns a feasible point, for every gradient function and every starting point. *)
Theorem C08_frank_wolfe_feasible : forall jac c clb cub x0 max_iter x,
  positive c -> (0 <= clb <= cub)%R -> 1 <= max_iter ->
  frank_wolfe jac c clb cub x0 max_iter = Ok x -> feasible c clb cub x.
Proof. exact frank_wolfe_feasible. Qed.

(** It does return whenever the gradient has the right shape and [x0], if given, too. *)
Theorem C08_frank_wolfe_returns : forall jac c clb cub x0 max_iter,
  c <> [] -> (forall x, x0 = Some x -> length x = length c) ->
  (forall x, length x = length c -> exists g, jac x = Ok g /\ length g = length c) ->
  exists x, frank_wolfe jac c clb cub x0 max_iter = Ok x.
Proof.
  intros jac c clb cub x0 n Hc Hx Hj.
  destruct (fw_loop_total jac c clb cub Hc Hj n 1 (start c clb cub x0) (start_length c clb cub x0 Hx)) as (z & H & _). eauto.
Qed.

Ltac decide_R :=
  repeat match goal with
         | |- context [Rltb ?a ?b] =>
             first [ rewrite (proj2 (Rltb_iff a b)) by lra | rewrite (proj2 (Rltb_false a b)) by lra ]
         | |- context [Rleb ?a ?b] =>
             first [ rewrite (proj2 (Rleb_iff a b)) by lra | rewrite (proj2 (Rleb_false a b)) by lra ]
         end.

Ltac list_eq := apply (f_equal Ok); repeat apply (f_equal2 (@cons R)); try reflexivity; try field; try lra.

Example C08_ex : frank_wolfe (fun _ => Ok [1; -1]%R) [1; 2]%R 1 3 (Some [5; 7]%R) 2 = Ok [0; 3 / 2]%R.
Proof.
  unfold frank_wolfe, fw_loop, fw_step, fw_vertex, np_map2. cbn -[Rltb Rleb INR]. decide_R. cbn -[Rltb Rleb INR].
  decide_R. cbn -[INR]. simpl INR. list_eq.
Qed.

(** With [max_iter = 0] the default starting point is returned, which need not be feasible. *)
Theorem C08_zero_iterations_infeasible :
  exists c clb cub x, positive c /\ (0 <= clb <= cub)%R /\
    frank_wolfe (fun x => Ok x) c clb cub None 0 = Ok x /\ ~ feasible c clb cub x.
Proof.
  exists [1%R], 1%R, 1%R, [(/ 1 * ((1 - 1) / 2) / 1)%R]. split; [each; lra|]. split; [lra|]. split; [reflexivity|].
  intros (_ & _ & H). unfold dot in H. simpl in H. lra.
Qed.

(** ** C09: every iteration moves towards a minimiser of the linearised objective over the whole feasible set. *)
Theorem C09_linear_minimiser : forall jac c clb cub x0 max_iter x,
  positive c -> (0 <= clb <= cub)%R ->
  frank_wolfe jac c clb cub x0 max_iter = Ok x ->
  exists xs, length xs = S max_iter /\ (forall y, x0 = Some y -> nth 0 xs [] = y) /\ nth max_iter xs [] = x /\
    forall k, k < max_iter -> exists g v,
      jac (nth k xs []) = Ok g /\ linear_minimiser c clb cub g v /\
      moved (2 / (INR k + 2)) (nth k xs []) v (nth (S k) xs []).
Proof.
  intros jac c clb cub x0 n x Hc Hb H. apply (fw_loop_trace jac c clb cub Hc Hb) in H as (xs & L & H0 & Hn & Ht).
  exists xs. split; [auto|]. split; [|split; auto].
  - intros y ->. exact H0.
  - intros k Hk. destruct (Ht k Hk) as (g & v & Hg & Hm & Hv). exists g, v. split; [auto|]. split; [auto|].
    replace (INR k + 2)%R with (INR (1 + k) + 1)%R by (rewrite plus_INR; simpl; lra). exact Hv.
Qed.

Example C09_ex : linear_minimiser [1; 2]%R 1 3 [1; -1]%R [0; 3 / 2]%R.
Proof.
  apply fw_vertex_spec; [each; lra|lra|].
  unfold fw_vertex, np_map2. cbn -[Rltb Rleb]. decide_R. cbn -[Rltb Rleb]. decide_R. cbn. list_eq.
Qed.

(** ** C10 *)

Lemma get_cons {A} (v : A) l : get (Some (v :: l)) 0 = Ok v.
Proof. reflexivity. Qed.

(** Equality constraint (one row; [A] absent). *)
Theorem C10_equality : forall slsqp Q c a beq lb ub x0 max_iter x f,
  positive a -> (0 <= beq)%R -> 1 <= max_iter ->
  qp_solve slsqp Q c None None (Some [a]) (Some [beq]) lb ub x0 max_iter "frank-wolfe" = Ok (x, f) ->
  length x = length a /\ nonneg x /\ satisfies_eq [a] [beq] x /\ f = objective Q c x.
Proof.
  intros slsqp Q c a beq lb ub x0 n x f Ha Hb Hn H. unfold qp_solve in H. cbn -[frank_wolfe] in H.
  apply bind_ok in H as [y [Hy H]]. apply bind_ok in H as [g [Hg H]]. injection H as <- <-.
  apply qp_func_ok in Hg. apply frank_wolfe_feasible in Hy as (L & N & B); auto; [|lra].
  split; [auto|]. split; [auto|]. split; [|auto]. constructor; [lra|constructor].
Qed.

(** Two opposite rows: a lower and an upper bound on the same linear form. *)
Theorem C10_two_sided : forall slsqp Q c a b0 b1 beq lb ub x0 max_iter x f,
  positive a -> (b1 <= 0)%R -> 1 <= max_iter ->
  qp_solve slsqp Q c (Some [a; map Ropp a]) (Some [b0; b1]) None beq lb ub x0 max_iter "frank-wolfe" = Ok (x, f) ->
  length x = length a /\ nonneg x /\ satisfies_le [a; map Ropp a] [b0; b1] x /\ f = objective Q c x.
Proof.
  intros slsqp Q c a b0 b1 beq lb ub x0 n x f Ha Hb Hn H. unfold qp_solve in H.
  change (String.eqb "frank-wolfe" "scipy") with false in H. change (String.eqb "frank-wolfe" "frank-wolfe") with true in H.
  cbv iota in H. unfold qp_solve_fw in H. apply bind_ok in H as [[] [Hv H]].
  unfold fw_validate in Hv. cbn -[allclose Rltb] in Hv. apply bind_ok in Hv as [cl [_ Hv]].
  destruct cl; [|discriminate]. cbn -[Rltb] in Hv.
  destruct (Rltb b0 (- b1)) eqn:E; [discriminate|]. apply Rltb_false in E.
  cbn -[frank_wolfe] in H. apply bind_ok in H as [y [Hy H]]. apply bind_ok in H as [g [Hg H]]. injection H as <- <-.
  apply qp_func_ok in Hg. apply frank_wolfe_feasible in Hy as (L & N & B); auto; [|lra].
  split; [auto|]. split; [auto|]. split; [|auto]. each; [lra|].
  replace (dot (map Ropp a) y) with (- dot a y)%R; [lra|].
  clear. revert y. induction a; intros [|t y]; try (unfold dot; simpl; lra). simpl map. rewrite !dot_cons, <- IHa. lra.
Qed.

(** One inequality row. *)
Theorem C10_one_sided : forall slsqp Q c a b0 beq lb ub x0 max_iter x f,
  positive a -> (0 <= b0)%R -> 1 <= max_iter ->
  qp_solve slsqp Q c (Some [a]) (Some [b0]) None beq lb ub x0 max_iter "frank-wolfe" = Ok (x, f) ->
  length x = length a /\ nonneg x /\ satisfies_le [a] [b0] x /\ f = objective Q c x.
Proof.
  intros slsqp Q c a b0 beq lb ub x0 n x f Ha Hb Hn H. unfold qp_solve in H. cbn -[frank_wolfe] in H.
  apply bind_ok in H as [y [Hy H]]. apply bind_ok in H as [g [Hg H]]. injection H as <- <-.
  apply qp_func_ok in Hg. apply frank_wolfe_feasible in Hy as (L & N & B); auto; [|lra].
  split; [auto|]. split; [auto|]. split; [|auto]. constructor; [lra|constructor].
Qed.

(** Two rows that are only approximately opposite are accepted too; the second inequality then holds up to the
    tolerance of [np.allclose]. *)
Theorem C10_nearly_opposite : forall slsqp Q c a0 a1 b0 b1 beq lb ub x0 max_iter x f,
  positive a0 -> (b1 <= 0)%R -> 1 <= max_iter ->
  qp_solve slsqp Q c (Some [a0; a1]) (Some [b0; b1]) None beq lb ub x0 max_iter "frank-wolfe" = Ok (x, f) ->
  nonneg x /\ (dot a0 x <= b0)%R /\
  (dot a1 x <= b1 + dot (map (fun t => 1 / 100000000 + 1 / 100000 * Rabs t) a1) x)%R.
Proof.
  intros slsqp Q c a a1 b0 b1 beq lb ub x0 n x f Ha Hb Hn H. unfold qp_solve in H.
  change (String.eqb "frank-wolfe" "scipy") with false in H. change (String.eqb "frank-wolfe" "frank-wolfe") with true in H.
  cbv iota in H. unfold qp_solve_fw in H. apply bind_ok in H as [[] [Hv H]].
  unfold fw_validate in Hv. cbn -[allclose Rltb] in Hv. apply bind_ok in Hv as [cl [Hcl Hv]].
  destruct cl; [|discriminate]. cbn -[Rltb] in Hv.
  destruct (Rltb b0 (- b1)) eqn:E; [discriminate|]. apply Rltb_false in E.
  cbn -[frank_wolfe] in H. apply bind_ok in H as [y [Hy H]]. apply bind_ok in H as [g [Hg H]]. injection H as <- <-.
  apply frank_wolfe_feasible in Hy as (L & N & B); auto; [|lra].
  split; [auto|]. split; [lra|].
  unfold allclose in Hcl. apply bind_ok in Hcl as [d [Hd Hcl]]. apply np_map2_ok in Hd as [Hl ->]. rewrite map_length in Hl.
  injection Hcl as Hcl.
  assert (G : (dot a1 y + dot a y <= dot (map (fun t => 1 / 100000000 + 1 / 100000 * Rabs t) a1) y)%R).
  { clear -Hl Hcl N L. revert a1 y Hl Hcl N L. induction a as [|p a IH]; intros [|q a1] [|t y] Hl Hcl N L; simpl in Hl, L; try discriminate.
    - unfold dot. simpl. lra.
    - cbn in Hcl. apply andb_true_iff in Hcl as [H1 H2]. apply Rleb_iff in H1. rewrite Rabs_Ropp in H1.
      simpl map. rewrite !dot_cons. apply Forall_cons_iff in N as [Nt N].
      specialize (IH a1 y ltac:(lia) H2 N ltac:(lia)).
      assert (p + q <= 1 / 100000000 + 1 / 100000 * Rabs q)%R.
      { eapply Rle_trans; [|exact H1]. replace (p + q)%R with (p - - q)%R by ring. apply Rle_abs. }
      assert ((p + q) * t <= (1 / 100000000 + 1 / 100000 * Rabs q) * t)%R by (apply Rmult_le_compat_r; auto). lra. }
  lra.
Qed.

(** Rejections. *)
Theorem C10_rejects : forall slsqp Q c A b Aeq beq lb ub x0 max_iter,
  (forall solver, solver <> "scipy"%string -> solver <> "frank-wolfe"%string ->
     qp_solve slsqp Q c A b Aeq beq lb ub x0 max_iter solver = Err ValueError) /\
  (A = None -> Aeq = None -> qp_solve slsqp Q c A b Aeq beq lb ub x0 max_iter "frank-wolfe" = Err ValueError) /\
  (forall M, Aeq = Some M -> 1 < length M ->
     qp_solve slsqp Q c A b Aeq beq lb ub x0 max_iter "frank-wolfe" = Err ValueError) /\
  (forall M, A = Some M -> 2 < length M ->
     qp_solve slsqp Q c A b Aeq beq lb ub x0 max_iter "frank-wolfe" = Err ValueError) /\
  (forall a b0 b1, A = Some [a; map Ropp a] -> b = Some [b0; b1] -> (b0 < - b1)%R ->
     qp_solve slsqp Q c A b Aeq beq lb ub x0 max_iter "frank-wolfe" = Err ValueError).
Proof.
  intros slsqp Q c A b Aeq beq lb ub x0 n. unfold qp_solve.
  change (String.eqb "frank-wolfe" "scipy") with false. change (String.eqb "frank-wolfe" "frank-wolfe") with true. cbv iota.
  split; [|split; [|split; [|split]]].
  - intros s H1 H2. now rewrite (proj2 (String.eqb_neq s "scipy") H1), (proj2 (String.eqb_neq s "frank-wolfe") H2).
  - intros -> ->. reflexivity.
  - intros M -> HM. unfold qp_solve_fw, fw_validate. apply Nat.ltb_lt in HM. now rewrite HM.
  - intros M -> HM. unfold qp_solve_fw, fw_validate. apply Nat.ltb_lt in HM. rewrite HM.
    destruct Aeq as [E|]; [destruct (1 <? length E)|]; reflexivity.
  - intros a b0 b1 -> -> Hlt. unfold qp_solve_fw, fw_validate.
    assert (Hac : allclose a (map Ropp (map Ropp a)) = Ok true).
    { unfold allclose. rewrite np_map2_eq by now rewrite !map_length. cbn [bind]. f_equal.
      induction a; auto. simpl. rewrite IHa, andb_true_r. apply Rleb_iff. rewrite Ropp_involutive, Rminus_diag_eq by auto.
      rewrite Rabs_R0. pose proof (Rabs_pos a). lra. }
    cbn -[allclose Rltb]. rewrite Hac. cbn -[Rltb]. rewrite (proj2 (Rltb_iff _ _) Hlt).
    destruct Aeq as [E|]; [destruct E as [|? [|? ?]]|]; reflexivity.
Qed.

(** What does not hold. (1) Bounds are ignored. *)
Theorem C10_bounds_ignored_refuted : forall slsqp, exists Q A b ub x f,
  qp_solve slsqp Q None (Some A) (Some b) None None (Some [0%R]) (Some ub) None 1 "frank-wolfe" = Ok (x, f) /\
  satisfies_le A b x /\ (exists z, nonneg z /\ satisfies_le A b z /\ Forall2 Rle z ub) /\ ~ Forall2 Rle x ub.
Proof.
  intros slsqp. exists [[0%R]], [[1%R]], [5%R], [1%R], [5%R]. eexists. split; [|split; [|split]].
  - unfold qp_solve. cbn -[frank_wolfe]. unfold frank_wolfe, fw_loop, fw_step, fw_vertex, qp_jac, np_map2. cbn -[Rltb Rleb INR].
    rewrite Rinv_1. decide_R. cbn -[INR]. simpl INR.
    match goal with |- Ok ([?a], _) = _ => replace a with 5%R by field end. reflexivity.
  - each. unfold dot. simpl. lra.
  - exists [1%R]. each; unfold dot; simpl; lra.
  - intros H. inversion H; subst. lra.
Qed.

(** (2) When both [A] and [Aeq] are given, [A x <= b] is ignored. *)
Theorem C10_both_constraints_refuted : forall slsqp, exists Q A b Aeq beq x f,
  qp_solve slsqp Q (Some [0; 1]%R) (Some A) (Some b) (Some Aeq) (Some beq) None None None 1 "frank-wolfe" = Ok (x, f) /\
  (exists z, nonneg z /\ satisfies_le A b z /\ satisfies_eq Aeq beq z) /\ ~ satisfies_le A b x.
Proof.
  intros slsqp. exists [[0; 0]; [0; 0]]%R, [[2; 1]]%R, [1%R], [[1; 1]]%R, [1%R], [1; 0]%R. eexists. split; [|split].
  - unfold qp_solve. cbn -[frank_wolfe]. unfold frank_wolfe, fw_loop, fw_step, fw_vertex, qp_jac, np_map2. cbn -[Rltb Rleb INR].
    decide_R. cbn -[Rltb Rleb INR]. decide_R. cbn -[INR]. rewrite Rinv_1. simpl INR.
    match goal with |- Ok ([?a; ?b], _) = _ => replace a with 1%R by field; replace b with 0%R by field end. reflexivity.
  - exists [0; 1]%R. each; unfold dot; simpl; lra.
  - intros H. inversion H; subst. unfold dot in *. simpl in *. lra.
Qed.

(** (3) With a negative lower bound the result may violate x >= 0. *)
Theorem C10_negative_lower_bound_refuted : forall slsqp, exists Q A b x f,
  qp_solve slsqp Q (Some [1%R]) (Some A) (Some b) None None None None None 1 "frank-wolfe" = Ok (x, f) /\
  (exists z, nonneg z /\ satisfies_le A b z) /\ ~ nonneg x.
Proof.
  intros slsqp. exists [[0%R]], [[1%R]; [-1]%R], [1; 1]%R, [-1]%R. eexists. split; [|split].
  - unfold qp_solve. change (String.eqb "frank-wolfe" "scipy") with false. change (String.eqb "frank-wolfe" "frank-wolfe") with true. cbv iota. unfold qp_solve_fw, fw_validate. cbn -[frank_wolfe allclose Rltb].
    replace (allclose [1%R] [(- -1)%R]) with (Ok true).
    2:{ unfold allclose, np_map2. cbn -[Rleb]. rewrite (proj2 (Rleb_iff _ _)); auto.
        replace (1 - - -1)%R with 0%R by ring. rewrite Rabs_R0. pose proof (Rabs_pos (- -1)). lra. }
    cbn -[frank_wolfe Rltb]. decide_R. cbn -[frank_wolfe].
    unfold frank_wolfe, fw_loop, fw_step, fw_vertex, qp_jac, np_map2. cbn -[Rltb Rleb INR].
    rewrite Rinv_1. decide_R. cbn -[INR]. simpl INR.
    match goal with |- Ok ([?a], _) = _ => replace a with (-1)%R by field end. reflexivity.
  - exists [0%R]. each; unfold dot; simpl; lra.
  - intros H. inversion H; subst. lra.
Qed.

Example C10_ex : forall slsqp, exists f,
  qp_solve slsqp [[1; 0]; [0; 1]]%R (Some [-1; -2]%R) (Some [[1; 1]; [-1; -1]]%R) (Some [3; -2]%R) None None None None
    (Some [1; 1]%R) 1 "frank-wolfe" = Ok ([0; 3]%R, f).
Proof.
  intros slsqp. eexists. unfold qp_solve. change (String.eqb "frank-wolfe" "scipy") with false. change (String.eqb "frank-wolfe" "frank-wolfe") with true. cbv iota. unfold qp_solve_fw, fw_validate. cbn -[frank_wolfe allclose Rltb].
  replace (allclose [1; 1]%R [(- -1); (- -1)]%R) with (Ok true).
  2:{ unfold allclose, np_map2. cbn -[Rleb]. rewrite (proj2 (Rleb_iff _ _)); auto.
      replace (1 - - -1)%R with 0%R by ring. rewrite Rabs_R0. pose proof (Rabs_pos (- -1)). lra. }
  cbn -[frank_wolfe Rltb]. decide_R. cbn -[frank_wolfe].
  unfold frank_wolfe, fw_loop, fw_step, fw_vertex, qp_jac, np_map2. cbn -[Rltb Rleb INR].
  rewrite Rinv_1. decide_R. cbn -[Rltb Rleb INR]. decide_R. cbn -[INR]. simpl INR.
  match goal with |- Ok ([?a; ?b], _) = _ => replace a with 0%R by field; replace b with 3%R by field end. reflexivity.
Qed.

(** ** C78: convergence rate of the Frank-Wolfe solver on a convex quadratic. *)
Theorem C78_converges : forall n Q c a clb cub x0 max_iter x C,
  square n Q -> symmetric Q -> psd n Q -> (forall d, c = Some d -> length d = n) ->
  length a = n -> positive a -> (0 <= clb <= cub)%R -> 1 <= max_iter ->
  curvature_bound Q a clb cub x0 C ->
  frank_wolfe (qp_jac Q c) a clb cub (Some x0) max_iter = Ok x ->
  feasible a clb cub x /\
  forall w, feasible a clb cub w -> (objective Q c x <= objective Q c w + 2 * C / (INR max_iter + 2))%R.
Proof.
  intros n Q c a clb cub x0 m x C HQ HS HP Hc Ha Hp Hb Hm HC H. split.
  - eapply frank_wolfe_feasible; eauto.
  - intros w Hw. pose proof (frank_wolfe_rate n Q c a clb cub x0 C HQ HS HP Hc Ha Hp Hb HC w m x Hw Hm H). lra.
Qed.

(** Such a curvature bound always exists, so the gap to the constrained minimum vanishes as [max_iter] grows. *)
Theorem C78_gap_vanishes : forall n Q c a clb cub x0 eps,
  square n Q -> symmetric Q -> psd n Q -> (forall d, c = Some d -> length d = n) ->
  length a = n -> 0 < n -> positive a -> (0 <= clb <= cub)%R ->
  (forall y, x0 = Some y -> length y = n) -> (0 < eps)%R ->
  exists N, forall max_iter, N <= max_iter -> exists x,
    frank_wolfe (qp_jac Q c) a clb cub x0 max_iter = Ok x /\ feasible a clb cub x /\
    forall w, feasible a clb cub w -> (objective Q c x <= objective Q c w + eps)%R.
Proof.
  intros n Q c a clb cub x0 eps HQ HS HP Hc Ha Hn Hp Hb Hx He.
  set (s := start a clb cub x0).
  assert (Ls : length s = n) by (unfold s; rewrite start_length; [auto|]; intros; rewrite Ha; auto).
  destruct (curvature_exists n Q a clb cub s HQ Ha Hp Ls) as [C HC].
  destruct (INR_above (2 * Rmax C 0 / eps)) as [N HN].
  exists (S N). intros m Hm.
  assert (Hrun : frank_wolfe (qp_jac Q c) a clb cub x0 m = frank_wolfe (qp_jac Q c) a clb cub (Some s) m) by reflexivity.
  destruct (C08_frank_wolfe_returns (qp_jac Q c) a clb cub x0 m) as [x Hxx].
  - intros ->. simpl in Ha. lia.
  - intros y Hy. rewrite Ha. auto.
  - intros y Hy. rewrite Ha in *. apply (qp_jac_total Q c n); auto.
  - exists x. split; [auto|]. rewrite Hrun in Hxx.
    destruct (C78_converges n Q c a clb cub s m x C HQ HS HP Hc Ha Hp Hb ltac:(lia) HC Hxx) as [Hf Hw]. split; [auto|].
    intros w Hfw. eapply Rle_trans; [exact (Hw w Hfw)|]. apply Rplus_le_compat_l.
    apply le_INR in Hm. rewrite S_INR in Hm.
    assert (P : (0 < INR m + 2)%R) by (pose proof (pos_INR N); lra).
    apply (Rmult_le_reg_r (INR m + 2)); auto. unfold Rdiv. rewrite Rmult_assoc, Rinv_l, Rmult_1_r by lra.
    assert (K : (2 * Rmax C 0 < eps * INR N)%R).
    { apply (Rmult_lt_compat_l eps) in HN; auto. replace (eps * (2 * Rmax C 0 / eps))%R with (2 * Rmax C 0)%R in HN by (field; lra). lra. }
    pose proof (Rmax_l C 0). assert (eps * INR N <= eps * (INR m + 2))%R by (apply Rmult_le_compat_l; lra). lra.
Qed.

(** For a single inequality row the solver minimises over the boundary A x = b instead of A x <= b: it does not
    converge to the documented minimum. *)
Theorem C78_single_row_refuted : forall slsqp, exists Q A b z,
  psd 1 Q /\ nonneg z /\ satisfies_le A b z /\
  forall max_iter, 1 <= max_iter -> exists x f,
    qp_solve slsqp Q None (Some A) (Some b) None None None None None max_iter "frank-wolfe" = Ok (x, f) /\
    (objective Q None z + 1 < f)%R.
Proof.
  intros slsqp. exists [[1%R]], [[1%R]], [2%R], [0%R]. split; [|split; [|split]].
  - intros [|t [|]] H; try discriminate. unfold dot, matvec. simpl. unfold dot. simpl. nra.
  - each. lra.
  - each. unfold dot. simpl. lra.
  - intros m Hm.
    destruct (C08_frank_wolfe_returns (qp_jac [[1%R]] None) [1%R] 2 2 None m) as [x Hx]; try discriminate.
    + intros y Hy. apply (qp_jac_total _ _ 1); auto; [|discriminate]. split; auto; each; auto.
    + exists x. assert (P1 : positive [1%R]) by (each; lra).
      destruct (frank_wolfe_feasible (qp_jac [[1%R]] None) [1%R] 2 2 None m x P1 ltac:(lra) Hm Hx) as (L & N & B).
      destruct x as [|t [|]]; try discriminate. unfold dot in B. simpl in B. assert (t = 2)%R by lra. subst t.
      eexists. unfold qp_solve. cbn -[frank_wolfe qp_jac qp_func]. rewrite Hx. cbn. split; [reflexivity|].
      unfold objective, dot, matvec. simpl. unfold dot. simpl. lra.
Qed.

Example C78_ex : square 2 [[2; 1]; [1; 2]]%R /\ symmetric [[2; 1]; [1; 2]]%R /\ psd 2 [[2; 1]; [1; 2]]%R.
Proof.
  split; [split; [auto|each; auto]|]. split.
  - intros [|[|[|i]]] [|[|[|j]]]; simpl; auto; try (destruct i; auto); try (destruct j; auto).
  - intros [|p [|q [|]]] H; try discriminate. unfold dot, matvec. simpl. unfold dot. simpl.
    pose proof (pow2_ge_0 (p + q)). pose proof (pow2_ge_0 p). pose proof (pow2_ge_0 q). simpl in *. lra.
Qed.

(** ** C79: the problem handed to the scipy solver is the documented one. *)
Definition meets_bound (t : R) (b : option R * option R) : Prop :=
  (forall l, fst b = Some l -> (l <= t)%R) /\ (forall u, snd b = Some u -> (t <= u)%R).
Definition meets_problem (p : scipy_problem) (x : list R) : Prop :=
  Forall (fun con => (forall l, snd (fst con) = Some l -> Forall2 (fun row v => v <= dot row x)%R (fst (fst con)) l) /\
                     (forall u, snd con = Some u -> Forall2 (fun row v => dot row x <= v)%R (fst (fst con)) u)) (sp_constraints p) /\
  (forall bs, sp_bounds p = Some bs -> Forall2 meets_bound x bs).

Lemma forall2_le_eq A b x : Forall2 (fun row v => v <= dot row x)%R A b /\ Forall2 (fun row v => dot row x <= v)%R A b <-> satisfies_eq A b x.
Proof.
  unfold satisfies_eq. split.
  - intros [H1 H2]. induction H1; inversion H2; subst; constructor; [lra|]. now apply IHForall2.
  - intros H. split; induction H; constructor; auto; lra.
Qed.

Theorem C79_scipy_problem : forall Ab Aeqb lb ub x,
  (forall l u, lb = Some l -> ub = Some u -> length l = length u) ->
  meets_problem (scipy_build (option_map fst Ab) (option_map snd Ab) (option_map fst Aeqb) (option_map snd Aeqb) lb ub) x <->
  (forall A b, Ab = Some (A, b) -> satisfies_le A b x) /\
  (forall A b, Aeqb = Some (A, b) -> satisfies_eq A b x) /\
  (forall l, lb = Some l -> Forall2 Rle l x) /\
  (forall u, ub = Some u -> Forall2 Rle x u).
Proof.
  intros Ab Aeqb lb ub x Hl. unfold meets_problem, scipy_build. cbn [sp_constraints sp_bounds].
  rewrite Forall_app.
  assert (G1 : Forall (fun con : list (list R) * option (list R) * option (list R) =>
       (forall l, snd (fst con) = Some l -> Forall2 (fun row v => v <= dot row x)%R (fst (fst con)) l) /\
       (forall u, snd con = Some u -> Forall2 (fun row v => dot row x <= v)%R (fst (fst con)) u))
       (match option_map fst Ab, option_map snd Ab with Some M, Some v => [(M, None, Some v)] | _, _ => [] end) <->
     (forall A b, Ab = Some (A, b) -> satisfies_le A b x)).
  { destruct Ab as [[A b]|]; simpl.
    - rewrite Forall_cons_iff. simpl. split.
      + intros [[_ H] _] A' b' [= <- <-]. now apply H.
      + intros H. split; [|constructor]. split; [discriminate|]. intros u [= <-]. now apply H.
    - split; [discriminate|constructor]. }
  assert (G2 : Forall (fun con : list (list R) * option (list R) * option (list R) =>
       (forall l, snd (fst con) = Some l -> Forall2 (fun row v => v <= dot row x)%R (fst (fst con)) l) /\
       (forall u, snd con = Some u -> Forall2 (fun row v => dot row x <= v)%R (fst (fst con)) u))
       (match option_map fst Aeqb, option_map snd Aeqb with Some M, Some v => [(M, Some v, Some v)] | _, _ => [] end) <->
     (forall A b, Aeqb = Some (A, b) -> satisfies_eq A b x)).
  { destruct Aeqb as [[A b]|]; simpl.
    - rewrite Forall_cons_iff. simpl. split.
      + intros [[H1 H2] _] A' b' [= <- <-]. apply forall2_le_eq. split; auto.
      + intros H. split; [|constructor]. specialize (H A b eq_refl). apply forall2_le_eq in H as [H1 H2].
        split; intros ? [= <-]; auto.
    - split; [discriminate|constructor]. }
  rewrite G1, G2. clear G1 G2.
  assert (G3 : (forall bs, (match lb, ub with
       | None, None => None
       | None, Some u => Some (map (fun b => (None, Some b)) u)
       | Some l, None => Some (map (fun b => (Some b, None)) l)
       | Some l, Some u => Some (map2 (fun b1 b2 => (Some b1, Some b2)) l u) end) = Some bs -> Forall2 meets_bound x bs) <->
     ((forall l, lb = Some l -> Forall2 Rle l x) /\ (forall u, ub = Some u -> Forall2 Rle x u))).
  { unfold meets_bound. destruct lb as [l|], ub as [u|].
    - specialize (Hl l u eq_refl eq_refl). split.
      + intros H. specialize (H _ eq_refl). split; intros ? [= <-].
        * revert x u Hl H. induction l; intros x [|b u] Hl H; simpl in *; try discriminate; inversion H as [|t b' xs bs' Hh Ht]; subst; constructor.
          -- now apply Hh.
          -- apply (IHl xs u); auto.
        * revert x l Hl H. induction u; intros x [|b l] Hl H; simpl in *; try discriminate; inversion H as [|t b' xs bs' Hh Ht]; subst; constructor.
          -- now apply Hh.
          -- apply (IHu xs l); auto.
      + intros [H1 H2] bs [= <-]. specialize (H1 l eq_refl). specialize (H2 u eq_refl).
        revert u Hl H2. induction H1; intros [|b u] Hl H2; simpl in *; try discriminate; inversion H2; subst; constructor.
        * simpl. split; intros ? [= <-]; auto.
        * apply IHForall2; auto.
    - split.
      + intros H. specialize (H _ eq_refl). split; [|discriminate]. intros ? [= <-].
        revert x H. induction l; intros x H; inversion H as [|t b' xs bs' Hh Ht]; subst; constructor; [now apply Hh|]. now apply IHl.
      + intros [H1 _] bs [= <-]. specialize (H1 l eq_refl). clear Hl. induction H1; constructor; auto. simpl. split; [intros ? [= <-]; auto|discriminate].
    - split.
      + intros H. specialize (H _ eq_refl). split; [discriminate|]. intros ? [= <-].
        revert x H. induction u; intros x H; inversion H as [|t b' xs bs' Hh Ht]; subst; constructor; [now apply Hh|]. now apply IHu.
      + intros [_ H1] bs [= <-]. specialize (H1 u eq_refl). clear Hl. induction H1; constructor; auto. simpl. split; [discriminate|intros ? [= <-]; auto].
    - split; [intros _; split; discriminate|discriminate]. }
  rewrite G3. tauto.
Qed.

Example C79_ex : meets_problem (scipy_build (Some [[1; 1]]%R) (Some [3]%R) None None (Some [0; 0]%R) (Some [2; 2]%R)) [1; 2]%R.
Proof.
  apply (C79_scipy_problem (Some ([[1; 1]]%R, [3]%R)) None).
  - now intros l u [= <-] [= <-].
  - repeat split; intros; try discriminate.
    + injection H as <- <-. each. unfold dot. simpl. lra.
    + injection H as <-. each; lra.
    + injection H as <-. each; lra.
Qed.
