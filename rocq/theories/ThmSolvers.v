(** Theorems C241: the solvers of qp_solve agree. *)
From Coq Require Import String List ZArith Bool Arith Lia Reals Lra.
From Verif Require Import Np NpFacts RVec RVecFacts FWModel FWSpec FWProofs FWProofs2 ThmFW.
Import ListNotations.
Local Open Scope nat_scope.
Local Open Scope list_scope.

(** x'Qx is at least l |x|^2. *)
Definition definite (n : nat) (l : R) (Q : list (list R)) : Prop := (0 < l)%R /\ forall x, length x = n -> (l * dot x x <= dot x (matvec Q x))%R.
Definition sqdist (x z : list R) : R := dot (vsub x z) (vsub x z).
(** [z] minimises the objective over the feasible set. *)
Definition minimiser Q c a clb cub z : Prop := feasible a clb cub z /\ forall w, feasible a clb cub w -> (objective Q c z <= objective Q c w)%R.
(** What is asked of scipy's minimiser: it keeps the length of the starting point, meets the constraints and bounds, reports the value of the function and no point that meets
    them has a smaller one. *)
Definition exact (slsqp : scipy_problem -> (list R -> res R) -> list R -> res (list R * R)) : Prop :=
  forall p f x0 z v, slsqp p f x0 = Ok (z, v) -> length z = length x0 /\ meets_problem p z /\ f z = Ok v /\
    forall w u, length w = length x0 -> meets_problem p w -> f w = Ok u -> (v <= u)%R.

(** A value close to the minimum is taken close to the minimiser. *)
Theorem C241_close : forall n l Q c a clb cub x z, square n Q -> symmetric Q -> definite n l Q -> length a = n ->
  feasible a clb cub x -> minimiser Q c a clb cub z -> (l * sqdist x z <= 4 * (objective Q c x - objective Q c z))%R.
Proof.
  intros n l Q c a clb cub x z HQ HS [Hl HD] Ha Fx [Fz Mz]. destruct Fx as (Lx & Nx & Bx), Fz as (Lz & Nz & Bz). rewrite Ha in Lx, Lz.
  pose (m := vadd (vscale (1 - 1 / 2) x) (vscale (1 / 2) z)).
  assert (Fm : feasible a clb cub m) by (apply convex_feasible; [lra|split; [congruence|auto]|split; [congruence|auto]]).
  pose proof (Mz m Fm) as M. pose proof (HD (vsub x z) ltac:(rewrite vsub_length; congruence)) as D. unfold sqdist.
  rewrite (quad_sub n Q x z HQ HS Lx Lz) in D. pose proof (quad_expand n Q (1 / 2) x z HQ HS Lx Lz) as E. cbv zeta in E. fold m in E.
  unfold objective in *. rewrite E in M. rewrite (bilinear_sym n Q z x HQ HS Lz Lx) in M.
  assert (K : forall v, dot m v = (1 / 2 * dot x v + 1 / 2 * dot z v)%R) by (intros v; unfold m; rewrite dot_add_l, !dot_scale_l by (rewrite !vscale_length; congruence); lra).
  destruct c as [v|]; [rewrite K in M|]; lra.
Qed.

Lemma sqdist_zero : forall x z, length x = length z -> (sqdist x z <= 0)%R -> x = z.
Proof.
  unfold sqdist. induction x as [|a x IH]; intros [|b z] L H; try discriminate; [reflexivity|]. rewrite !vsub_cons, dot_cons in H.
  assert (P : (0 <= dot (vsub x z) (vsub x z))%R). { clear. generalize (vsub x z). induction l as [|t l IH]; [unfold dot; cbn; lra|]. rewrite dot_cons. pose proof (Rle_0_sqr t). unfold Rsqr in *. lra. }
  pose proof (Rle_0_sqr (a - b)) as S. unfold Rsqr in S. f_equal; [|apply IH; [now injection L|lra]]. assert (S0 : ((a - b) * (a - b) = 0)%R) by lra. apply Rmult_integral in S0. lra.
Qed.
(** There is only one minimiser. *)
Theorem C241_unique : forall n l Q c a clb cub z z', square n Q -> symmetric Q -> definite n l Q -> length a = n ->
  minimiser Q c a clb cub z -> minimiser Q c a clb cub z' -> z = z'.
Proof.
  intros n l Q c a clb cub z z' HQ HS HD Ha M M'. apply sqdist_zero; [destruct M as [[L _] _], M' as [[L' _] _]; congruence|].
  pose proof (C241_close n l Q c a clb cub z z' HQ HS HD Ha (proj1 M) M') as H. pose proof (proj2 M _ (proj1 M')). destruct HD as [Hl _].
  apply (Rmult_le_reg_l l); lra.
Qed.

Lemma dot_opp a : forall x, dot (map Ropp a) x = (- dot a x)%R.
Proof. induction a; intros [|t y]; try (unfold dot; simpl; lra). simpl map. rewrite !dot_cons, IHa. lra. Qed.
Lemma zeros_le n : forall x, Forall2 Rle (repeat 0%R n) x <-> length x = n /\ nonneg x.
Proof.
  unfold nonneg. induction n as [|n IH]; intros [|t x]; cbn [repeat].
  - split; [split; [reflexivity|constructor]|constructor].
  - split; [intros H; inversion H|intros [H _]; discriminate].
  - split; [intros H; inversion H|intros [H _]; discriminate].
  - split.
    + intros H. inversion H as [|? ? ? ? H1 H2]; subst. apply IH in H2 as [L N]. split; [cbn; congruence|constructor; auto].
    + intros [L N]. inversion N; subst. constructor; auto. apply IH. split; auto.
Qed.
(** The problem handed to scipy has the points that the other solver works on. *)
Lemma scipy_equality a v x : meets_problem (scipy_build None None (Some [a]) (Some [v]) (Some (repeat 0%R (length a))) None) x <-> feasible a v v x.
Proof.
  pose proof (C79_scipy_problem None (Some ([a], [v])) (Some (repeat 0%R (length a))) None x ltac:(discriminate)) as E. cbn [option_map fst snd] in E. rewrite E. clear E.
  unfold feasible. split.
  - intros (_ & H & L & _). specialize (H _ _ eq_refl). specialize (L _ eq_refl). apply zeros_le in L as [L N]. inversion H; subst. split; [auto|split; [auto|lra]].
  - intros (L & N & B). split; [discriminate|]. split; [intros A b E; injection E as <- <-; constructor; [lra|constructor]|]. split; [|discriminate].
    intros l E. injection E as <-. apply zeros_le. auto.
Qed.
Lemma scipy_two_sided a b0 b1 x : meets_problem (scipy_build (Some [a; map Ropp a]) (Some [b0; b1]) None None (Some (repeat 0%R (length a))) None) x <-> feasible a (- b1) b0 x.
Proof.
  pose proof (C79_scipy_problem (Some ([a; map Ropp a], [b0; b1])) None (Some (repeat 0%R (length a))) None x ltac:(discriminate)) as E. cbn [option_map fst snd] in E. rewrite E. clear E.
  unfold feasible. split.
  - intros (H & _ & L & _). specialize (H _ _ eq_refl). specialize (L _ eq_refl). apply zeros_le in L as [L N]. inversion H as [|? ? ? ? H1 H2]; subst. inversion H2 as [|? ? ? ? H3 H4]; subst. rewrite dot_opp in H3. split; [auto|split; [auto|lra]].
  - intros (L & N & B). split; [intros A b E; injection E as <- <-; constructor; [lra|constructor; [rewrite dot_opp; lra|constructor]]|]. split; [discriminate|]. split; [|discriminate].
    intros l E. injection E as <-. apply zeros_le. auto.
Qed.
Lemma qp_func_total n Q c x : square n Q -> (forall d, c = Some d -> length d = n) -> length x = n -> qp_func Q c x = Ok (objective Q c x).
Proof.
  intros [H1 H2] Hc Hx. destruct (qp_func Q c x) as [f|e] eqn:E; [now rewrite (qp_func_ok _ _ _ _ E)|]. exfalso. revert E. unfold qp_func.
  rewrite np_matvec_eq by (rewrite Hx; auto). cbn [bind]. rewrite np_dot_eq by (rewrite matvec_length; congruence). cbn [bind]. destruct c as [d|]; [|discriminate].
  rewrite np_dot_eq by (rewrite (Hc d); congruence). discriminate.
Qed.

Section Agree.
  Variables (n : nat) (l : R) (Q : list (list R)) (c : option (list R)) (a : list R).
  Hypothesis HQ : square n Q.
  Hypothesis HS : symmetric Q.
  Hypothesis HD : definite n l Q.
  Hypothesis Hc : forall d, c = Some d -> length d = n.
  Hypothesis Ha : length a = n.
  Hypothesis Hp : positive a.
  Hypothesis Hn : 0 < n.
  Lemma dot_pos x : (0 <= dot x x)%R.
  Proof. induction x as [|t x IH]; [unfold dot; cbn; lra|]. rewrite dot_cons. pose proof (Rle_0_sqr t). unfold Rsqr in *. lra. Qed.
  Lemma definite_psd : psd n Q.
  Proof. intros x Hx. destruct HD as [L D]. pose proof (D x Hx). pose proof (dot_pos x). assert (0 <= l * dot x x)%R by (apply Rmult_le_pos; lra). lra. Qed.
  Lemma exact_minimiser slsqp p clb cub x0 z v : exact slsqp -> length x0 = n -> (forall w, meets_problem p w <-> feasible a clb cub w) ->
    slsqp p (qp_func Q c) x0 = Ok (z, v) -> minimiser Q c a clb cub z.
  Proof.
    intros X L0 P E. destruct (X _ _ _ _ _ E) as (L & M & F & B). split; [now apply P|]. intros w Fw.
    rewrite (qp_func_total n) in F by (auto; congruence). injection F as <-. destruct Fw as (Lw & Rw). apply (B w); [congruence|apply P; split; auto|]. apply (qp_func_total n); auto. congruence.
  Qed.
  Lemma near slsqp p clb cub x0 y0 eps : exact slsqp -> (0 <= clb <= cub)%R -> length y0 = n -> (forall x, x0 = Some x -> length x = n) ->
    (forall w, meets_problem p w <-> feasible a clb cub w) -> (0 < eps)%R ->
    exists N, forall m, N <= m -> exists x, frank_wolfe (qp_jac Q c) a clb cub x0 m = Ok x /\ length x = n /\
      forall z v, slsqp p (qp_func Q c) y0 = Ok (z, v) -> (sqdist x z <= eps)%R.
  Proof.
    intros X B L0 Lx P He. assert (Hl : (0 < l)%R) by apply HD. assert (He' : (0 < l * eps / 4)%R) by (apply Rmult_lt_0_compat; [apply Rmult_lt_0_compat; lra|lra]).
    destruct (C78_gap_vanishes n Q c a clb cub x0 (l * eps / 4) HQ HS definite_psd Hc Ha Hn Hp B Lx He') as [N H]. exists N. intros m Hm. destruct (H m Hm) as (x & E & F & G).
    exists x. split; [exact E|]. split; [destruct F; congruence|]. intros z v S. pose proof (exact_minimiser _ _ _ _ _ _ _ X L0 P S) as M.
    pose proof (C241_close n l Q c a clb cub x z HQ HS HD Ha F M) as K. pose proof (G z (proj1 M)). apply (Rmult_le_reg_l l); lra.
  Qed.
End Agree.

Definition of_length (n : nat) (x : option (list R)) : Prop := forall y, x = Some y -> length y = n.
Definition pick (n : nat) (x0 : option (list R)) : list R := match x0 with Some x => x | None => repeat 1%R n end.

(** One equality, x >= 0: from some number of iterations on, the results of the two solvers are as close as wished, whatever the starting points are. *)
Theorem C241_equality : forall slsqp n l Q c a v x0 y0 k eps, exact slsqp -> square n Q -> symmetric Q -> definite n l Q -> (forall d, c = Some d -> length d = n) ->
  length a = n -> positive a -> 0 < n -> (0 <= v)%R -> of_length n x0 -> of_length n y0 -> (0 < eps)%R ->
  let solve := qp_solve slsqp Q c None None (Some [a]) (Some [v]) (Some (repeat 0%R n)) None in
  exists N, forall m, N <= m -> exists x f, solve x0 m "frank-wolfe"%string = Ok (x, f) /\ forall z g, solve y0 k "scipy"%string = Ok (z, g) -> (sqdist x z <= eps)%R.
Proof.
  intros slsqp n l Q c a v x0 y0 k eps X HQ HS HD Hc Ha Hp Hn Hv L0 L1 He solve.
  assert (LP : length (pick n y0) = n) by (destruct y0 as [y|]; [now apply L1|apply repeat_length]).
  destruct (near n l Q c a HQ HS HD Hc Ha Hp Hn slsqp _ v v x0 (pick n y0) eps X ltac:(lra) LP L0 (scipy_equality a v) He) as [N H].
  exists N. intros m Hm. destruct (H m Hm) as (x & E & L & G). exists x, (objective Q c x). split.
  - unfold solve, qp_solve. cbn -[frank_wolfe qp_func]. rewrite E. cbn -[qp_func]. now rewrite (qp_func_total n) by auto.
  - intros z g S. apply (G z g). unfold solve, qp_solve in S. cbn -[qp_func scipy_build] in S. rewrite Ha. unfold pick. destruct HQ as [HQ _]. rewrite HQ in S. exact S.
Qed.
(** A lower and an upper bound on the same linear form, x >= 0. *)
Theorem C241_two_sided : forall slsqp n l Q c a b0 b1 x0 y0 k eps, exact slsqp -> square n Q -> symmetric Q -> definite n l Q -> (forall d, c = Some d -> length d = n) ->
  length a = n -> positive a -> 0 < n -> (0 <= - b1 <= b0)%R -> of_length n x0 -> of_length n y0 -> (0 < eps)%R ->
  let solve := qp_solve slsqp Q c (Some [a; map Ropp a]) (Some [b0; b1]) None None (Some (repeat 0%R n)) None in
  exists N, forall m, N <= m -> exists x f, solve x0 m "frank-wolfe"%string = Ok (x, f) /\ forall z g, solve y0 k "scipy"%string = Ok (z, g) -> (sqdist x z <= eps)%R.
Proof.
  intros slsqp n l Q c a b0 b1 x0 y0 k eps X HQ HS HD Hc Ha Hp Hn Hb L0 L1 He solve.
  assert (LP : length (pick n y0) = n) by (destruct y0 as [y|]; [now apply L1|apply repeat_length]).
  destruct (near n l Q c a HQ HS HD Hc Ha Hp Hn slsqp _ (- b1)%R b0 x0 (pick n y0) eps X Hb LP L0 (scipy_two_sided a b0 b1) He) as [N H].
  assert (AC : allclose a (map Ropp (map Ropp a)) = Ok true).
  { unfold allclose. rewrite np_map2_eq by now rewrite !map_length. cbn [bind]. f_equal. clear. induction a as [|t u IH]; [reflexivity|]. cbn [map map2 forallb]. rewrite IH, andb_true_r.
    apply Rleb_iff. rewrite Ropp_involutive. replace (t - t)%R with 0%R by ring. rewrite Rabs_R0. pose proof (Rabs_pos t). lra. }
  exists N. intros m Hm. destruct (H m Hm) as (x & E & L & G). exists x, (objective Q c x). split.
  - unfold solve, qp_solve. change (String.eqb "frank-wolfe" "scipy") with false. change (String.eqb "frank-wolfe" "frank-wolfe") with true. cbv iota. unfold qp_solve_fw, fw_validate.
    cbn -[frank_wolfe allclose Rltb qp_func]. rewrite AC. cbn -[frank_wolfe Rltb qp_func]. assert (B : Rltb b0 (- b1) = false) by (apply Rltb_false; lra). rewrite B. cbn -[frank_wolfe qp_func]. rewrite E. cbn -[qp_func]. now rewrite (qp_func_total n) by auto.
  - intros z g S. apply (G z g). unfold solve, qp_solve in S. cbn -[qp_func scipy_build] in S. rewrite Ha. unfold pick. destruct HQ as [HQ _]. rewrite HQ in S. exact S.
Qed.

(** x1^2 + x2^2 on x1 + x2 = 2: the minimiser is (1, 1). *)
Example C241_ex : let Q := [[2; 0]; [0; 2]]%R in square 2 Q /\ symmetric Q /\ definite 2 2 Q /\ minimiser Q None [1; 1]%R 2 2 [1; 1]%R /\ sqdist [2; 0]%R [1; 1]%R = 2%R.
Proof.
  split; [split; [reflexivity|each; reflexivity]|]. split; [|split; [|split]].
  - intros [|[|[|i]]] [|[|[|j]]]; simpl; auto; try (destruct i; auto); try (destruct j; auto).
  - split; [lra|]. intros [|p [|q [|]]] H; try discriminate. unfold dot, matvec. simpl. unfold dot. simpl. lra.
  - split.
    + split; [reflexivity|]. split; [unfold nonneg; each; lra|unfold dot; simpl; lra].
    + intros [|p [|q [|]]] (L & _ & B); try discriminate. revert B. unfold objective, dot, matvec. simpl. unfold dot. simpl. intros B. assert (q = 2 - p)%R by lra. subst. pose proof (Rle_0_sqr (p - 1)) as S. unfold Rsqr in S. lra.
  - unfold sqdist, dot, vsub. simpl. ring.
Qed.
