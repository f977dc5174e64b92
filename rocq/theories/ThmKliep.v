(** C194: KLIEP and the likelihood of the targets. *)
From Coq Require Import String List ZArith Bool Arith Lia Reals Lra.
From Verif Require Import Np NpFacts Labels Spec SpecFacts UtilsModel UtilsSpec SelectModel RVec RVecFacts ReweightModel ReweightSpec ReweightProofs ThmReweight.
Import ListNotations.
Local Open Scope nat_scope.
Local Open Scope list_scope.

(** ** Specification *)
Definition rbf (g x y : R) : R := exp (- (g * ((x - y) * (x - y)))).
(** The weight that coefficients [alpha] on the centres give to a sample. *)
Definition weight_at {Row} (kern : Row -> Row -> R) (centers : list Row) (alpha : list R) (x : Row) : R := vsum (map (fun p => kern x (fst p) * snd p)%R (combine centers alpha)).
(** The log-likelihood KLIEP maximises: the sum over the targets of the logarithms of their weights. *)
Definition log_likelihood {Row} (kern : Row -> Row -> R) (centers targets : list Row) (alpha : list R) : R := vsum (map (fun x => ln (weight_at kern centers alpha x)) targets).
(** Its constraints: non-negative coefficients, weights that average to one on the sources. *)
Definition admissible {Row} (kern : Row -> Row -> R) (centers sources : list Row) (alpha : list R) : Prop :=
  length alpha = length centers /\ Forall (fun a => 0 <= a)%R alpha /\ mean (map (weight_at kern centers alpha) sources) = 1%R.

(** ** Three sources at 0 and one at 2, one target at 0 and one at 2: the ratio of the densities is 2/3 at 0 and 2 at 2 *)
Definition k0 : R -> R -> R := rbf (ln 2).
Lemma k0_same x : k0 x x = 1%R.
Proof. unfold k0, rbf. replace (- (ln 2 * ((x - x) * (x - x))))%R with 0%R by ring. apply exp_0. Qed.
Lemma exp4 : exp (- (ln 2 * 4)) = (/ 16)%R.
Proof.
  rewrite exp_Ropp. f_equal. replace (ln 2 * 4)%R with (ln 2 + ln 2 + (ln 2 + ln 2))%R by ring. rewrite !exp_plus, !exp_ln by lra. ring.
Qed.
Lemma k0_02 : k0 0 2 = (/ 16)%R.
Proof. unfold k0, rbf. rewrite <- exp4. f_equal. ring. Qed.
Lemma k0_20 : k0 2 0 = (/ 16)%R.
Proof. unfold k0, rbf. rewrite <- exp4. f_equal. ring. Qed.

Definition A0 : list (list R) := [[1; /16]; [/16; 1]]%R.
Definition b0 : list R := [49/64; 19/64]%R.
Lemma iter2 x y : let m0 := (1 * x + (/16 * y + 0))%R in let m1 := (/16 * x + (1 * y + 0))%R in
  let u := (x + EPS * (/ m0 + / 16 * / m1))%R in let v := (y + EPS * (/ 16 * / m0 + / m1))%R in
  let u' := (u + (64 - 49 * u - 19 * v) * 49 / 2762)%R in let v' := (v + (64 - 49 * u - 19 * v) * 19 / 2762)%R in
  (0 < u')%R -> (0 < v')%R -> kliep_iter A0 b0 [x; y] = Ok [u'; v'].
Proof.
  intros m0 m1 u v u' v' Hu Hv. unfold kliep_iter, np_matvec, A0, b0. cbn -[EPS]. unfold np_dot, np_map2, dot, col. cbn -[EPS].
  fold m0 m1.
  replace (x + EPS * (1 * / m0 + (/ 16 * / m1 + 0)))%R with u by (unfold u; ring).
  replace (y + EPS * (/ 16 * / m0 + (1 * / m1 + 0)))%R with v by (unfold v; ring).
  match goal with |- context [Rltb 0 ?t] => replace t with u' by (unfold u'; field) end.
  match goal with |- context [Rltb 0 ?t] => lazymatch t with u' => fail | _ => replace t with v' by (unfold v'; field) end end.
  replace (Rltb 0 u') with true by (symmetry; now apply Rltb_iff). replace (Rltb 0 v') with true by (symmetry; now apply Rltb_iff).
  replace (49 / 64 * u' + (19 / 64 * v' + 0))%R with 1%R by (unfold u', v'; field). f_equal. f_equal; [field|]. f_equal. field.
Qed.
Definition x1 : R := (1 + EPS - (4 + 68 * EPS) * 49 / 2762)%R.
Definition y1 : R := (1 + EPS - (4 + 68 * EPS) * 19 / 2762)%R.
Lemma eps_small : (0 < EPS <= / 1000000000000)%R.
Proof. unfold EPS. lra. Qed.
Lemma first_iter : kliep_iter A0 b0 [1; 1]%R = Ok [x1; y1].
Proof.
  pose proof eps_small. rewrite (iter2 1 1).
  - f_equal. f_equal; [unfold x1; field|]. f_equal. unfold y1; field.
  - replace (/ (1 * 1 + (/ 16 * 1 + 0)))%R with (16 / 17)%R by field. replace (/ (/ 16 * 1 + (1 * 1 + 0)))%R with (16 / 17)%R by field. lra.
  - replace (/ (1 * 1 + (/ 16 * 1 + 0)))%R with (16 / 17)%R by field. replace (/ (/ 16 * 1 + (1 * 1 + 0)))%R with (16 / 17)%R by field. lra.
Qed.
Lemma second_iter : exists x2 y2, kliep_iter A0 b0 [x1; y1] = Ok [x2; y2] /\ (Rabs (x2 - x1) <= / 100000000000 /\ Rabs (y2 - y1) <= / 100000000000)%R.
Proof.
  pose proof eps_small as He. set (m0 := (1 * x1 + (/16 * y1 + 0))%R). set (m1 := (/16 * x1 + (1 * y1 + 0))%R).
  assert (M0 : (9/10 <= m0)%R) by (unfold m0, x1, y1; lra). assert (M1 : (9/10 <= m1)%R) by (unfold m1, x1, y1; lra).
  assert (I : forall m, (9/10 <= m -> 0 <= EPS * / m <= 2 * EPS)%R).
  { intros m Hm. assert (0 < / m)%R by (apply Rinv_0_lt_compat; lra). assert (/ m <= 2)%R.
    { apply Rmult_le_reg_l with m; [lra|]. rewrite Rinv_r by lra. lra. }
    split; [apply Rmult_le_pos; lra|]. rewrite Rmult_comm. apply Rmult_le_compat_r; lra. }
  pose proof (I m0 M0) as I0. pose proof (I m1 M1) as I1. set (p := (EPS * / m0)%R) in *. set (q := (EPS * / m1)%R) in *.
  assert (EU : (EPS * (/ m0 + / 16 * / m1) = p + / 16 * q)%R) by (unfold p, q; ring). assert (EV : (EPS * (/ 16 * / m0 + / m1) = / 16 * p + q)%R) by (unfold p, q; ring).
  do 2 eexists. split; [apply iter2|]; fold m0 m1; rewrite EU, EV; unfold x1, y1 in *; try lra.
  split; apply Rabs_le; lra.
Qed.
Lemma ln_below a : (0 < a -> ln a <= a - 1)%R.
Proof.
  intros Ha. destruct (Rle_lt_dec (ln a) (a - 1)) as [|C]; auto. exfalso. assert (C' := exp_increasing _ _ C). rewrite exp_ln in C' by auto.
  destruct (Req_dec (a - 1) 0) as [Z|Z]; [rewrite Z, exp_0 in C'; lra|]. assert (X := exp_ineq1 _ Z). lra.
Qed.
Lemma ln_close x y d : (1/2 <= x -> 1/2 <= y -> Rabs (x - y) <= d -> Rabs (ln x - ln y) <= 2 * d)%R.
Proof.
  assert (U : forall x y, (1/2 <= x -> 1/2 <= y -> ln x - ln y <= 2 * Rabs (x - y))%R).
  { intros a b Ha Hb. destruct (Rle_dec a b) as [L|L].
    - assert (ln a <= ln b)%R by (destruct L as [L| ->]; [left; apply ln_increasing; lra|lra]). pose proof (Rabs_pos (a - b)). lra.
    - assert (0 < a / b)%R by (apply Rdiv_lt_0_compat; lra). replace (ln a - ln b)%R with (ln (a / b)) by (unfold Rdiv; rewrite ln_mult, ln_Rinv; try lra; apply Rinv_0_lt_compat; lra).
      assert (E : (ln (a / b) <= a / b - 1)%R). { destruct (Rle_lt_dec (ln (a / b)) (a / b - 1)) as [|C]; auto. exfalso. assert (C' := exp_increasing _ _ C). rewrite exp_ln in C' by auto.
        destruct (Req_dec (a / b - 1) 0) as [Z|Z]; [rewrite Z, exp_0 in C'; lra|]. assert (X := exp_ineq1 _ Z). lra. }
      rewrite Rabs_pos_eq by lra. assert ((a / b - 1) = (a - b) * / b)%R by (field; lra). assert (/ b <= 2)%R by (apply Rmult_le_reg_l with b; [lra|]; rewrite Rinv_r by lra; lra).
      assert ((a - b) * / b <= (a - b) * 2)%R by (apply Rmult_le_compat_l; lra). lra. }
  intros Hx Hy Hd. pose proof (U x y Hx Hy). pose proof (U y x Hy Hx). rewrite (Rabs_minus_sym y x) in *. apply Rabs_le. lra.
Qed.

(** The steps have the size of a rounding error (2 ^ -52): the optimisation stops, converged by its own criterion, at the projection of the initial coefficients on the constraint.
    The weights are almost one everywhere, although weights 2/3 and 2 are admissible, are the ratio of the densities, and are much more likely. *)
Theorem C194_likelihood_refuted : exists (X : list R) sd choice alpha centers w best,
  rows_of is_source sd X = [0;0;0;2]%R /\ rows_of is_target sd X = [0;2]%R /\ centers = [0;2]%R /\
  (forall max_iter, 2 <= max_iter -> kliep_fit R k0 choice 100 (/ 1000000) max_iter X (SDArr sd) = Ok (alpha, centers)) /\
  kliep_weights R k0 (alpha, centers) X (SDArr sd) = Ok w /\ Forall (fun v => Rabs (v - 1) <= 1 / 20)%R (rows_of is_source sd w) /\
  admissible k0 centers (rows_of is_source sd X) best /\ map (weight_at k0 centers best) [0;2]%R = [2/3; 2]%R /\
  (log_likelihood k0 centers (rows_of is_target sd X) alpha + / 5 <= log_likelihood k0 centers (rows_of is_target sd X) best)%R.
Proof.
  destruct second_iter as (x2 & y2 & E2 & Dx & Dy). pose proof eps_small as He.
  assert (Rabs_inv : forall a b, (Rabs a <= b -> - b <= a <= b)%R) by (intros a b H; pose proof (Rle_abs a); pose proof (Rle_abs (- a)); rewrite Rabs_Ropp in *; lra).
  assert (Bx := Rabs_inv _ _ Dx). assert (By := Rabs_inv _ _ Dy).
  assert (X1 : (92/100 <= x1 <= 93/100)%R) by (unfold x1; lra). assert (Y1 : (97/100 <= y1 <= 98/100)%R) by (unfold y1; lra).
  exists [0;0;0;2;0;2]%R, [1;1;1;1;-2;-2]%Z, [0;1], [x2; y2], [0;2]%R. do 2 eexists.
  split; [reflexivity|]. split; [reflexivity|]. split; [reflexivity|]. split; [|split; [|split; [|split; [|split]]]].
  - intros [|[|n]] Hn; try lia. unfold kliep_fit. change (rw_split R [0;0;0;2;0;2]%R (SDArr [1;1;1;1;-2;-2]%Z)) with (@Ok (list R * list R) ([0;0;0;2], [0;2])%R). cbn [bind fst snd].
    unfold kliep_optim. change (Nat.min (length [0;2]%R) 100) with 2. change (np_take [0;1] [0;2]%R) with (Ok [0;2]%R). cbn [bind repeat].
    assert (EA : kernel_matrix R k0 [0;2]%R [0;2]%R = A0) by (unfold kernel_matrix; cbn [map]; rewrite !k0_same, k0_02, k0_20; reflexivity).
    assert (EB : col_means (length [0;2]%R) (kernel_matrix R k0 [0;0;0;2]%R [0;2]%R) = b0).
    { unfold kernel_matrix; cbn [map]; rewrite !k0_same, k0_02, k0_20. unfold col_means, mean, col, b0. cbn. f_equal; [field|]. f_equal. field. }
    rewrite EA, EB. change (np_matvec A0 [1;1]%R) with (@Ok (list R) [1 * 1 + (/16 * 1 + 0); /16 * 1 + (1 * 1 + 0)]%R). cbn [bind kliep_loop]. rewrite first_iter. cbn [bind].
    assert (C1 : Rltb (Rabs (kliep_obj A0 [x1; y1] - vsum (map ln [1 * 1 + (/16 * 1 + 0); /16 * 1 + (1 * 1 + 0)]%R))) (/ 1000000) = false).
    { apply Rltb_false. unfold kliep_obj, A0, matvec, dot. cbn -[EPS]. replace (1 * 1 + (/16 * 1 + 0))%R with (/ (16/17))%R by field. replace (/16 * 1 + (1 * 1 + 0))%R with (/ (16/17))%R by field.
      rewrite ln_Rinv by lra. assert (P := ln_below (16/17)%R ltac:(lra)).
      match goal with |- context [(ln ?a + (ln ?b + 0))%R] => assert (P1 := ln_below a ltac:(lra)); assert (P2 := ln_below b ltac:(lra)); set (l0 := ln a) in *; set (l1 := ln b) in * end.
      rewrite Rabs_left; lra. }
    assert (C2 : Rltb (Rabs (kliep_obj A0 [x2; y2] - kliep_obj A0 [x1; y1])) (/ 1000000) = true).
    { apply Rltb_iff. unfold kliep_obj, A0, matvec, dot. cbn -[EPS].
      match goal with |- context [(?a + (?b + 0) - (?c + (?d + 0)))%R] => set (a' := a); set (b' := b); set (c' := c); set (d' := d) end.
      assert (Q1 : (Rabs (a' - c') <= 2 * / 10000000000)%R) by (apply ln_close; [lra|lra|]; apply Rabs_le; lra).
      assert (Q2 : (Rabs (b' - d') <= 2 * / 10000000000)%R) by (apply ln_close; [lra|lra|]; apply Rabs_le; lra).
      replace (a' + (b' + 0) - (c' + (d' + 0)))%R with ((a' - c') + (b' - d'))%R by ring. pose proof (Rabs_triang (a' - c') (b' - d')). lra. }
    rewrite C1, E2. cbn [bind]. rewrite C2. reflexivity.
  - unfold kliep_weights. cbn -[k0]. unfold np_dot, dot. cbn -[k0]. rewrite !k0_same, k0_02, k0_20. reflexivity.
  - unfold rows_of. cbn. repeat (apply Forall_cons; [apply Rabs_le; lra|]). apply Forall_nil.
  - instantiate (1 := [2/3 - 47/24 * (16/255); 47/24 * (256/255)]%R). split; [reflexivity|]. split; [repeat constructor; lra|].
    unfold weight_at, rows_of. cbn -[k0]. rewrite !k0_same, k0_02, k0_20. unfold mean. cbn. field.
  - unfold weight_at. cbn -[k0]. rewrite !k0_same, k0_02, k0_20. f_equal; [field|]. f_equal. field.
  - unfold log_likelihood, weight_at, rows_of. cbn -[k0]. rewrite !k0_same, k0_02, k0_20.
    match goal with |- (ln ?a + (ln ?b + 0) + _ <= ln ?c + (ln ?d + 0))%R => assert (P1 := ln_below a ltac:(lra)); assert (P2 := ln_below b ltac:(lra)); replace c with (2/3)%R by field; replace d with 2%R by field end.
    assert (L : (ln (2/3) + ln 2 = - ln (3/4))%R). { rewrite <- ln_Rinv by lra. rewrite <- ln_mult by lra. f_equal. field. }
    assert (P3 := ln_below (3/4)%R ltac:(lra)). lra.
Qed.

(** ** What the optimisation does *)
(** The gradient of the log-likelihood. *)
Definition gradient {Row} (kern : Row -> Row -> R) (centers targets : list Row) (alpha : list R) : list R :=
  map (fun c => vsum (map (fun x => kern x c * / weight_at kern centers alpha x)%R targets)) centers.
(** The mean of the kernels of a centre on the sources. *)
Definition source_means {Row} (kern : Row -> Row -> R) (centers sources : list Row) : list R := map (fun c => mean (map (fun x => kern x c) sources)) centers.
(** A gradient step of size 2 ^ -52, then back to weights that average to one, then no negative coefficients, then again weights that average to one. *)
Definition ascend {Row} (kern : Row -> Row -> R) (centers sources targets : list Row) (alpha : list R) : list R :=
  let b := source_means kern centers sources in
  let u := map2 (fun a g => a + / 2 ^ 52 * g)%R alpha (gradient kern centers targets alpha) in
  let v := map2 (fun a c => a + (1 - dot b u) * c / dot b b)%R u b in
  let p := map (Rmax 0) v in map (fun a => a / dot b p)%R p.
Fixpoint ascended {Row} (kern : Row -> Row -> R) (centers sources targets : list Row) (k : nat) : list R :=
  match k with 0 => repeat 1%R (length centers) | S k' => ascend kern centers sources targets (ascended kern centers sources targets k') end.
Definition objective {Row} (kern : Row -> Row -> R) (centers sources targets : list Row) (k : nat) : R :=
  let alpha := ascended kern centers sources targets k in
  if k =? 0 then log_likelihood kern centers targets alpha else vsum (map (fun x => ln (weight_at kern centers alpha x + / 2 ^ 52)) targets).

Section Steps.
  Context {Row : Type}.
  Variables (kern : Row -> Row -> R).
  Lemma dot_weight centers alpha x : length alpha = length centers -> dot (map (kern x) centers) alpha = weight_at kern centers alpha x.
  Proof.
    unfold dot, weight_at. revert alpha. induction centers as [|c l IH]; intros [|a alpha] L; try discriminate; [reflexivity|]. cbn [map map2 combine vsum fst snd]. rewrite IH by (cbn in L; lia). reflexivity.
  Qed.
  Lemma matvec_weight centers alpha X : length alpha = length centers -> np_matvec (kernel_matrix Row kern X centers) alpha = Ok (map (weight_at kern centers alpha) X).
  Proof.
    intros L. unfold np_matvec, kernel_matrix. induction X as [|x X IH]; [reflexivity|]. cbn [map mapM]. unfold np_dot at 1. rewrite map_length, L, Nat.eqb_refl. cbn [bind]. rewrite IH. cbn [bind]. now rewrite dot_weight.
  Qed.
  Lemma cols centers X (f : list R -> R) : map (fun j => f (col (kernel_matrix Row kern X centers) j)) (seq 0 (length centers)) = map (fun c => f (map (fun x => kern x c) X)) centers.
  Proof.
    assert (G : forall pre, map (fun j => f (col (kernel_matrix Row kern X (pre ++ centers)) j)) (seq (length pre) (length centers)) = map (fun c => f (map (fun x => kern x c) X)) centers).
    { induction centers as [|c l IH]; intros pre; [reflexivity|]. cbn [length seq map]. f_equal.
      - f_equal. unfold col, kernel_matrix. rewrite map_map. apply map_ext. intros x. rewrite map_app. cbn [map]. rewrite <- (map_length (kern x) pre). apply nth_middle.
      - specialize (IH (pre ++ [c])). rewrite <- app_assoc, app_length in IH. cbn [app length] in IH. rewrite Nat.add_1_r in IH. exact IH. }
    apply (G []).
  Qed.
  Lemma eps_pow : EPS = (/ 2 ^ 52)%R.
  Proof. unfold EPS. f_equal. ring. Qed.
  Lemma map2_len {A B C} (f : A -> B -> C) u v : length u = length v -> length (map2 f u v) = length v.
  Proof. revert v. induction u; intros [|? ?] L; try discriminate; cbn; auto. Qed.
  Lemma plus_map2 q r (u b : list R) : map2 Rplus u (map (fun t => q * t / r)%R b) = map2 (fun a c => a + q * c / r)%R u b.
  Proof. revert b. induction u as [|a l IH]; intros [|g gs]; cbn [map map2]; auto. now rewrite IH. Qed.
  Lemma iter_is_ascend centers sources targets alpha : length alpha = length centers ->
    kliep_iter (kernel_matrix Row kern targets centers) (col_means (length centers) (kernel_matrix Row kern sources centers)) alpha = Ok (ascend kern centers sources targets alpha) /\
    length (ascend kern centers sources targets alpha) = length centers.
  Proof.
    intros L. assert (LB : length (source_means kern centers sources) = length centers) by apply map_length.
    assert (LG : length (gradient kern centers targets alpha) = length centers) by apply map_length.
    split.
    - unfold kliep_iter. rewrite matvec_weight by auto. cbn [bind].
      assert (EB : col_means (length centers) (kernel_matrix Row kern sources centers) = source_means kern centers sources) by (unfold col_means; apply (cols centers sources mean)). rewrite EB.
      assert (EG : mat_t_vec (length alpha) (kernel_matrix Row kern targets centers) (map Rinv (map (weight_at kern centers alpha) targets)) = gradient kern centers targets alpha).
      { rewrite L. unfold mat_t_vec. rewrite (cols centers targets (fun l => dot l (map Rinv (map (weight_at kern centers alpha) targets)))). unfold gradient. apply map_ext. intros c. unfold dot. f_equal.
        clear. induction targets as [|x t IH]; [reflexivity|]. cbn [map map2]. now rewrite IH. }
      rewrite EG. unfold np_map2 at 1, vscale. rewrite map_length, LG, L, Nat.eqb_refl. cbn [bind].
      assert (EU : map2 Rplus alpha (map (Rmult EPS) (gradient kern centers targets alpha)) = map2 (fun a g => a + / 2 ^ 52 * g)%R alpha (gradient kern centers targets alpha)).
      { rewrite eps_pow. generalize (gradient kern centers targets alpha). clear. induction alpha as [|a l IH]; intros [|g gs]; cbn [map map2]; auto. now rewrite IH. }
      rewrite EU. unfold ascend. set (b := source_means kern centers sources) in *. set (u := map2 _ alpha _).
      assert (LU : length u = length centers) by (unfold u; rewrite map2_len; congruence).
      unfold np_dot. rewrite LB, LU, Nat.eqb_refl. cbn [bind]. unfold np_map2. rewrite map_length, LB, LU, Nat.eqb_refl. cbn [bind].
      assert (EV : map2 Rplus u (map (fun t => (1 - dot b u) * t / dot b b)%R b) = map2 (fun a c => a + (1 - dot b u) * c / dot b b)%R u b).
      { apply plus_map2. }
      rewrite EV. set (v := map2 _ u b).
      assert (EP : map (fun t => if Rltb 0 t then t else 0%R) v = map (Rmax 0) v).
      { apply map_ext. intros t. unfold Rmax. destruct (Rle_dec 0 t) as [H|H].
        - destruct (Rltb 0 t) eqn:Q; auto. apply Rltb_false in Q. lra.
        - replace (Rltb 0 t) with false; auto. symmetry. apply Rltb_false. lra. }
      rewrite EP. reflexivity.
    - unfold ascend. rewrite !map_length, map2_len; [exact LB|]. rewrite map2_len; congruence.
  Qed.
  Lemma ascended_length centers sources targets k : length (ascended kern centers sources targets k) = length centers.
  Proof. induction k as [|k IH]; cbn [ascended]; [apply repeat_length|]. now apply iter_is_ascend. Qed.
  Lemma loop_ascends centers sources targets tol n : forall i alpha, 
    kliep_loop (kernel_matrix Row kern targets centers) (col_means (length centers) (kernel_matrix Row kern sources centers)) tol n (objective kern centers sources targets i) (ascended kern centers sources targets i) = Ok alpha ->
    exists k, i <= k <= i + n /\ alpha = ascended kern centers sources targets k /\
      (forall j, i < j < k -> (tol <= Rabs (objective kern centers sources targets j - objective kern centers sources targets (j - 1)))%R) /\
      (k < i + n -> i < k /\ (Rabs (objective kern centers sources targets k - objective kern centers sources targets (k - 1)) < tol)%R).
  Proof.
    induction n as [|n IH]; intros i alpha H; cbn [kliep_loop] in H.
    - injection H as <-. exists i. split; [lia|]. split; auto. split; intros; lia.
    - destruct (iter_is_ascend centers sources targets (ascended kern centers sources targets i) (ascended_length _ _ _ _)) as (E & _). rewrite E in H. cbn [bind] in H.
      change (ascend kern centers sources targets (ascended kern centers sources targets i)) with (ascended kern centers sources targets (S i)) in H.
      assert (EO : kliep_obj (kernel_matrix Row kern targets centers) (ascended kern centers sources targets (S i)) = objective kern centers sources targets (S i)).
      { unfold kliep_obj, objective. cbn [Nat.eqb]. f_equal. rewrite <- eps_pow. unfold matvec, kernel_matrix. rewrite !map_map. apply map_ext. intros x. now rewrite dot_weight by apply ascended_length. }
      rewrite EO in H. destruct (Rltb _ tol) eqn:Q.
      + injection H as <-. exists (S i). split; [lia|]. split; auto. split; [intros; lia|]. intros _. split; [lia|]. replace (S i - 1) with i by lia. now apply Rltb_iff.
      + apply IH in H as (k & Hk & -> & B & F). exists k. split; [lia|]. split; auto. split.
        * intros j Hj. destruct (Nat.eq_dec j (S i)) as [->|]; [|apply B; lia]. replace (S i - 1) with i by lia. now apply Rltb_false in Q.
        * intros Lk. destruct (F ltac:(lia)) as (F1 & F2). split; [lia|auto].
  Qed.
End Steps.

(** The coefficients are those after k steps from ones; k is the first step that changes the objective by less than tol, or max_iter. *)
Theorem C194_iterations : forall Row kern choice n_centers tol max_iter (X : list Row) sda alpha centers,
  length choice = Nat.min (length (rows_of is_target (eff_domain (length X) sda) X)) n_centers ->
  kliep_fit Row kern choice n_centers tol max_iter X sda = Ok (alpha, centers) ->
  let sd := eff_domain (length X) sda in let S := rows_of is_source sd X in let T := rows_of is_target sd X in
  let J := objective kern centers S T in
  exists k, k <= max_iter /\ alpha = ascended kern centers S T k /\
    (forall j, 0 < j < k -> (tol <= Rabs (J j - J (j - 1)%nat))%R) /\ (k < max_iter -> 0 < k /\ (Rabs (J k - J (k - 1)%nat) < tol)%R).
Proof.
  intros Row kern choice nc tol mi X sda alpha centers HC H sd S T J. unfold kliep_fit in H. apply bind_ok in H as ((s & t) & E & H).
  apply rw_split_ok in E as (_ & _ & -> & ->). fold sd in H, HC. cbn [fst snd] in H. fold S T in H. fold T in HC. unfold kliep_optim in H.
  apply bind_ok in H as (ce & Ece & H). apply bind_ok in H as (m & Em & H). apply bind_ok in H as (al & El & H). injection H as -> ->.
  assert (LC : length centers = Nat.min (length T) nc) by (rewrite <- HC; eapply np_take_length; eauto).
  rewrite <- LC in *. rewrite matvec_weight in Em by apply repeat_length. injection Em as <-.
  destruct (loop_ascends kern centers S T tol mi 0 alpha) as (k & Hk & Ea & B & F).
  { cbn [ascended]. unfold objective. cbn [Nat.eqb ascended]. unfold log_likelihood. rewrite map_map in El. exact El. }
  exists k. split; [lia|]. split; auto.
Qed.

(** The direction of the step is the gradient of the log-likelihood: along any direction d the likelihood changes at the rate gradient . d. *)
Theorem C194_gradient : forall Row (kern : Row -> Row -> R) centers targets alpha d, length alpha = length centers -> length d = length centers ->
  (forall x, In x targets -> (0 < weight_at kern centers alpha x)%R) ->
  derivable_pt_lim (fun s => log_likelihood kern centers targets (map2 (fun a e => a + s * e)%R alpha d)) 0 (dot (gradient kern centers targets alpha) d).
Proof.
  intros Row kern centers targets alpha d La Ld HP.
  assert (W : forall x s, weight_at kern centers (map2 (fun a e => a + s * e)%R alpha d) x = (weight_at kern centers alpha x + s * weight_at kern centers d x)%R).
  { intros x s. unfold weight_at. clear HP. revert alpha d La Ld. induction centers as [|c l IH]; intros [|a al] [|e d] La Ld; try discriminate; [cbn; ring|].
    cbn [map2 combine map vsum fst snd]. rewrite IH by (cbn in *; lia). ring. }
  assert (G : dot (gradient kern centers targets alpha) d = vsum (map (fun x => / weight_at kern centers alpha x * weight_at kern centers d x)%R targets)).
  { unfold gradient. set (w := weight_at kern centers alpha). clearbody w. clear HP W La. unfold weight_at. revert d Ld. induction centers as [|c l IH]; intros [|e d] Ld; try discriminate.
    - cbn. clear. induction targets as [|x t IH]; [reflexivity|]. cbn [map vsum]. rewrite <- IH. ring.
    - unfold dot in *. cbn [map map2 vsum]. rewrite IH by (cbn in Ld; lia). clear. induction targets as [|x t IH]; [cbn; ring|]. cbn [map vsum combine fst snd] in *. rewrite <- IH. ring. }
  rewrite G. clear G. unfold log_likelihood. revert HP. induction targets as [|x t IH]; intros HP.
  - cbn. apply derivable_pt_lim_const.
  - cbn [map vsum]. apply derivable_pt_lim_plus with (f1 := fun s => ln (weight_at kern centers (map2 (fun a e => a + s * e)%R alpha d) x)) (f2 := fun s => vsum (map (fun x => ln (weight_at kern centers (map2 (fun a e => a + s * e)%R alpha d) x)) t)).
    2:{ apply IH. intros y Hy. apply HP. now right. }
    assert (Px := HP x (or_introl eq_refl)). set (w := weight_at kern centers alpha x) in *. set (v := weight_at kern centers d x).
    assert (D1 : derivable_pt_lim (fun s => w + s * v)%R 0 v).
    { enough (D0 : derivable_pt_lim (fun s => w + s * v)%R 0 (0 + (1 * v + 0 * 0))%R) by (replace (0 + (1 * v + 0 * 0))%R with v in D0 by ring; exact D0). apply derivable_pt_lim_plus with (f1 := fun _ => w) (f2 := fun s => (s * v)%R); [apply derivable_pt_lim_const|].
      apply derivable_pt_lim_mult with (f1 := fun s => s) (f2 := fun _ => v); [apply derivable_pt_lim_id|apply derivable_pt_lim_const]. }
    assert (D2 : derivable_pt_lim (fun s => ln (w + s * v)) 0 (/ w * v)%R).
    { apply (derivable_pt_lim_comp (fun s => w + s * v)%R ln 0 v (/ w)%R); auto. replace (w + 0 * v)%R with w by ring. now apply derivable_pt_lim_ln. }
    intros e He. destruct (D2 e He) as (dl & Hd). exists dl. intros h Nh Bh. specialize (Hd h Nh Bh). rewrite !W. exact Hd.
Qed.

(** In the data of the refutation the start (1, 1) has positive weights and the gradient (1, 1). *)
Example C194_ex : gradient k0 [0;2]%R [0;2]%R [1;1]%R = [1;1]%R /\ (forall x, In x [0;2]%R -> (0 < weight_at k0 [0;2]%R [1;1]%R x)%R) /\
  ascended k0 [0;2]%R [0;0;0;2]%R [0;2]%R 0 = [1;1]%R /\ source_means k0 [0;2]%R [0;0;0;2]%R = [49/64; 19/64]%R.
Proof.
  assert (W0 : weight_at k0 [0;2]%R [1;1]%R 0%R = (17/16)%R) by (unfold weight_at; cbn -[k0]; rewrite k0_same, k0_02; field).
  assert (W2 : weight_at k0 [0;2]%R [1;1]%R 2%R = (17/16)%R) by (unfold weight_at; cbn -[k0]; rewrite k0_same, k0_20; field).
  split; [|split; [|split]].
  - unfold gradient. cbn -[k0 weight_at]. rewrite W0, W2, !k0_same, k0_02, k0_20. f_equal; [field|]. f_equal. field.
  - intros x [<-|[<-|[]]]; rewrite ?W0, ?W2; lra.
  - reflexivity.
  - unfold source_means, mean. cbn -[k0]. rewrite !k0_same, k0_02, k0_20. cbn. f_equal; [field|]. f_equal. field.
Qed.
