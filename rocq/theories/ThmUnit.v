(** C216: the unit and the origin of a regression target. *)
From Coq Require Import List ZArith QArith Qround Qreals Bool Arith Lia Reals Lra Psatz.
From Verif Require Import Np NpFacts Labels Spec SpecFacts UtilsModel SelectModel RVec RVecFacts OTModel OTSpec OTProofs OTProofs2 OTProofs3 ThmOT
  MapModel RMat ThmJdot ThmSame ThmName ThmAttain.
From Verif Require Import UnitModel.
Import ListNotations.
Local Open Scope nat_scope.
Local Open Scope list_scope.

(** ** Specification *)
(** The same quantity in another unit and from another origin. *)
Definition measured (c s : R) (v : R) : R := (c * v + s)%R.
(** The fitted estimator follows such a change: it then predicts the changed values. [same e e']: e' is e in the other unit. *)
Definition follows {Est} (c s : R) (same : Est -> Est -> Prop) (nt : nat) (wt : option (list R))
           (fit : list R -> option (list R) -> res (Est * list R)) : Prop :=
  forall yth est yp, length yth = nt -> fit yth wt = Ok (est, yp) ->
    exists est', fit (map (measured c s) yth) wt = Ok (est', map (measured c s) yp) /\ same est est'.
(** The plan found does not depend on the unit of the costs. *)
Definition unit_free (solve : list (list R) -> list R -> list R -> res (list (list R) * R)) (a b : list R) : Prop :=
  forall k M T v, (0 < k)%R -> solve M a b = Ok (T, v) -> solve (map (map (Rmult k)) M) a b = Ok (T, (k * v)%R).

(** ** Transported labels *)
Lemma moved_measured c s T a b ys j : coupling a b T -> length ys = length a -> j < length b -> (0 < nth j b 0)%R ->
  moved_label T (map (measured c s) ys) b j = measured c s (moved_label T ys b j).
Proof.
  intros ((LT & _) & _ & _ & C) Ly Hj Pb. rewrite !moved_msum by (rewrite ?map_length; congruence). rewrite map_length, Ly.
  rewrite (msum_ext (length a) _ (fun i => c * (nth i ys 0 * at2 T i j) + s * at2 T i j)%R).
  - rewrite msum_plus, (msum_scal (length a) c (fun i => nth i ys 0 * at2 T i j)%R), (msum_scal (length a) s (fun i => at2 T i j)), (C j Hj). unfold measured. field. lra.
  - intros i Hi. rewrite (map_nth' _ 0%R) by lia. unfold measured. ring.
Qed.
Lemma transported_measured c s T a b ys : coupling a b T -> length ys = length a -> Forall (fun x => 0 < x)%R b ->
  transported (map (measured c s) ys) T b = map (measured c s) (transported ys T b).
Proof.
  intros HT Ly Hb. assert (LT : length T = length ys) by (rewrite Ly; apply HT). rewrite !transported_moved by (rewrite ?map_length; auto). rewrite map_map. apply map_ext_in. intros j Hj. apply in_seq in Hj.
  apply (moved_measured c s T a b ys j); auto; try lia. rewrite Forall_forall in Hb. apply Hb, nth_In. lia.
Qed.

(** Label propagation: the propagated labels are the same ones in the other unit; samples without a label stay without. *)
Theorem C216_label_propagation : forall {Xrow} (plan : list Xrow -> list Xrow -> list R -> list R -> res (list (list R))) X y sw sd out c s,
  sd <> [] -> length X = length sd -> length y = length sd -> (forall w, sw = Some w -> length w = length sd) ->
  let a := proportions (how_many is_source sd) (opt_rows is_source sd sw) in
  let b := proportions (how_many is_target sd) (opt_rows is_target sd sw) in
  (forall Xs Xt G, plan Xs Xt a b = Ok G -> coupling a b G) -> Forall (fun x => 0 < x)%R b ->
  otlp_regression plan X y sw sd = Ok out ->
  otlp_regression plan X (map (measured c s) y) sw sd = Ok (map (option_map (measured c s)) out).
Proof.
  intros Xrow plan X y sw sd out c s Hsd HX Hy Hw a b HP Hb E.
  assert (La : length a = how_many is_source sd).
  { unfold a. apply marg_length. intros l Hl. destruct sw as [w|]; [|discriminate]. injection Hl as <-. apply rows_of_length. symmetry. now apply Hw. }
  unfold otlp_regression in *. rewrite otlp_parts_ok in * by (rewrite ?map_length; auto). cbn [bind] in *. fold a b in E |- *.
  destruct (plan _ _ a b) as [G|] eqn:EG; [|discriminate]. cbn [bind] in *. assert (HG := HP _ _ _ EG).
  rewrite SpecFacts.rows_of_map, (transported_measured c s G a b) by (auto; rewrite La; apply rows_of_length; auto).
  rewrite map_length. replace (repeat None (length y)) with (map (option_map (measured c s)) (repeat None (length y))) by (clear; induction (length y) as [|k IH]; [reflexivity|cbn; now rewrite IH]).
  replace (map Some (map (measured c s) (transported (rows_of is_source sd y) G b))) with (map (option_map (measured c s)) (map Some (transported (rows_of is_source sd y) G b))) by (rewrite !map_map; reflexivity).
  rewrite np_setmask_ren, E. reflexivity.
Qed.

(** ** JDOT *)
Lemma sqdist_measured c s ys yp : sqdist (map (measured c s) ys) (map (measured c s) yp) = map (map (Rmult (c * c))) (sqdist ys yp).
Proof. unfold sqdist. rewrite !map_map. apply map_ext. intros u. rewrite !map_map. apply map_ext. intros v. unfold measured. ring. Qed.
Lemma map2_scale (f g : R -> R -> R) k h : (forall x y, g x (h y) = (k * f x y)%R) -> forall u v, map2 g u (map h v) = map (Rmult k) (map2 f u v).
Proof. intros H. induction u as [|x u IH]; intros [|y v]; cbn; try reflexivity. now rewrite H, IH. Qed.
Lemma map2_map2_scale (f g : R -> R -> R) k h : (forall x y, g x (h y) = (k * f x y)%R) -> forall U V, map2 (map2 g) U (map (map h) V) = map (map (Rmult k)) (map2 (map2 f) U V).
Proof. intros H. induction U as [|x u IH]; intros [|y v]; cbn; try reflexivity. now rewrite (map2_scale f g k h H), IH. Qed.

(** Trade-off that gives the label cost its former weight, and what it does to the unit of the whole cost. *)
Definition same_tradeoff (c alpha : R) : R := (alpha / (alpha + (1 - alpha) * (c * c)))%R.
Definition cost_unit (c alpha : R) : R := (c * c / (alpha + (1 - alpha) * (c * c)))%R.
Lemma tradeoff_pos c alpha : c <> 0%R -> (0 <= alpha <= 1)%R -> (0 < alpha + (1 - alpha) * (c * c))%R.
Proof. intros Hc Ha. assert (0 < c * c)%R by nra. destruct (Rle_lt_dec alpha (1/2)); nra. Qed.

Section Steps.
  Context {Est : Type}.
  Variable same : Est -> Est -> Prop.
  Variable solve : list (list R) -> list R -> list R -> res (list (list R) * R).
  Variable fit : list R -> option (list R) -> res (Est * list R).
  Variables alpha c s : R.
  Variable Mf : list (list R).
  Variables ys a b : list R.
  Variable wt : option (list R).
  Hypothesis Hc : c <> 0%R.
  Hypothesis Ha : (0 <= alpha <= 1)%R.
  Hypothesis Hu : unit_free solve a b.
  Hypothesis Hp : forall M T v, solve M a b = Ok (T, v) -> coupling a b T.
  Hypothesis Ly : length ys = length a.
  Hypothesis Hb : Forall (fun x => 0 < x)%R b.
  Hypothesis Hf : follows c s same (length b) wt fit.
  Let alpha' := same_tradeoff c alpha.
  Let k := cost_unit c alpha.
  Let step := reg_step solve fit alpha Mf ys a b wt.
  Let step' := reg_step solve fit alpha' Mf (map (measured c s) ys) a b wt.

  Lemma k_pos : (0 < k)%R.
  Proof. unfold k, cost_unit. pose proof (tradeoff_pos c alpha Hc Ha). apply Rdiv_lt_0_compat; nra. Qed.
  Definition twins (i : nat) (x y : list (list R) * option (Est * list (list R))) : Prop :=
    i = 0 \/ (fst y = map (map (Rmult (c * c))) (fst x) /\
      match snd x, snd y with Some (e, T), Some (e', T') => same e e' /\ T' = T | _, _ => False end).
  Lemma cost_twins i x y : twins i x y -> jdot_cost alpha' Mf (fst y) i = map (map (Rmult k)) (jdot_cost alpha Mf (fst x) i).
  Proof.
    pose proof (tradeoff_pos c alpha Hc Ha) as P. intros H. unfold jdot_cost. destruct (Nat.ltb_spec 0 i) as [Hi|Hi].
    - destruct H as [->|[-> _]]; [lia|]. apply map2_map2_scale. intros u v. unfold alpha', k, same_tradeoff, cost_unit. field. lra.
    - rewrite map_map. apply map_ext. intros u. rewrite map_map. apply map_ext. intros v. unfold alpha', k, same_tradeoff, cost_unit. field. lra.
  Qed.
  Lemma step_twins i x y x1 lx hx y1 ly hy : twins i x y -> step i x = Ok (x1, lx, hx) -> step' i y = Ok (y1, ly, hy) ->
    twins (S i) x1 y1 /\ (0 < i -> ly = (k * lx)%R) /\ hy = (c * c * hx)%R.
  Proof.
    intros H E E'. unfold step, step', reg_step in *. rewrite (cost_twins i x y H) in E'.
    destruct (solve (jdot_cost alpha Mf (fst x) i) a b) as [[T v]|] eqn:Es; [|discriminate]. rewrite (Hu _ _ _ _ k_pos Es) in E'. cbn [bind] in *.
    assert (HT := Hp _ _ _ Es). rewrite (transported_measured c s T a b ys HT Ly Hb) in E'.
    assert (L : length (transported ys T b) = length b) by (unfold transported; rewrite map_length, combine_length, seq_length; lia).
    destruct (fit (transported ys T b) wt) as [[e yp]|] eqn:Ef; [|discriminate]. destruct (Hf _ _ _ L Ef) as (e' & Ef' & Hs). rewrite Ef' in E'. cbn [bind] in *.
    apply bind_ok in E as (d & Ed & E). apply bind_ok in E' as (d' & Ed' & E'). apply np_map2_ok in Ed as [L1 ->]. apply np_map2_ok in Ed' as [L2 ->].
    injection E as <- <- <-. injection E' as <- <- <-. split; [|split].
    - right. cbn [fst snd]. split; [apply sqdist_measured|]. auto.
    - intros Hi. destruct (Nat.eqb_spec i 0); [lia|]. reflexivity.
    - assert (M : forall u w, map2 (fun x y => (x - y) * (x - y))%R (map (measured c s) u) (map (measured c s) w) = map (Rmult (c * c)) (map2 (fun x y => (x - y) * (x - y))%R u w)).
      { clear. induction u as [|p u IH]; intros [|q w]; cbn; try reflexivity. rewrite IH. f_equal. unfold measured. ring. }
      rewrite M. unfold mean. rewrite map_length. assert (V : forall l, vsum (map (Rmult (c * c)) l) = (c * c * vsum l)%R) by (clear; induction l as [|z l IH]; cbn; [ring|rewrite IH; ring]).
      rewrite V. unfold Rdiv. ring.
  Qed.
  Lemma trace_twins : forall i x lot llab x1, trace step i x lot llab x1 -> forall y lot' llab' y1, trace step' i y lot' llab' y1 -> twins i x y ->
    (forall j, j < length lot -> j < length lot' -> (0 < i + j -> nth j lot' 0%R = (k * nth j lot 0)%R) /\ nth j llab' 0%R = (c * c * nth j llab 0)%R) /\
    (length lot = length lot' -> twins (i + length lot) x1 y1).
  Proof.
    induction 1 as [i x|i x x1 lx hx lot llab x2 E Tr IH]; intros y lot' llab' y2 Tr' H.
    - split; [intros j Hj; cbn in Hj; lia|]. intros L. inversion Tr'; subst; [|discriminate]. cbn [length]. now rewrite Nat.add_0_r.
    - inversion Tr' as [|? ? y1 ly hy lot1 llab1 ? E' Tr1]; subst; [split; [intros j _ Hj; cbn in Hj; lia|discriminate]|].
      destruct (step_twins _ _ _ _ _ _ _ _ _ H E E') as (H1 & A & B). destruct (IH _ _ _ _ Tr1 H1) as (I1 & I2). split.
      + intros [|j] J1 J2; cbn [nth length] in *.
        * rewrite Nat.add_0_r. split; [|exact B]. intros P. apply A. lia.
        * destruct (I1 j ltac:(lia) ltac:(lia)) as (I3 & I4). split; [|exact I4]. intros _. apply I3. lia.
      + intros L. cbn [length] in *. replace (i + S (length lot)) with (S i + length lot) by lia. apply I2. lia.
  Qed.
End Steps.

(** JDOT: with the trade-off that keeps the weight of the label cost, the runs in both units can only differ in when they stop.
    As long as both run, the label losses are those in the squared unit and, from the second on, the transport losses are
    proportional. If they stop after equally many iterations, they use the same plan and return the same estimator. *)
Theorem C216_jdot : forall Est (same : Est -> Est -> Prop) solve fit alpha tol tol' n D ys nt ws wt c s est lot llab T w est' lot' llab' T' w',
  let a := proportions (length ys) ws in let b := proportions nt wt in
  c <> 0%R -> (0 <= alpha <= 1)%R -> unit_free solve a b -> (forall M T v, solve M a b = Ok (T, v) -> coupling a b T) ->
  length a = length ys -> length b = nt -> Forall (fun x => 0 < x)%R b -> follows c s same nt wt fit ->
  solve_jdot_regression solve fit alpha tol n D ys nt ws wt = Ok (est, lot, llab, T, w) ->
  solve_jdot_regression solve fit (same_tradeoff c alpha) tol' n D (map (measured c s) ys) nt ws wt = Ok (est', lot', llab', T', w') ->
  (forall j, j < length lot -> j < length lot' ->
     (0 < j -> nth j lot' 0%R = (cost_unit c alpha * nth j lot 0)%R) /\ nth j llab' 0%R = (c * c * nth j llab 0)%R) /\
  (length lot = length lot' -> T' = T /\ same est est').
Proof.
  intros Est same solve fit alpha tol tol' n D ys nt ws wt c s est lot llab T w est' lot' llab' T' w' a b Hc Ha Hu Hp La Lb Hb Hf E E'.
  unfold solve_jdot_regression in E, E'. rewrite !map_length, !marginal_proportions in *. fold a b in E, E'.
  destruct n as [|n]; [discriminate|]. assert (Hn : 0 < S n) by lia.
  apply bind_ok in E as [[[[x lo] ll] wa] [El E]]. apply bind_ok in E' as [[[[y lo'] ll'] wa'] [El' E']]. cbv beta iota in E, E'.
  destruct (snd x) as [[e T0]|] eqn:Ex; [|discriminate]. injection E as <- <- <- <- <-. destruct (snd y) as [[e' T0']|] eqn:Ey; [|discriminate]. injection E' as <- <- <- <- <-.
  apply loop_stopping in El as [Tr SR]; auto. apply loop_stopping in El' as [Tr' SR']; auto.
  destruct (trace_twins same solve fit alpha c s (norm_mean D) ys a b wt Hc Ha Hu Hp (eq_sym La) Hb ltac:(rewrite Lb; exact Hf) _ _ _ _ _ Tr _ _ _ _ Tr') as (A & B); [now left|].
  split; [intros j J1 J2; destruct (A j J1 J2) as (A1 & A2); split; auto|]. intros L. destruct (B L) as [Z|[_ Z]]; [destruct SR as (_ & SR & _); lia|].
  rewrite Ex, Ey in Z. tauto.
Qed.

(** JDOT and the origin: the trade-off stays, and the runs differ in nothing but the first transport loss, which is measured from
    zero, unless one of them takes the small change of that loss for convergence in the second iteration. *)
Theorem C216_origin : forall Est (same : Est -> Est -> Prop) solve fit alpha tol n D ys nt ws wt s est lot llab T w est' lot' llab' T' w',
  let a := proportions (length ys) ws in let b := proportions nt wt in
  (0 <= alpha <= 1)%R -> unit_free solve a b -> (forall M T v, solve M a b = Ok (T, v) -> coupling a b T) ->
  length a = length ys -> length b = nt -> Forall (fun x => 0 < x)%R b -> follows 1 s same nt wt fit ->
  solve_jdot_regression solve fit alpha tol n D ys nt ws wt = Ok (est, lot, llab, T, w) ->
  solve_jdot_regression solve fit alpha tol n D (map (measured 1 s) ys) nt ws wt = Ok (est', lot', llab', T', w') ->
  (tl lot' = tl lot /\ llab' = llab /\ T' = T /\ same est est') \/ (length lot <> length lot' /\ (length lot = 2 \/ length lot' = 2)).
Proof.
  intros Est same solve fit alpha tol n D ys nt ws wt s est lot llab T w est' lot' llab' T' w' a b Ha Hu Hp La Lb Hb Hf E E'.
  assert (A1 : same_tradeoff 1 alpha = alpha) by (unfold same_tradeoff; field; lra). assert (A2 : cost_unit 1 alpha = 1%R) by (unfold cost_unit; field; lra).
  destruct (C216_jdot Est same solve fit alpha tol tol n D ys nt ws wt 1 s est lot llab T w est' lot' llab' T' w') as (A & B); auto using R1_neq_R0; [now rewrite A1|].
  assert (Ru : forall al yy e l h tt ww, solve_jdot_regression solve fit al tol n D yy nt ws wt = Ok (e, l, h, tt, ww) -> stopping_rule tol n l h ww).
  { intros al yy e l h tt ww H. unfold solve_jdot_regression in H. destruct n as [|n]; [discriminate|]. apply bind_ok in H as [[[[x lo] ll] wa] [El H]]. cbv beta iota in H.
    destruct (snd x) as [[e0 T0]|]; [|discriminate]. injection H as <- <- <- <- <-. apply loop_stopping in El; [|lia]. now destruct El. }
  assert (R1 := Ru _ _ _ _ _ _ _ E). assert (R2 := Ru _ _ _ _ _ _ _ E'). destruct R1 as (L1 & N1 & S1 & T1 & _). destruct R2 as (L2 & N2 & S2 & T2 & _).
  destruct (Nat.eq_dec (length lot) (length lot')) as [L|L].
  - left. destruct (B L) as (-> & B2). split; [|split; [|auto]].
    + apply (nth_ext _ _ 0%R 0%R).
      * destruct lot, lot'; cbn in *; lia.
      * intros j Hj. destruct lot as [|x lot], lot' as [|x' lot']; cbn [tl length] in *; try lia. destruct (A (S j) ltac:(lia) ltac:(lia)) as (A3 & _).
        rewrite A2 in A3. cbn [nth] in A3. rewrite A3 by lia. ring.
    + apply (nth_ext _ _ 0%R 0%R); [congruence|]. intros j Hj. destruct (A j ltac:(lia) ltac:(lia)) as (_ & ->). ring.
  - right. split; [exact L|]. unfold settled in *.
    assert (V : forall j, 0 < j -> j < length lot -> j < length lot' -> nth j lot' 0%R = nth j lot 0%R) by (intros j P J1 J2; destruct (A j J1 J2) as (A3 & _); rewrite A3 by auto; rewrite A2; ring).
    assert (V2 : forall j, j < length lot -> j < length lot' -> nth j llab' 0%R = nth j llab 0%R) by (intros j J1 J2; destruct (A j J1 J2) as (_ & A3); rewrite A3; ring).
    destruct (Nat.lt_ge_cases (length lot) (length lot')) as [H|H].
    + left. destruct (Nat.eq_dec (length lot) 2) as [|N]; [auto|exfalso]. destruct (T1 ltac:(lia)) as [[P Q]|[P Q]].
      * apply (proj1 (S2 (length lot - 1) ltac:(lia))). split; [exact P|]. rewrite !V by lia. exact Q.
      * apply (proj2 (S2 (length lot - 1) ltac:(lia))). split; [exact P|]. rewrite !V2 by lia. exact Q.
    + right. destruct (Nat.eq_dec (length lot') 2) as [|N]; [auto|exfalso]. destruct (T2 ltac:(lia)) as [[P Q]|[P Q]].
      * apply (proj1 (S1 (length lot' - 1) ltac:(lia))). split; [exact P|]. rewrite <- !V by lia. exact Q.
      * apply (proj2 (S1 (length lot' - 1) ltac:(lia))). split; [exact P|]. rewrite <- !V2 by lia. exact Q.
Qed.

(** ** The unit matters *)
(** Two sources at (1, -1) and (1, 1), three targets at (0, 6/7), (1, 2/7) and (2, 3/7): the squared distances. *)
Definition unit_dist : list (list R) := [[218 / 49; 81 / 49; 149 / 49]; [50 / 49; 25 / 49; 65 / 49]]%R.
(** Least squares on the first feature of the three targets: 0, 1, 2. *)
Definition line_fit (y : list R) (w : option (list R)) : res (list R * list R) :=
  match y, w with
  | [u; v; t], None => let m := ((u + v + t) / 3)%R in let k := ((t - u) / 2)%R in Ok ([m - k; m; m + k]%R, [m - k; m; m + k]%R)
  | _, _ => Err ValueError
  end.
Lemma line_follows c s : follows c s (fun e e' => e' = map (measured c s) e) 3 None line_fit.
Proof.
  intros yth est yp L H. destruct yth as [|u [|v [|t [|]]]]; try discriminate. cbn in H. injection H as <- <-.
  set (m := ((u + v + t) / 3)%R). set (k := ((t - u) / 2)%R). exists (map (measured c s) [m - k; m; m + k]%R). split; [|reflexivity].
  assert (E : forall x x' y y' z z' : R, x = x' -> y = y' -> z = z' -> Ok ([x; y; z], [x; y; z]) = Ok ([x'; y'; z'], [x'; y'; z'])) by (intros; now subst).
  cbn. apply E; unfold measured, m, k; field.
Qed.
Lemma line_least_squares : least_squares 3 (fun f => exists p q, f = [p; p + q; p + 2 * q]%R) line_fit.
Proof.
  intros yth wt est yp H. unfold line_fit in H. destruct yth as [|u [|v [|t [|]]]]; try discriminate. destruct wt; [discriminate|]. injection H as <- <-. split.
  - exists ((u + v + t) / 3 - (t - u) / 2)%R, ((t - u) / 2)%R. repeat apply (f_equal2 (@cons R)); try reflexivity; field.
  - intros f (p & q & ->). cbn [msum fit_weight nth]. unfold Rsqr.
    set (m := ((u + v + t) / 3)%R). set (k := ((t - u) / 2)%R).
    assert (E : forall p q, ((u - p) * (u - p) + (v - (p + q)) * (v - (p + q)) + (t - (p + 2 * q)) * (t - (p + 2 * q)) =
      (u - (m - k)) * (u - (m - k)) + (v - m) * (v - m) + (t - (m + k)) * (t - (m + k)) + 3 * ((p + q - m) * (p + q - m)) + 2 * ((q - k) * (q - k)))%R).
    { intros p' q'. unfold m, k. field. }
    specialize (E p q). pose proof (Rle_0_sqr (p + q - m)%R). pose proof (Rle_0_sqr (q - k)%R). unfold Rsqr in *. lra.
Qed.
(** The best way to give the second source (mass 1/2) to three targets (mass 1/3 each) with different relative costs. *)
Lemma best_third k0 k1 k2 t0 t1 t2 : (k0 < k1 < k2)%R -> (0 <= t0 <= 1/3)%R -> (0 <= t1 <= 1/3)%R -> (0 <= t2 <= 1/3)%R -> (t0 + t1 + t2 = 1/2)%R ->
  (k0 * t0 + k1 * t1 + k2 * t2 <= k0 / 3 + k1 / 6)%R -> (t0 = 1/3 /\ t1 = 1/6 /\ t2 = 0)%R.
Proof.
  intros K H0 H1 H2 S O. assert (E : (k0 * t0 + k1 * t1 + k2 * t2 = k0 / 3 + k1 / 6 + (k1 - k0) * (1/3 - t0) + (k2 - k1) * t2)%R) by (replace t1 with (1/2 - t0 - t2)%R by lra; field).
  assert (P : (0 <= (k1 - k0) * (1/3 - t0))%R) by (apply Rmult_le_pos; lra). assert (Q : (0 <= (k2 - k1) * t2)%R) by (apply Rmult_le_pos; lra).
  assert (Z0 : (t0 = 1/3)%R) by (assert (Z : ((k1 - k0) * (1/3 - t0) = 0)%R) by lra; apply Rmult_integral in Z as [Z|Z]; lra).
  assert (Z2 : (t2 = 0)%R) by (assert (Z : ((k2 - k1) * t2 = 0)%R) by lra; apply Rmult_integral in Z as [Z|Z]; lra). lra.
Qed.

Lemma third_list : proportions 3 None = [1 / 3; 1 / 3; 1 / 3]%R.
Proof. cbn. repeat apply (f_equal2 (@cons R)); try reflexivity; lra. Qed.
Lemma half_list : proportions 2 None = [1 / 2; 1 / 2]%R.
Proof. cbn. repeat apply (f_equal2 (@cons R)); try reflexivity; lra. Qed.
Lemma unit_mean : mean (concat unit_dist) = 2%R.
Proof. unfold mean, unit_dist. cbn. lra. Qed.

(** What an exact solver does with two sources and three targets: [p], [q], [r] are the targets in the order of the cost of
    giving them to the second source rather than to the first. *)
Lemma solved_2_3 solve x0 x1 x2 y0 y1 y2 T v : exact_ot solve -> solve [[x0; x1; x2]; [y0; y1; y2]] [1/2; 1/2]%R [1/3; 1/3; 1/3]%R = Ok (T, v) ->
  ((y0 - x0 < y1 - x1 < y2 - x2)%R -> at2 T 1 0 = (1/3)%R /\ at2 T 1 1 = (1/6)%R /\ at2 T 1 2 = 0%R) /\
  ((y0 - x0 < y2 - x2 < y1 - x1)%R -> at2 T 1 0 = (1/3)%R /\ at2 T 1 1 = 0%R /\ at2 T 1 2 = (1/6)%R).
Proof.
  intros Ex E. assert (Mx : matrix 2 3 [[x0; x1; x2]; [y0; y1; y2]]) by (split; [auto|repeat constructor]).
  destruct (Ex _ [1/2; 1/2]%R [1/3; 1/3; 1/3]%R T v Mx E) as ((_ & P & Sr & Sc) & -> & O).
  pose proof (Sr 1 ltac:(cbn; lia)) as S1. pose proof (Sc 0 ltac:(cbn; lia)) as C0. pose proof (Sc 1 ltac:(cbn; lia)) as C1. pose proof (Sc 2 ltac:(cbn; lia)) as C2.
  pose proof (P 0 0 ltac:(cbn; lia) ltac:(cbn; lia)). pose proof (P 0 1 ltac:(cbn; lia) ltac:(cbn; lia)). pose proof (P 0 2 ltac:(cbn; lia) ltac:(cbn; lia)).
  pose proof (P 1 0 ltac:(cbn; lia) ltac:(cbn; lia)). pose proof (P 1 1 ltac:(cbn; lia) ltac:(cbn; lia)). pose proof (P 1 2 ltac:(cbn; lia) ltac:(cbn; lia)).
  cbn [length msum nth] in S1, C0, C1, C2.
  assert (CT : forall t0 t1 t2, (0 <= t0 <= 1/3)%R -> (0 <= t1 <= 1/3)%R -> (0 <= t2 <= 1/3)%R -> (t0 + t1 + t2 = 1/2)%R -> coupling [1/2; 1/2]%R [1/3; 1/3; 1/3]%R [[1/3 - t0; 1/3 - t1; 1/3 - t2]; [t0; t1; t2]]%R).
  { intros t0 t1 t2 H0' H1' H2' HS. split; [split; [auto|repeat constructor]|]. split; [|split].
    - intros [|[|i]] [|[|[|j]]] Hi Hj; cbn in Hi, Hj; try lia; unfold at2; cbn; lra.
    - intros [|[|i]] Hi; cbn in Hi; try lia; unfold at2; cbn; lra.
    - intros [|[|[|j]]] Hj; cbn in Hj; try lia; unfold at2; cbn; lra. }
  set (A0 := at2 T 0 0) in *. set (A1 := at2 T 0 1) in *. set (A2 := at2 T 0 2) in *. set (B0 := at2 T 1 0) in *. set (B1 := at2 T 1 1) in *. set (B2 := at2 T 1 2) in *.
  assert (SP : spent 2 3 (at2 [[x0; x1; x2]; [y0; y1; y2]]) T = (x0 * A0 + x1 * A1 + x2 * A2 + (y0 * B0 + y1 * B1 + y2 * B2))%R) by (unfold spent; cbn [msum]; unfold at2 at 1 3 5 7 9 11; cbn [nth]; fold A0 A1 A2 B0 B1 B2; ring).
  assert (EA : A0 = (1/3 - B0)%R /\ A1 = (1/3 - B1)%R /\ A2 = (1/3 - B2)%R) by (repeat split; lra). destruct EA as (EA0 & EA1 & EA2).
  change (length [1/2; 1/2]%R) with 2 in O. change (length [1/3; 1/3; 1/3]%R) with 3 in O. rewrite SP in O. split; intros K.
  - specialize (O _ (CT (1/3) (1/6) 0 ltac:(lra) ltac:(lra) ltac:(lra) ltac:(lra))%R). unfold spent, at2 in O. cbn [msum nth] in O.
    apply (best_third (y0 - x0) (y1 - x1) (y2 - x2)); try lra. rewrite EA0, EA1, EA2 in O. lra.
  - specialize (O _ (CT (1/3) 0 (1/6) ltac:(lra) ltac:(lra) ltac:(lra) ltac:(lra))%R). unfold spent, at2 in O. cbn [msum nth] in O.
    destruct (best_third (y0 - x0) (y2 - x2) (y1 - x1) B0 B2 B1) as (? & ? & ?); try lra. rewrite EA0, EA1, EA2 in O. lra.
Qed.
Lemma unit_iteration solve c prev T v est yp lot llab : exact_ot solve -> match prev with Some p => length p = 3 | None => True end ->
  reg_iteration solve line_fit (1/2) unit_dist [0; c]%R [1/2; 1/2]%R [1/3; 1/3; 1/3]%R None prev T v est yp lot llab ->
  let key := fun j m => (m / 4 + match prev with None => 0 | Some p => 1/2 * ((c - nth j p 0) * (c - nth j p 0) - nth j p 0 * nth j p 0) end)%R in
  ((key 0%nat (- 168 / 49) < key 1%nat (- 56 / 49) < key 2%nat (- 84 / 49))%R -> est = [c; c / 2; 0]%R /\ yp = est) /\
  ((key 0%nat (- 168 / 49) < key 2%nat (- 84 / 49) < key 1%nat (- 56 / 49))%R -> est = [3 * c / 4; c / 2; c / 4]%R /\ yp = est).
Proof.
  intros Ex Lp (Es & Ef & _) key. rewrite unit_mean in Es.
  assert (LT : length T = 2).
  { refine (proj1 (proj1 (proj1 (Ex _ _ _ _ _ _ Es)))). destruct prev as [[|p0 [|p1 [|p2 [|]]]]|]; try discriminate; split; cbn; auto; repeat constructor. }
  assert (Y : forall j, j < 3 -> moved_label T [0; c]%R [1/3; 1/3; 1/3]%R j = (3 * c * at2 T 1 j)%R).
  { intros j Hj. rewrite moved_msum by auto. cbn [length msum nth]. destruct j as [|[|[|j]]]; cbn [nth]; try lia; field. }
  cbn [length seq map] in Ef. rewrite !Y in Ef by lia. cbn in Ef. injection Ef as <- <-.
  assert (L3 : forall x x' y y' z z' : R, x = x' -> y = y' -> z = z' -> [x; y; z] = [x'; y'; z']) by (intros; now subst).
  destruct prev as [[|p0 [|p1 [|p2 [|]]]]|]; try discriminate; cbn in Es; destruct (solved_2_3 _ _ _ _ _ _ _ _ _ Ex Es) as (S1 & S2); cbn [key nth] in *;
    unfold key; cbn [nth]; clear key.
  - split; intros K.
    + destruct (S1 ltac:(lra)) as (-> & -> & ->). split; [apply L3; field|reflexivity].
    + destruct (S2 ltac:(lra)) as (-> & -> & ->). split; [apply L3; field|reflexivity].
  - split; intros K.
    + destruct (S1 ltac:(lra)) as (-> & -> & ->). split; [apply L3; field|reflexivity].
    + destruct (S2 ltac:(lra)) as (-> & -> & ->). split; [apply L3; field|reflexivity].
Qed.

(** With the default trade-off 1/2, whatever the tolerance and the number of iterations (at least two), the same two labels given
    in a unit twice as large lead to another line: predictions 1, 1/2, 0 in one unit and 3/8, 1/4, 1/8, instead of 1/2, 1/4, 0, in
    the other. *)
Theorem C216_unit_refuted : forall solve tol n est lot llab T w est' lot' llab' T' w', exact_ot solve -> plans_fit solve -> 2 <= n ->
  solve_jdot_regression solve line_fit (1/2) tol n unit_dist [0; 1]%R 3 None None = Ok (est, lot, llab, T, w) ->
  solve_jdot_regression solve line_fit (1/2) tol n unit_dist (map (measured (1/2) 0) [0; 1]%R) 3 None None = Ok (est', lot', llab', T', w') ->
  est = [1; 1/2; 0]%R /\ est' = [3/8; 1/4; 1/8]%R /\ est' <> map (measured (1/2) 0) est.
Proof.
  intros solve tol n est lot llab T w est' lot' llab' T' w' Ex Pf Hn E E'.
  replace (map (measured (1/2) 0) [0; 1]%R) with [0; 1/2]%R in E' by (unfold measured; cbn; repeat apply (f_equal2 (@cons R)); try reflexivity; lra).
  apply C54_regression_run in E as ((_ & L & _ & St & _) & Ts & vs & es & yps & I & -> & _); auto; try discriminate; try lia.
  apply C54_regression_run in E' as ((_ & L' & _ & St' & _) & Ts' & vs' & es' & yps' & I' & -> & _); auto; try discriminate; try lia.
  assert (N2 : 2 <= length lot) by (destruct (Nat.eq_dec (length lot) n); [lia|]; destruct (St ltac:(lia)) as [[? _]|[? _]]; lia).
  change (length [0; 1]%R) with 2 in I. change (length [0; 1/2]%R) with 2 in I'. rewrite third_list, half_list in I, I'.
  assert (A0 : es 0 = [3 * 1 / 4; 1 / 2; 1 / 4]%R /\ yps 0 = es 0).
  { refine (proj2 (unit_iteration _ _ None _ _ _ _ _ _ Ex Logic.I (I 0 ltac:(lia))) _). lra. }
  assert (A1 : forall j, S j < length lot -> es (S j) = [1; 1 / 2; 0]%R /\ yps (S j) = es (S j)).
  { induction j as [|j IH]; intros Hj.
    - specialize (I 1 Hj). cbn beta iota in I. destruct A0 as (A0 & B0). rewrite B0, A0 in I.
      refine (proj1 (unit_iteration solve 1 (Some _) _ _ _ _ _ _ Ex _ I) _); [reflexivity|]. cbn [nth]. lra.
    - specialize (I (S (S j)) Hj). cbn beta iota in I. destruct (IH ltac:(lia)) as (A2 & B2). rewrite B2, A2 in I.
      refine (proj1 (unit_iteration solve 1 (Some _) _ _ _ _ _ _ Ex _ I) _); [reflexivity|]. cbn [nth]. lra. }
  assert (A2 : forall j, j < length lot' -> es' j = [3 * (1 / 2) / 4; 1 / 2 / 2; 1 / 2 / 4]%R /\ yps' j = es' j).
  { induction j as [|j IH]; intros Hj.
    - refine (proj2 (unit_iteration _ _ None _ _ _ _ _ _ Ex Logic.I (I' 0 ltac:(lia))) _). lra.
    - specialize (I' (S j) Hj). cbn beta iota in I'. destruct (IH ltac:(lia)) as (A2 & B2). rewrite B2, A2 in I'.
      refine (proj2 (unit_iteration solve (1/2) (Some _) _ _ _ _ _ _ Ex _ I') _); [reflexivity|]. cbn [nth]. lra. }
  destruct (length lot) as [|[|k]] eqn:EL; try lia. replace (S (S k) - 1) with (S k) by lia. rewrite (proj1 (A1 k ltac:(lia))), (proj1 (A2 (length lot' - 1) ltac:(lia))).
  split; [reflexivity|]. split; [repeat apply (f_equal2 (@cons R)); try reflexivity; lra|]. unfold measured. cbn. intros H. injection H as H _ _. lra.
Qed.
Lemma run_exists {Est} solve (fit : list R -> option (list R) -> res (Est * list R)) alpha tol n D ys nt ws wt : let a := proportions (length ys) ws in let b := proportions nt wt in
  0 < n -> length D = length ys -> length b = nt -> (forall M T v, solve M a b = Ok (T, v) -> matrix (length ys) (length b) T) -> (forall M, exists r, solve M a b = Ok r) ->
  (forall yth, length yth = nt -> exists e yp, fit yth wt = Ok (e, yp) /\ length yp = nt) ->
  exists r, solve_jdot_regression solve fit alpha tol n D ys nt ws wt = Ok r.
Proof.
  intros a b Hn LD Lb Hs Ho Hf. unfold solve_jdot_regression. rewrite !marginal_proportions. fold a b.
  assert (St : forall i s, exists s' x y, reg_step solve fit alpha (norm_mean D) ys a b wt i s = Ok (s', x, y) /\ exists r, snd s' = Some r) by (intros i s; apply reg_step_total; auto; rewrite Lb; exact Hf).
  destruct (loop_total (reg_step solve fit alpha (norm_mean D) ys a b wt) tol n (fun _ _ => True)) with (k := n) (i := 0)
    (s := (sqdist ys (repeat 0%R nt), @None (Est * list (list R)))) (p := @None R) (q := @None R) as [[[[s lo] ll] wa] El]; auto.
  { intros i s _. destruct (St i s) as (s' & x & y & E & _). eauto 6. }
  rewrite El. cbn [bind]. apply loop_stopping in El as [Tr SR]; [|lia]. destruct SR as (_ & L & _).
  apply (trace_snd _ (fun s => exists r, snd s = Some r)) in Tr; [|intros i0 s0 s1 x y E; destruct (St i0 s0) as (s' & x' & y' & E' & K); rewrite E in E'; injection E' as -> _ _; exact K|lia].
  destruct Tr as [[e T] ->]. eauto.
Qed.
(** Such runs exist. *)
Example C216_unit_ex : exists solve, exact_ot solve /\ plans_fit solve /\
  forall ys, length ys = 2 -> exists r, solve_jdot_regression solve line_fit (1/2) (1/100000) 100 unit_dist ys 3 None None = Ok r.
Proof.
  assert (Co : forall M a b T v, best_solver M a b = Ok (T, v) -> coupling a b T /\ v = spent (length a) (length b) (at2 M) T /\ forall T', coupling a b T' -> (v <= spent (length a) (length b) (at2 M) T')%R).
  { intros M a b T v H. unfold best_solver in H. destruct (ClassicalDedekindReals.sig_not_dec _) as [N|]; [|discriminate]. destruct (best_plan M a b _ _ _) as (T0 & C & O). cbn in H. injection H as <- <-. auto. }
  assert (Tot : forall M, exists r, best_solver M [1/2; 1/2]%R [1/3; 1/3; 1/3]%R = Ok r).
  { intros M. unfold best_solver. destruct (ClassicalDedekindReals.sig_not_dec _) as [N|N]; [eauto|]. exfalso. apply N. unfold masses. repeat split; [repeat constructor; lra|repeat constructor; lra|cbn; lra]. }
  exists best_solver. split; [intros M a b T v _ H; now apply Co|]. split; [intros M a b T v H; apply (Co _ _ _ _ _ H)|]. intros ys Ly.
  apply run_exists; rewrite ?Ly, ?third_list, ?half_list; auto; try lia.
  - intros M T v H. apply (Co _ _ _ _ _ H).
  - intros yth L. destruct yth as [|u [|v [|t [|]]]]; try discriminate. repeat eexists.
Qed.

(** The theorems about JDOT apply: with one target there is one plan, whatever the unit of the cost. *)
Lemma at2_scale k M i j : at2 (map (map (Rmult k)) M) i j = (k * at2 M i j)%R.
Proof.
  unfold at2. change (@nil R) with (map (Rmult k) []) at 1. rewrite map_nth. transitivity (nth j (map (Rmult k) (nth i M [])) (k * 0)%R); [f_equal; ring|]. apply map_nth.
Qed.
Lemma half_coupling : coupling [1 / 2; 1 / 2]%R [1]%R [[1 / 2]; [1 / 2]]%R.
Proof.
  split; [split; [reflexivity|repeat constructor]|]. split; [|split].
  - intros [|[|i]] [|j] Hi Hj; cbn in *; try lia; unfold at2; cbn; lra.
  - intros [|[|i]] Hi; cbn in *; try lia; unfold at2; cbn; lra.
  - intros [|j] Hj; cbn in *; try lia; unfold at2; cbn; lra.
Qed.
Lemma one_target_unit_free a b : unit_free one_target a b.
Proof.
  intros k M T v Hk H. unfold one_target in *. destruct (length b =? 1) eqn:E; [|discriminate]. destruct (ClassicalDedekindReals.sig_not_dec _) as [N|]; [|discriminate]. injection H as <- <-.
  do 2 f_equal. unfold spent. rewrite <- msum_scal. apply msum_ext. intros i _. rewrite <- msum_scal. apply msum_ext. intros j _. rewrite at2_scale. ring.
Qed.
Lemma any_number_follows c s : follows c s (fun _ _ => True) 1 None any_number.
Proof. intros yth est yp L H. unfold any_number in *. rewrite map_length, L in *. cbn in *. injection H as _ <-. exists tt. auto. Qed.
(** Temperatures 0 and 2 degrees Celsius, also in Fahrenheit (32 and 35.6). *)
Example C216_jdot_ex : exists est lot llab T w est' lot' llab' T' w',
  solve_jdot_regression one_target any_number (1/2) 0 5 [[1]; [4]]%R [0; 2]%R 1 None None = Ok (est, lot, llab, T, w) /\
  solve_jdot_regression one_target any_number (same_tradeoff (9/5) (1/2)) 0 5 [[1]; [4]]%R (map (measured (9/5) 32) [0; 2]%R) 1 None None = Ok (est', lot', llab', T', w') /\
  T' = T /\ nth 1 lot' 0%R = (cost_unit (9/5) (1/2) * nth 1 lot 0)%R.
Proof.
  assert (H2 : proportions 2 None = [1/2; 1/2]%R) by apply half_list. assert (H1 : proportions 1 None = [1]%R) by (cbn; repeat apply (f_equal2 (@cons R)); try reflexivity; lra).
  assert (Ru : forall alpha ys, length ys = 2 -> exists r, solve_jdot_regression one_target any_number alpha 0 5 [[1]; [4]]%R ys 1 None None = Ok r).
  { intros alpha ys L. apply run_exists; rewrite ?L, ?H2, ?H1; auto; try lia.
    - intros M T v H. rewrite one_target_half in H. injection H as <- _. split; [reflexivity|repeat constructor].
    - intros M. rewrite one_target_half. eauto.
    - intros yth Ly. exists tt, yth. unfold any_number. now rewrite Ly. }
  destruct (Ru (1/2)%R [0; 2]%R eq_refl) as ([[[[est lot] llab] T] w] & E). destruct (Ru (same_tradeoff (9/5) (1/2)) (map (measured (9/5) 32) [0; 2]%R) eq_refl) as ([[[[est' lot'] llab'] T'] w'] & E').
  assert (N : forall alpha ys e l h t u, solve_jdot_regression one_target any_number alpha 0 5 [[1]; [4]]%R ys 1 None None = Ok (e, l, h, t, u) -> length l = 5).
  { intros al yy e l h tt ww H. unfold solve_jdot_regression in H. apply bind_ok in H as [[[[x lo] ll] wa] [El H]]. cbv beta iota in H.
    destruct (snd x) as [[e0 T0]|]; [|discriminate]. injection H as <- <- <- <- <-. apply loop_stopping in El; [|lia]. destruct El as (_ & _ & L & _ & S & _).
    destruct (Nat.eq_dec (length lo) 5) as [|Ne]; [auto|]. unfold settled in S. destruct (S ltac:(lia)) as [(_ & P)|(_ & P)]; match type of P with (Rabs ?z < 0)%R => pose proof (Rabs_pos z) end; lra. }
  exists est, lot, llab, T, w, est', lot', llab', T', w'. split; [exact E|]. split; [exact E'|].
  destruct (C216_jdot _ (fun _ _ => True) one_target any_number (1/2) 0 0 5 [[1]; [4]]%R [0; 2]%R 1 None None (9/5) 32 _ _ _ _ _ _ _ _ _ _ ltac:(lra) ltac:(lra) (one_target_unit_free _ _)
    ltac:(change (length [0; 2]%R) with 2; rewrite H2, H1; intros M TT v H; rewrite one_target_half in H; injection H as <- _; exact half_coupling) eq_refl eq_refl ltac:(rewrite H1; repeat constructor; lra) (any_number_follows _ _) E E') as (A & B).
  split; [apply B; rewrite (N _ _ _ _ _ _ _ E), (N _ _ _ _ _ _ _ E'); reflexivity|]. destruct (A 1) as (A1 & _); [rewrite (N _ _ _ _ _ _ _ E); lia|rewrite (N _ _ _ _ _ _ _ E'); lia|]. apply A1. lia.
Qed.

(** ** Label propagation decides by the values whether a target is a class: lengths 0.5 and 1 are averaged to 0.75, but the same
    lengths in a unit half as large, 1 and 2, are classes, and the target gets 1 instead of 1.5. *)
Theorem C216_whole_numbers_refuted : forall {Xrow} (plan : list Xrow -> list Xrow -> list R -> list R -> res (list (list R))) x1 x2 x3 G,
  (forall Xs Xt a b G, plan Xs Xt a b = Ok G -> coupling a b G) -> plan [x1; x2] [x3] [1/2; 1/2]%R [1]%R = Ok G ->
  otlp_transform plan [x1; x2; x3] [VNum (1 # 2); VNum 1; VNum 0] None [1; 1; -2]%Z = Ok [None; None; Some (3/4)%R] /\
  otlp_transform plan [x1; x2; x3] [VNum 1; VNum 2; VNum 0] None [1; 1; -2]%Z = Ok [Some (-1); Some (-1); Some 1]%R.
Proof.
  intros Xrow plan x1 x2 x3 G HP E. assert (HG := HP _ _ _ _ _ E).
  assert (H1 : proportions 1 None = [1]%R) by (cbn; repeat apply (f_equal2 (@cons R)); try reflexivity; lra).
  destruct HG as ((LG & FG) & _ & Rw & _). destruct G as [|r1 [|r2 [|]]]; try discriminate. inversion FG as [|? ? F1 F2]; subst. inversion F2 as [|? ? F3 _]; subst.
  destruct r1 as [|g1 [|]]; try discriminate. destruct r2 as [|g2 [|]]; try discriminate.
  pose proof (Rw 0 ltac:(cbn; lia)) as R1. pose proof (Rw 1 ltac:(cbn; lia)) as R2. unfold at2 in R1, R2. cbn in R1, R2.
  assert (g1 = 1/2)%R as -> by lra. assert (g2 = 1/2)%R as -> by lra. clear Rw R1 R2 F1 F2 F3 FG LG.
  split; unfold otlp_transform; rewrite otlp_parts_ok by (auto; discriminate); cbn [bind].
  - change (find_y_type1 (rows_of is_source [1; 1; -2]%Z [VNum (1 # 2); VNum 1; VNum 0])) with (Ok CONTINUOUS). cbn [bind]. unfold otlp_regression.
    rewrite otlp_parts_ok by (auto; discriminate). cbn [bind]. change (how_many is_source [1; 1; -2]%Z) with 2. change (how_many is_target [1; 1; -2]%Z) with 1.
    cbn [opt_rows option_map]. rewrite half_list, H1. change (rows_of is_source [1; 1; -2]%Z [x1; x2; x3]) with [x1; x2]. change (rows_of is_target [1; 1; -2]%Z [x1; x2; x3]) with [x3]. rewrite E. cbn [bind].
    unfold transported. cbn. unfold Q2R. cbn. do 2 f_equal. f_equal. f_equal. f_equal. field.
  - change (find_y_type1 (rows_of is_source [1; 1; -2]%Z [VNum 1; VNum 2; VNum 0])) with (Ok DISCRETE). cbn [bind]. unfold otlp_discrete.
    rewrite otlp_parts_ok by (auto; discriminate). cbn [bind]. change (how_many is_source [1; 1; -2]%Z) with 2. change (how_many is_target [1; 1; -2]%Z) with 1.
    cbn [opt_rows option_map]. rewrite half_list, H1. change (rows_of is_source [1; 1; -2]%Z [x1; x2; x3]) with [x1; x2]. change (rows_of is_target [1; 1; -2]%Z [x1; x2; x3]) with [x3]. rewrite E. cbn [bind].
    change (rows_of is_source [1; 1; -2]%Z (map val_class [VNum 1; VNum 2; VNum 0])) with [1; 2]%Z. change (unique [1; 2]%Z) with [1; 2]%Z.
    assert (C : class_mass [[1/2]; [1/2]]%R [1; 2]%Z [1; 2]%Z (length [x3]) = [[1/2; 1/2]]%R) by (unfold class_mass; cbn; f_equal; repeat apply (f_equal2 (@cons R)); try reflexivity; lra).
    rewrite C. assert (A : np_argmax [1/2; 1/2]%R = Ok 0). { unfold np_argmax. cbn. destruct (Rltb (- (1/2)) (- (1/2))) eqn:B; [|reflexivity]. apply Rltb_iff in B. lra. } cbn [mapM]. rewrite A. cbn. reflexivity.
Qed.
(** The plan for one target sends everything there. *)
Example C216_whole_numbers_ex : exists plan : list nat -> list nat -> list R -> list R -> res (list (list R)),
  (forall Xs Xt a b G, plan Xs Xt a b = Ok G -> coupling a b G) /\ plan [0; 1] [2] [1/2; 1/2]%R [1]%R = Ok [[1/2]; [1/2]]%R.
Proof.
  exists (fun _ _ a b => r <- one_target [] a b ;; Ok (fst r)). split.
  - intros Xs Xt a b G H. apply bind_ok in H as ([T v] & H & [= <-]). unfold one_target in H. destruct (length b =? 1); [|discriminate].
    destruct (ClassicalDedekindReals.sig_not_dec _) as [N|]; [|discriminate]. injection H as <- _. now apply Classical_Prop.NNPP.
  - now rewrite one_target_half.
Qed.
(** The affine change of the propagated labels, on the two lengths above: 0.5 and 1 plus 2.25 give 0.75 plus 2.25. *)
Example C216_label_propagation_ex : otlp_regression (fun (_ _ : list nat) (_ _ : list R) => Ok [[1/2]; [1/2]]%R) [0; 1; 2] (map (measured 1 (9/4)) [1/2; 1; 0]%R) None [1; 1; -2]%Z = Ok [None; None; Some 3%R].
Proof.
  unfold otlp_regression. rewrite otlp_parts_ok by (auto; discriminate). cbn [bind]. cbn. do 2 f_equal. f_equal. f_equal. f_equal. unfold measured. field.
Qed.
