(** C232: source labels of a single class. *)
From Coq Require Import List ZArith Bool Arith Lia Reals Lra Psatz.
From Verif Require LossModel ThmLoss.
From Verif Require Import Np NpFacts Labels Spec SpecFacts UtilsModel SelectModel RVec RVecFacts OTModel OTSpec OTProofs OTProofs2 OTProofs3 ThmOT
  MapModel RMat ThmJdot ThmSame ThmMass ThmAgree ThmSingle.
Import ListNotations.
Local Open Scope nat_scope.
Local Open Scope list_scope.

Lemma spread {A} (c m : A) sd : forall out, length out = length sd -> rows_of is_source sd out = repeat m (how_many is_source sd) ->
  rows_of is_target sd out = repeat c (how_many is_target sd) -> out = map (fun d => if is_target d then c else m) sd.
Proof.
  induction sd as [|d sd IH]; intros [|o out] L S T; try discriminate; [reflexivity|]. unfold rows_of, how_many in *. cbn [combine filter map fst snd] in *.
  rewrite (is_target_negb d) in *. destruct (is_source d); cbn in *.
  - injection S as -> S. f_equal. apply IH; auto.
  - injection T as -> T. f_equal. apply IH; auto.
Qed.
(** Label propagation: every target gets the class, the sources are masked. *)
Theorem C232_label_propagation : forall {Xrow} (plan : list Xrow -> list Xrow -> list R -> list R -> res (list (list R))) X y sw sd G c,
  sd <> [] -> length X = length sd -> length y = length sd -> (forall w, sw = Some w -> length w = length sd) -> 0 < how_many is_source sd ->
  Forall (fun v => v = c) (rows_of is_source sd y) ->
  plan (rows_of is_source sd X) (rows_of is_target sd X) (proportions (how_many is_source sd) (opt_rows is_source sd sw))
    (proportions (how_many is_target sd) (opt_rows is_target sd sw)) = Ok G -> length G = how_many is_source sd ->
  otlp_discrete plan X y sw sd = Ok (map (fun d => if is_target d then c else (-1)%Z) sd).
Proof.
  intros Xrow plan X y sw sd G c Hsd HX Hy Hw Hs Hc HG LG.
  destruct (C52_discrete_labels plan X y sw sd G Hsd HX Hy Hw Hs HG LG) as (labels & out & E & (L & S & T) & LL & H). rewrite E. f_equal.
  assert (EL : labels = repeat c (how_many is_target sd)).
  { apply (nth_ext _ _ 0%Z 0%Z); rewrite LL; [now rewrite repeat_length|]. intros j Hj. destruct (H j Hj) as (I & _). rewrite Forall_forall in Hc. rewrite (Hc _ I).
    symmetry. apply (proj1 (Forall_forall (fun v => v = c) _) (proj2 (Forall_forall (fun v => v = c) (repeat c (how_many is_target sd))) (fun v Hv => repeat_spec _ _ _ Hv))).
    apply nth_In. now rewrite repeat_length. }
  rewrite EL in T. now apply spread.
Qed.

Lemma col_msum T j : vsum (col T j) = msum (length T) (fun i => at2 T i j).
Proof. unfold col. rewrite (vsum_nth _ []). reflexivity. Qed.
Lemma plan_one_class a T ys c nt : coupling a (repeat (/ INR nt)%R nt) T -> length ys = length a -> Forall (fun v => v = c) ys -> ys <> [] ->
  label_plan T (map (onehot (unique ys)) ys) nt (length (unique ys)) = repeat [1%R] nt.
Proof.
  intros ((LT & _) & _ & _ & C) L F N. rewrite (unique_const c ys N F). unfold label_plan. cbn [length seq]. rewrite repeat_length in C.
  apply (nth_ext _ _ [] []); rewrite ?map_length, ?seq_length, ?repeat_length; [reflexivity|]. intros j Hj.
  rewrite (map_nth' _ 0) by (now rewrite seq_length). rewrite seq_nth by exact Hj. rewrite Nat.add_0_l. cbn [map].
  rewrite (nth_indep _ [] [1%R]) by (now rewrite repeat_length). rewrite nth_repeat. f_equal.
  assert (E : dot (col T j) (col (map (onehot [c]) ys) 0) = msum (length a) (fun i => at2 T i j)).
  { rewrite dot_at by (unfold col; rewrite !map_length; congruence). unfold col at 1. rewrite map_length, LT. apply msum_ext. intros i Hi.
    unfold col. rewrite (map_nth' _ []) by lia. rewrite map_map. rewrite (map_nth' _ 0%Z) by lia. unfold onehot. cbn [map nth].
    assert (Q : nth i ys 0%Z = c) by (rewrite Forall_forall in F; apply F, nth_In; lia). rewrite Q, Z.eqb_refl. unfold at2. ring. }
  rewrite E, (C j Hj). rewrite (nth_indep _ 0%R (/ INR nt)%R) by (now rewrite repeat_length). rewrite nth_repeat. field. apply not_0_INR. lia.
Qed.
Lemma all_kept {X} (Xt : list X) (c : Z) thr : Xt <> [] -> (thr < 1)%R ->
  jdot_data Xt (repeat [1%R] (length Xt)) [c] thr = Ok (Xt, repeat c (length Xt), repeat 1%R (length Xt)).
Proof.
  intros N H. destruct (C55_fitting_data Xt (repeat [1%R] (length Xt)) [c] thr 1%R) as (kept & -> & ->).
  - exact N.
  - split; [apply repeat_length|]. apply Forall_forall. intros r Hr. apply repeat_spec in Hr as ->. reflexivity.
  - assert (E : concat (repeat [1%R] (length Xt)) = repeat 1%R (length Xt)) by (clear; induction (length Xt); cbn; congruence). rewrite E. split.
    + destruct Xt; [congruence|now left].
    + apply Forall_forall. intros r Hr. apply repeat_spec in Hr as ->. lra.
  - assert (E : filter (fun t => if Rlt_dec (thr * 1) (snd t) then true else false) (all_triples Xt (repeat [1%R] (length Xt)) [c]) = map (fun x => (x, c, 1%R)) Xt).
    { clear N. unfold all_triples. induction Xt as [|x l IH]; [reflexivity|]. cbn. destruct (Rlt_dec (thr * 1) 1); [|lra]. cbn. f_equal. exact IH. }
    rewrite E, !map_map. cbn [fst snd]. rewrite map_id. f_equal. f_equal; [f_equal|]; clear; induction Xt; cbn; congruence.
Qed.
(** JDOT without target weights: the estimator returned was fitted on all targets, each once, with the class and weight 1. *)
Theorem C232_jdot : forall {Est Xrow} solve (fit : list Xrow -> list Z -> list R -> res Est) pred metric alpha thr tol n D ys c Xt ws est lot llab T w,
  let a := proportions (length ys) ws in let b := proportions (length Xt) None in
  ys <> [] -> Xt <> [] -> (thr < 1)%R -> length a = length ys -> Forall (fun v => v = c) ys ->
  (forall M T v, solve M a b = Ok (T, v) -> coupling a b T) ->
  solve_jdot_classification solve fit pred metric alpha thr tol n D ys Xt ws None = Ok (est, lot, llab, T, w) ->
  fit Xt (repeat c (length Xt)) (repeat 1%R (length Xt)) = Ok est.
Proof.
  intros Est Xrow solve fit pred metric alpha thr tol n D ys c Xt ws est lot llab T w a b Ny Nx Ht La Fc Hs E.
  unfold solve_jdot_classification in E. rewrite !marginal_proportions in E. fold a b in E.
  apply bind_ok in E as [[[[s l1] l2] w1] [E1 E]]. cbn beta iota in E. destruct (snd s) as [[e' T']|] eqn:Es; [|discriminate]. injection E as <- _ _ _ _.
  set (good := fun e => fit Xt (repeat c (length Xt)) (repeat 1%R (length Xt)) = Ok e).
  assert (P : match snd s with Some (e, _) => good e | None => True end); [|rewrite Es in P; exact P].
  eapply (loop_holds (cls_step solve fit pred metric alpha thr (norm_mean D) ys Xt a b) tol n
    (fun s : list (list R) * option (Est * list (list R)) => match snd s with Some (e, _) => good e | None => True end)); [|cycle 1|exact E1]; [|exact I].
  intros i s0 s1 lo ll H. unfold cls_step in H. apply bind_ok in H as [[T0 v] [E0 H]]. cbn beta iota in H. apply Hs in E0.
  rewrite (plan_one_class a T0 ys c (length Xt) E0 (eq_sym La) Fc Ny) in H. rewrite (unique_const c ys Ny Fc) in H. rewrite (all_kept Xt c thr Nx Ht) in H. cbn [bind] in H.
  apply bind_ok in H as [e [Ef H]]. apply bind_ok in H as [Ml [_ H]]. apply bind_ok in H as [q [_ H]]. injection H as <- _ _. cbn. exact Ef.
Qed.

(** REFUTED for CAN: with one class there is one cluster, and the contrastive discrepancy divides by zero. *)
Theorem C232_can_refuted : forall c y_s fs ft centers predict sigmas dt ct eps, y_s <> [] -> Forall (fun v => v = c) y_s -> (forall x, predict x = 0) ->
  LossModel.cdd_loss y_s fs ft (Some (centers, predict)) sigmas dt ct eps = Err ZeroDivisionError.
Proof.
  intros c y_s fs ft centers predict sigmas dt ct eps N F HP. apply ThmLoss.C105_single_class_error; [|exact HP].
  assert (ND := NoDup_nodup Nat.eq_dec y_s). assert (I : forall v, In v (nodup Nat.eq_dec y_s) -> v = c) by (intros v Hv; apply nodup_In in Hv; rewrite Forall_forall in F; auto).
  assert (Ne : nodup Nat.eq_dec y_s <> []). { destruct y_s as [|v l]; [congruence|]. intros Q. assert (K : In v (nodup Nat.eq_dec (v :: l))) by (apply nodup_In; now left). rewrite Q in K. destruct K. }
  destruct (nodup Nat.eq_dec y_s) as [|u [|v l]]; [congruence|reflexivity|]. exfalso. inversion ND as [|? ? K _]. apply K. left. rewrite (I u), (I v); cbn; auto.
Qed.

(** Two sources of class 4 and two targets. *)
Example C232_ex : let sd := [1; -2; 1; -2]%Z in let plan := fun (_ _ : list nat) (a b : list R) => Ok [[1 / 4; 1 / 4]; [1 / 4; 1 / 4]]%R in
  otlp_discrete plan [0; 9; 3; 4] [4; 0; 4; 1]%Z None sd = Ok [-1; 4; -1; 4]%Z /\
  coupling (proportions 2 None) (proportions 2 None) [[1 / 4; 1 / 4]; [1 / 4; 1 / 4]]%R /\
  jdot_data [9; 4] (label_plan [[1 / 4; 1 / 4]; [1 / 4; 1 / 4]]%R (map (onehot [4%Z]) [4; 4]%Z) 2 1) [4%Z] 0 = Ok ([9; 4], [4; 4]%Z, [1; 1]%R).
Proof.
  intros sd plan. split; [|split].
  - apply (C232_label_propagation plan [0; 9; 3; 4] [4; 0; 4; 1]%Z None sd [[1 / 4; 1 / 4]; [1 / 4; 1 / 4]]%R 4%Z); try reflexivity; try discriminate; [cbn; lia|repeat constructor].
  - split; [split; [reflexivity|repeat constructor]|]. split; [|split].
    + intros [|[|i]] [|[|j]] Hi Hj; cbn in *; try lia; lra.
    + intros [|[|i]] Hi; cbn in *; try lia; lra.
    + intros [|[|j]] Hj; cbn in *; try lia; lra.
  - assert (E : label_plan [[1 / 4; 1 / 4]; [1 / 4; 1 / 4]]%R (map (onehot [4%Z]) [4; 4]%Z) 2 1 = repeat [1%R] 2).
    { cbn. unfold dot, vsum. cbn. repeat (apply (f_equal2 (@cons _)); [apply (f_equal2 (@cons _)); [lra|reflexivity]|]). reflexivity. }
    rewrite E. apply (all_kept [9; 4] 4%Z 0%R); [discriminate|lra].
Qed.
