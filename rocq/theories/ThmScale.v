(** * C181: only the proportions of the sample weights matter *)
From Coq Require Import List ZArith Bool Arith Lia Reals Lra.
From Verif Require Import Np NpFacts Labels Spec UtilsModel SelectModel RVec RVecFacts OTModel.
Import ListNotations.
Local Open Scope nat_scope.
Local Open Scope list_scope.

(** ** Specification *)
(** The weights of the source samples multiplied by [cs], those of the target samples by [ct]. *)
Definition rescaled (cs ct : R) (sd : list Z) (w w' : list R) : Prop :=
  length w = length w' /\ forall i d x, nth_error sd i = Some d -> nth_error w i = Some x -> nth_error w' i = Some ((if (0 <=? d)%Z then cs else ct) * x)%R.
(** The weights of each side have a positive total. *)
Definition positive_totals (sd : list Z) (w : list R) : Prop :=
  (0 < vsum (select (source_mask sd) w))%R /\ (0 < vsum (select (map negb (source_mask sd)) w))%R.

Lemma vsum_scale c l : vsum (map (Rmult c) l) = (c * vsum l)%R.
Proof. induction l as [|x l IH]; cbn [map vsum]; [lra|]. rewrite IH. lra. Qed.
Lemma marginal_scale n c l : (0 < c)%R -> (0 < vsum l)%R -> marginal n (Some (map (Rmult c) l)) = marginal n (Some l).
Proof. intros Hc Hl. unfold marginal. rewrite vsum_scale, map_map. apply map_ext. intros x. field. lra. Qed.
Lemma rescaled_select cs ct : forall sd w w', rescaled cs ct sd w w' ->
  select (source_mask sd) w' = map (Rmult cs) (select (source_mask sd) w) /\ select (map negb (source_mask sd)) w' = map (Rmult ct) (select (map negb (source_mask sd)) w).
Proof.
  induction sd as [|d sd IH]; intros [|x w] [|x' w'] [E A]; try discriminate E; try (split; reflexivity).
  injection E as E. destruct (IH w w') as [I1 I2].
  { split; [exact E|]. intros i e z H Hz. exact (A (S i) e z H Hz). }
  specialize (A 0 d x eq_refl eq_refl). cbn in A. injection A as ->. cbn [source_mask map]. fold (source_mask sd). destruct (0 <=? d)%Z; cbn [select negb map]; rewrite ?I1, ?I2; split; reflexivity.
Qed.
Lemma rescaled_split cs ct sd w w' : rescaled cs ct sd w w' ->
  (exists e, source_target_split [Some w] sd = Err e /\ source_target_split [Some w'] sd = Err e) \/
  (source_target_split [Some w] sd = Ok [Some (select (source_mask sd) w); Some (select (map negb (source_mask sd)) w)] /\
   source_target_split [Some w'] sd = Ok [Some (map (Rmult cs) (select (source_mask sd) w)); Some (map (Rmult ct) (select (map negb (source_mask sd)) w))]).
Proof.
  intros S. unfold source_target_split, split_gen, raise_if, extract_source_indices. cbn [length Nat.eqb]. destruct (length sd =? 0); [left; eexists; split; reflexivity|].
  cbn [bind mapM split_one]. unfold np_select. destruct (rescaled_select _ _ _ _ _ S) as [-> ->]. rewrite (proj1 S). unfold source_mask. rewrite !map_length. destruct (_ =? _); [|left; eexists; split; reflexivity].
  right. split; reflexivity.
Qed.

Theorem C181_propagation : forall Xrow plan (X : list Xrow) cs ct sd w w', (0 < cs)%R -> (0 < ct)%R -> rescaled cs ct sd w w' -> positive_totals sd w ->
  (forall (y : list Z), otlp_discrete plan X y (Some w) sd = otlp_discrete plan X y (Some w') sd) /\
  (forall (y : list R), otlp_regression plan X y (Some w) sd = otlp_regression plan X y (Some w') sd).
Proof.
  intros Xrow plan X cs ct sd w w' Hs Ht S [Ps Pt].
  assert (P : forall L (y : list L), otlp_parts X y (Some w) sd = otlp_parts X y (Some w') sd).
  { intros L y. unfold otlp_parts. destruct (source_target_split [Some X] sd) as [px|]; [|reflexivity]. cbn [bind]. destruct (source_target_split [Some y] sd) as [py|]; [|reflexivity]. cbn [bind].
    destruct (rescaled_split _ _ _ _ _ S) as [(e & -> & ->)|[-> ->]]; [reflexivity|]. cbn [bind].
    destruct px as [|[Xs|] [|[Xt|] [|? ?]]]; try reflexivity. destruct py as [|[ys|] [|? [|? ?]]]; try reflexivity. now rewrite !marginal_scale. }
  split; intros y; unfold otlp_discrete, otlp_regression; now rewrite P.
Qed.
(** JDOTClassifier, and JDOTRegressor for a base estimator that itself only looks at proportions. *)
Theorem C181_jdot : forall Xrow cs ct sd w w' (X : list Xrow), (0 < cs)%R -> (0 < ct)%R -> rescaled cs ct sd w w' -> positive_totals sd w ->
  (forall Est solve (fit : list Xrow -> list Z -> list R -> res Est) pred metric alpha thr tol n dist y,
     jdot_fit (fun Xs ys Xt ws wt => solve_jdot_classification solve fit pred metric alpha thr tol n (dist Xs Xt) ys Xt ws wt) X y (Some w) sd =
     jdot_fit (fun Xs ys Xt ws wt => solve_jdot_classification solve fit pred metric alpha thr tol n (dist Xs Xt) ys Xt ws wt) X y (Some w') sd) /\
  (forall Est solve (fit : list Xrow -> list R -> option (list R) -> res (Est * list R)) alpha tol n dist y,
     (forall Xt yt c u, (0 < c)%R -> fit Xt yt (Some (map (Rmult c) u)) = fit Xt yt (Some u)) ->
     jdot_fit (fun Xs ys Xt ws wt => solve_jdot_regression solve (fit Xt) alpha tol n (dist Xs Xt) ys (length Xt) ws wt) X y (Some w) sd =
     jdot_fit (fun Xs ys Xt ws wt => solve_jdot_regression solve (fit Xt) alpha tol n (dist Xs Xt) ys (length Xt) ws wt) X y (Some w') sd).
Proof.
  intros Xrow cs ct sd w w' X Hs Ht S [Ps Pt]. split.
  - intros. unfold jdot_fit. destruct (source_target_split [Some X] sd) as [px|]; [|reflexivity]. cbn [bind]. destruct (source_target_split [Some y] sd) as [py|]; [|reflexivity]. cbn [bind].
    destruct (rescaled_split _ _ _ _ _ S) as [(e & -> & ->)|[-> ->]]; [reflexivity|]. cbn [bind].
    destruct px as [|[Xs|] [|[Xt|] [|? ?]]]; try reflexivity. destruct py as [|[ys|] [|? [|? ?]]]; try reflexivity.
    unfold solve_jdot_classification. now rewrite !marginal_scale.
  - intros Est solve fit alpha tol n dist y Hf. unfold jdot_fit. destruct (source_target_split [Some X] sd) as [px|]; [|reflexivity]. cbn [bind]. destruct (source_target_split [Some y] sd) as [py|]; [|reflexivity]. cbn [bind].
    destruct (rescaled_split _ _ _ _ _ S) as [(e & -> & ->)|[-> ->]]; [reflexivity|]. cbn [bind].
    destruct px as [|[Xs|] [|[Xt|] [|? ?]]]; try reflexivity. destruct py as [|[ys|] [|? [|? ?]]]; try reflexivity.
    unfold solve_jdot_regression. rewrite !marginal_scale by assumption.
    assert (El : forall k i s pot plab, jdot_loop (reg_step solve (fit Xt) alpha (norm_mean (dist Xs Xt)) ys (marginal (length ys) (Some (select (source_mask sd) w))) (marginal (length Xt) (Some (select (map negb (source_mask sd)) w))) (Some (select (map negb (source_mask sd)) w))) tol n k i s pot plab =
      jdot_loop (reg_step solve (fit Xt) alpha (norm_mean (dist Xs Xt)) ys (marginal (length ys) (Some (select (source_mask sd) w))) (marginal (length Xt) (Some (select (map negb (source_mask sd)) w))) (Some (map (Rmult ct) (select (map negb (source_mask sd)) w)))) tol n k i s pot plab).
    { induction k as [|k IH]; intros i s pot plab; [reflexivity|]. cbn [jdot_loop].
      assert (Es : reg_step solve (fit Xt) alpha (norm_mean (dist Xs Xt)) ys (marginal (length ys) (Some (select (source_mask sd) w))) (marginal (length Xt) (Some (select (map negb (source_mask sd)) w))) (Some (map (Rmult ct) (select (map negb (source_mask sd)) w))) i s =
                   reg_step solve (fit Xt) alpha (norm_mean (dist Xs Xt)) ys (marginal (length ys) (Some (select (source_mask sd) w))) (marginal (length Xt) (Some (select (map negb (source_mask sd)) w))) (Some (select (map negb (source_mask sd)) w)) i s).
      { unfold reg_step. destruct (solve _ _ _) as [[T v]|]; [|reflexivity]. cbn [bind]. now rewrite Hf. }
      rewrite Es. clear Es. destruct (reg_step _ _ _ _ _ _ _ _ i s) as [[[s' l1] l2]|]; [|reflexivity]. cbn [bind]. now rewrite IH. }
    now rewrite El.
Qed.
(** Two sources weighted 1 and 3, two targets weighted 2 and 2: as well 2 and 6, 1 and 1. *)
Example C181_ex : rescaled 2 (1/2) [1; -2; 1; -2]%Z [1; 2; 3; 2]%R [2; 1; 6; 1]%R /\ positive_totals [1; -2; 1; -2]%Z [1; 2; 3; 2]%R /\
  marginal 2 (Some [2; 6]%R) = [1/4; 3/4]%R.
Proof.
  split; [|split].
  - split; [reflexivity|]. intros [|[|[|[|[|i]]]]] d x H Hx; cbn in *; try discriminate; injection H as <-; injection Hx as <-; cbn; f_equal; lra.
  - split; cbn; lra.
  - cbn. repeat apply (f_equal2 (@cons R)); try reflexivity; lra.
Qed.
