(** C186, importance-weighted scorer. *)
From Coq Require Import String List ZArith Bool Arith Lia Reals Lra Permutation FinFun.
From Verif Require Import Np NpFacts Labels Spec SpecFacts UtilsModel UtilsSpec UtilsProofs UtilsProofs2 SelectModel RVec RVecFacts ReweightSpec ReweightProofs MetricsModel MetricsProofs ThmMetrics ThmMmd.
Import ListNotations.
Local Open Scope nat_scope.
Local Open Scope list_scope.
(** ImportanceWeightedScorer with targets that are the sources in another order scores the sources with equal weights. *)
Theorem C186_importance_scorer : forall Row sign kde scorer (X : list Row) y sd r,
  (forall A B, Permutation A B -> kde A = kde B) -> (forall A e, kde A = Ok e -> row_wise e) ->
  0 < how_many is_source sd -> Permutation (rows_of is_source sd X) (rows_of is_target sd X) ->
  importance_score Row sign kde exp scorer X y (SDArr sd) = Ok r ->
  exists s, scorer (rows_of is_source sd X) (rows_of is_source sd y) (filter is_source sd) (repeat (1 / INR (how_many is_source sd)) (how_many is_source sd))%R = Ok s /\ r = (sign * s)%R.
Proof.
  intros Row sign kde scorer X y sd r HK HR Hn HP H.
  assert (LX : length X = length sd).
  { unfold importance_score in H. apply bind_ok in H as [sd' [Hc H]]. apply check_xy_given in Hc as (-> & Ne & _ & _). rewrite extract_source_ok in H by auto. cbn [bind] in H.
    apply bind_ok in H as [Xs [HX _]]. pose proof (select_len _ _ _ HX) as LX. rewrite map_length in LX. auto. }
  destruct (C45_weights _ _ _ _ _ _ _ _ _ (fun t => Rlt_le _ _ (exp_pos t)) Hn HR H) as (es & et & ls & lt & w & s & K1 & K2 & E1 & E2 & LW & _ & W & Hsc & ->).
  exists s. split; auto. rewrite (HK _ _ HP), K2 in K1. injection K1 as ->. rewrite E1 in E2. injection E2 as <-.
  assert (ER : map2 (fun t s => exp (t - s)) ls ls = repeat 1%R (length ls)).
  { clear. induction ls as [|a ls IH]; cbn; auto. rewrite IH. f_equal. rewrite Rminus_diag_eq by auto. apply exp_0. }
  cbn zeta in W. rewrite ER in W.
  assert (EW : w = repeat (1 / INR (how_many is_source sd))%R (how_many is_source sd)); [|now rewrite <- EW].
  assert (LL : length ls = how_many is_source sd). { rewrite (HR _ _ K2 _ _ E1). now apply rows_of_length; auto. }
  rewrite LL, vsum_const in W. assert (P : INR (how_many is_source sd) <> 0%R) by (apply not_0_INR; lia).
  apply (nth_ext _ _ 0%R 0%R); [now rewrite repeat_length|]. intros i Hi. rewrite LW in Hi. specialize (W i Hi). rewrite !(nth_indep (repeat _ _) 0%R 1%R), nth_repeat in W by (rewrite repeat_length; auto).
  rewrite (nth_indep (repeat _ _) 0%R (1 / INR (how_many is_source sd))%R) by (rewrite repeat_length; auto). rewrite nth_repeat. apply (Rmult_eq_reg_r (INR (how_many is_source sd))); auto. rewrite Rmult_1_r in W. rewrite W. field. auto.
Qed.

(** A log-density that depends on the samples it was fitted on (minus the squared distance to their sum); two sources, the targets are the same samples swapped. *)
Example C186_importance_ex :
  let kde := fun A : list Z => Ok (fun B : list Z => Ok (map (fun b => - IZR ((b - fold_right Z.add 0%Z A) * (b - fold_right Z.add 0%Z A)))%R B)) in
  (forall A B, Permutation A B -> kde A = kde B) /\ (forall A e, kde A = Ok e -> row_wise e) /\
  exists r, importance_score Z 1 kde exp (fun X _ _ w => Ok (vsum (map2 (fun x a => IZR x * a)%R X w))) [10; 30; 30; 10]%Z (repeat (VNum (QArith_base.inject_Z 0)) 4) (SDArr [1; 1; -2; -2]%Z) = Ok r /\ r = 20%R.
Proof.
  cbv zeta. split.
  { intros A B P. replace (fold_right Z.add 0%Z B) with (fold_right Z.add 0%Z A); auto. induction P; cbn; lia. }
  split. { intros A e E X r H. injection E as <-. injection H as <-. apply map_length. }
  eexists. split; [reflexivity|]. unfold normalise_sum_or_uniform. cbn.
  repeat match goal with |- context [exp (?a - ?a)] => replace (exp (a - a)) with 1%R by (rewrite Rminus_diag_eq by auto; now rewrite exp_0) end.
  destruct (Reqb (1 + (1 + 0)) 0) eqn:E; cbn [negb map map2 vsum length]; [apply Reqb_iff in E; lra|]. cbn. lra.
Qed.
