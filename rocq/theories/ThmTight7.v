(** Further parts of C134 and C172. *)
From Coq Require Import String List ZArith QArith Bool Arith Lia Reals Lra.
From Verif Require Import Np NpFacts Labels Spec SpecFacts UtilsModel UtilsSpec UtilsProofs UtilsProofs2 SelectModel
  RVec ReweightModel ReweightSpec MetricsModel MetricsSpec MetricsProofs MetricsProofs2 ThmMetrics ScorerModel ThmScorer.
From Verif Require CtorModel.
Import ListNotations.
Local Open Scope nat_scope.
Local Open Scope list_scope.

(** ** C172: a scorer made with make_scorer is asked about the predictions, and its own sign (negative for a loss) multiplies the value. *)
Theorem C172_made_supervised : forall Row L sign (e : scored_est Row L) m params X y sd tl,
  sd <> [] -> length X = length sd -> length y = length sd -> length tl = length sd ->
  takes (mt_accepts m) "sample_domain" -> Forall (fun p => takes (mt_accepts m) (fst p)) params ->
  supervised sign e (ScObj m) params X y (SDArr sd) tl
  = (p <- e_predict e (rows_of is_target sd X) ;;
     v <- mt_run m (rows_of is_target sd tl) p (("sample_domain"%string, KDomain (filter is_target sd)) :: params) ;; Ok (sign * (mt_sign m * v))%R).
Proof.
  intros Row L sign e m params X y sd tl Ne LX Ly Lt Ht Hp. unfold supervised, supervised_score.
  rewrite target_part_given by (auto; lia). cbn [bind]. rewrite select_target by auto. cbn [bind score_func]. unfold call_scorer.
  rewrite (proj2 (accepted_takes _ _)) by (constructor; auto). rewrite rows_of_self. destruct (e_predict e _) as [p|]; [|reflexivity]. cbn [bind].
  destruct (mt_run m _ p _); reflexivity.
Qed.
Theorem C172_made_mixval : forall registry sign (e : scored_est (list R) Z) m sc predict alpha ice perm X y sda,
  (sc = ScObj m \/ exists s, sc = ScStr s /\ registry s = Some m) -> takes (mt_accepts m) "sample_domain" ->
  mixval registry sign e sc predict alpha ice perm X y sda
  = mixval_score sign predict (fun Xm ym sdm => p <- e_predict e Xm ;; v <- mt_run m ym p [("sample_domain"%string, KDomain sdm)] ;; Ok (mt_sign m * v)%R) alpha ice perm X y sda.
Proof.
  intros registry sign e m sc predict alpha ice perm X y sda Hsc Ht. unfold mixval.
  assert (C : check_scoring registry e sc = Ok (call_scorer m e)) by (destruct Hsc as [->|(s & -> & E)]; cbn; [|rewrite E]; reflexivity).
  rewrite C. cbn [bind]. unfold call_scorer. destruct m as [[l|] run sg]; cbn [mt_accepts mt_run mt_sign accepted] in *; auto.
  assert (E : existsb (String.eqb "sample_domain") l = true) by (apply existsb_exists; exists "sample_domain"%string; split; [exact Ht|reflexivity]).
  cbn [forallb fst]. rewrite E. reflexivity.
Qed.
(** A loss with sign -1 of value 3 on the two targets. *)
Example C172_made_ex : supervised 1 (mkEst None (fun X : list nat => Ok X)) (ScObj (mkMetric Any (fun y p _ => Ok (INR (length p + 1))) (-1)%R)) [] [5; 6; 7] [VNum 0; VNum 1; VNum 2] (SDArr [1; -2; -2]%Z) [0; 1; 2]
  = Ok (1 * (-1 * INR 3))%R.
Proof. reflexivity. Qed.

(** ** C134: what counts as leaving the base estimator of GradualEstimator out: None, zero, False and the empty text; everything else is kept. *)
Theorem C134_left_out : forall v, let d := CtorModel.PEst CtorModel.mlp in
  match v with
  | CtorModel.PNone => CtorModel.gradual_base v = Ok d
  | CtorModel.PNum q => CtorModel.gradual_base v = Ok (if Qeq_dec q 0 then d else v)
  | CtorModel.PText s => CtorModel.gradual_base v = Ok (if string_dec s "" then d else v)
  | CtorModel.PBool b => CtorModel.gradual_base v = Ok (if b then v else d)
  | CtorModel.PEst e => CtorModel.e_len e = None -> CtorModel.gradual_base v = Ok v
  end.
Proof.
  intros v d. destruct v as [|q|s|b|e]; unfold CtorModel.gradual_base; cbn [CtorModel.truth bind]; auto.
  - destruct (Qeq_dec q 0) as [E|N]; [apply Qeq_bool_iff in E; now rewrite E|]. destruct (Qeq_bool q 0) eqn:E; [apply Qeq_bool_iff in E; contradiction|reflexivity].
  - destruct (string_dec s "") as [->|N]; [reflexivity|]. destruct (String.eqb_spec s ""); [contradiction|reflexivity].
  - intros E. now rewrite E.
Qed.
Example C134_left_out_ex : CtorModel.gradual_base (CtorModel.PNum 1) = Ok (CtorModel.PNum 1) /\ CtorModel.gradual_base (CtorModel.PNum 0) = Ok (CtorModel.PEst CtorModel.mlp).
Proof. split; reflexivity. Qed.
