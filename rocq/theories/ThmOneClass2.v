(** C232, continued: MMDTarS with source labels of a single class. *)
From Coq Require Import List ZArith Bool Arith Lia Reals Lra Psatz.
From Verif Require Import Np NpFacts Labels Spec SpecFacts UtilsModel UtilsSpec UtilsProofs UtilsProofs2 SelectModel RVec RVecFacts FWModel FWSpec FWProofs ThmFW ReweightModel ReweightSpec ReweightProofs ThmReweight.
Import ListNotations.
Local Open Scope nat_scope.
Local Open Scope list_scope.

Lemma vsum_repeat' v n : vsum (repeat v n) = (INR n * v)%R.
Proof. induction n as [|n IH]; [cbn; ring|]. cbn [repeat]. unfold vsum in *. cbn [fold_right]. rewrite IH, S_INR. ring. Qed.
(** All sources get the same weight, at most 10/(4 sqrt m) away from 1 for m sources. *)
Theorem C232_tars : forall Row solve (X : list Row) y sda st c, tars_fit Row solve X y sda = Ok st ->
  let sd := eff_domain (length X) sda in let ys := rows_of is_source sd y in
  0 < how_many is_source sd -> Forall (fun v => v = c) ys ->
  (forall Xs Xt l p a, solve Xs Xt l p = Ok a -> meets_problem p a) ->
  exists v, ts_weights Row st = repeat v (length ys) /\ (0 <= v <= 10)%R /\ (0 < length ys -> (Rabs (v - 1) <= 10 / (4 * sqrt (INR (length ys))))%R).
Proof.
  intros Row solve X y sda st c E sd ys Hs F HS. destruct (C81_tars_fit Row solve X y sda st E Hs) as (_ & _ & _ & W & H). fold sd ys in W, H. specialize (H HS). cbv zeta in H. destruct H as [B S].
  set (v := class_weight (unique ys) (ts_alpha Row st) c).
  assert (EW : ts_weights Row st = repeat v (length ys)).
  { rewrite W. clear - F. revert v. generalize (unique ys) (ts_alpha Row st). intros u al v. induction ys as [|x l IH]; [reflexivity|]. inversion F; subst. cbn. f_equal. now apply IH. }
  destruct (Nat.eq_dec (length ys) 0) as [Z0|Z0].
  - exists 1%R. rewrite EW, Z0. split; [reflexivity|]. split; [lra|]. lia.
  - exists v. split; [exact EW|]. split.
    + rewrite EW, Forall_forall in B. apply B. destruct (length ys); [lia|now left].
    + intros HL. rewrite EW, vsum_repeat' in S. assert (P : (0 < INR (length ys))%R) by (apply lt_0_INR; exact HL). set (m := INR (length ys)) in *. set (e := (10 / (4 * sqrt m))%R) in *.
      apply Rabs_le. split; nra.
Qed.
(** Four sources of class 3, one target; the weights 1 meet the problem. *)
Example C232_tars_ex : exists st, tars_fit nat (fun _ _ _ _ => Ok [1%R]) [5; 6; 7; 8; 9] [3; 3; 3; 3; 0]%Z (SDArr [1; 1; 1; 1; -2]%Z) = Ok st /\ ts_weights nat st = [1; 1; 1; 1]%R.
Proof. eexists. split; [reflexivity|]. cbn. unfold dot, vsum. cbn. repeat (apply (f_equal2 (@cons _)); [lra|]). reflexivity. Qed.
