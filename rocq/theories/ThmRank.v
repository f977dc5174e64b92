(** C213: which models the scorers rank first. *)
From Coq Require Import String List ZArith QArith Bool Arith Lia Reals Lra.
From Verif Require Import Np NpFacts Labels Spec SpecFacts UtilsModel UtilsSpec UtilsProofs UtilsProofs2 SelectModel RVec RVecFacts FWSpec FWProofs ThmFW ReweightModel ReweightSpec ReweightProofs ReweightProofs2 MetricsModel MetricsSpec MetricsProofs MetricsProofs2 ThmMetrics.
Import ListNotations.
Local Open Scope nat_scope.
Local Open Scope list_scope.

(** A model is certain about a sample if it gives one class the probability one. *)
Definition certain_row (r : list R) : Prop := Forall (fun t => t = 0 \/ t = 1)%R r /\ vsum r = 1%R.
Definition certain (P : list (list R)) : Prop := Forall certain_row P.

Lemma certain_distribution r : certain_row r -> distribution r.
Proof. intros [F S]. split; [|auto]. eapply Forall_impl; [|exact F]. cbn. intros a [-> | ->]; lra. Qed.

Lemma vsum_le_pointwise (f g : R -> R) l : (forall x, In x l -> f x <= g x)%R -> (vsum (map f l) <= vsum (map g l))%R.
Proof.
  induction l as [|a l IH]; intros H; cbn; [lra|]. pose proof (H a (or_introl eq_refl)). assert (forall x, In x l -> f x <= g x)%R by (intros; apply H; now right).
  specialize (IH H1). lra.
Qed.

(** ** Prediction entropy (greater_is_better=False, the default: sign -1) *)

Lemma entropy_entry_nonneg p l : log_of p l -> (p <= 1)%R -> (0 <= entropy_entry p l)%R.
Proof.
  intros [[-> ->]|[Hp ->]] H1; cbn; [lra|]. assert (ln p <= 0)%R by (rewrite <- ln_1; destruct H1 as [H1| ->]; [left; now apply ln_increasing|right; reflexivity]).
  nra.
Qed.
Lemma entropy_entry_certain p l : log_of p l -> (p = 0 \/ p = 1)%R -> entropy_entry p l = 0%R.
Proof. intros [[-> ->]|[Hp ->]] [E|E]; cbn; try lra. subst p. rewrite ln_1. lra. Qed.

Lemma entries_nonneg P Lp : log_matrix P Lp -> row_stochastic P -> Forall (fun t => 0 <= t)%R (concat (map2 (map2 entropy_entry) P Lp)).
Proof.
  unfold log_matrix, row_stochastic. induction 1 as [|p l P Lp H _ IH]; intros S; [constructor|]. apply Forall_cons_iff in S as [D S]. cbn. apply Forall_app. split; [|auto].
  apply distribution_le1 in D. clear - H D. induction H as [|a b p l A _ IH]; [constructor|]. apply Forall_cons_iff in D as [D1 D]. cbn. constructor; [|auto]. now apply entropy_entry_nonneg.
Qed.
Lemma entries_certain P Lp : log_matrix P Lp -> certain P -> Forall (fun t => t = 0)%R (concat (map2 (map2 entropy_entry) P Lp)).
Proof.
  unfold log_matrix, certain. induction 1 as [|p l P Lp H _ IH]; intros S; [constructor|]. apply Forall_cons_iff in S as [[D _] S]. cbn. apply Forall_app. split; [|auto].
  clear - H D. induction H as [|a b p l A _ IH]; [constructor|]. apply Forall_cons_iff in D as [D1 D]. cbn. constructor; [|auto]. now apply entropy_entry_certain.
Qed.
Lemma vsum_zero l : Forall (fun t => t = 0)%R l -> vsum l = 0%R.
Proof. induction 1 as [|a l -> _ IH]; cbn; [reflexivity|lra]. Qed.
Lemma vsum_nonneg' l : Forall (fun t => 0 <= t)%R l -> (0 <= vsum l)%R.
Proof. induction 1 as [|a l H _ IH]; cbn; lra. Qed.

(** With log-probabilities that are the logarithms of the probabilities, no model gets a better prediction entropy than a model that
    is certain about every target sample. *)
Theorem C213_entropy : forall Row red pp plp pp' plp' (X : list Row) y sd s s',
  (forall A d P, pp A d = Ok P -> row_stochastic P) -> (forall A d P Lp, pp A d = Ok P -> plp A d = Ok Lp -> log_matrix P Lp) ->
  (forall A d P, pp' A d = Ok P -> certain P) -> (forall A d P Lp, pp' A d = Ok P -> plp' A d = Ok Lp -> log_matrix P Lp) ->
  entropy_score Row (-1) pp (Some plp) red X y (SDArr sd) = Ok (SNum s) ->
  entropy_score Row (-1) pp' (Some plp') red X y (SDArr sd) = Ok (SNum s') -> (s <= s')%R /\ s' = 0%R.
Proof.
  intros Row red pp plp pp' plp' X y sd s s' H1 H2 H3 H4 E E'.
  apply entropy_score_ok in E as (P & Lp & EP & EL & E). apply entropy_score_ok in E' as (P' & Lp' & EP' & EL' & E').
  pose proof (entries_nonneg P Lp (H2 _ _ _ _ EP EL) (H1 _ _ _ EP)) as N. pose proof (entries_certain P' Lp' (H4 _ _ _ _ EP' EL') (H3 _ _ _ EP')) as Z.
  apply vsum_nonneg' in N. apply vsum_zero in Z.
  destruct red; try discriminate; injection E as ->; injection E' as ->; unfold mean; rewrite ?Z.
  - assert (0 <= vsum (concat (map2 (map2 entropy_entry) P Lp)) / INR (length (concat (map2 (map2 entropy_entry) P Lp))))%R.
    { destruct (concat _) as [|x l]; [cbn; unfold Rdiv; lra|]. apply Rmult_le_pos; [exact N|]. left. apply Rinv_0_lt_compat, lt_0_INR. cbn. lia. }
    split; unfold Rdiv in *; lra.
  - lra.
Qed.
Example C213_entropy_ex : certain [[0; 1]; [1; 0]]%R /\ row_stochastic [[1 / 2; 1 / 2]; [1; 0]]%R /\ ~ certain [[1 / 2; 1 / 2]]%R.
Proof.
  split; [|split].
  - repeat (apply Forall_cons; [split; [repeat (apply Forall_cons; [auto|]); constructor|cbn; lra]|]). constructor.
  - repeat constructor; cbn; lra.
  - intros C. apply Forall_cons_iff in C as [[F _] _]. apply Forall_cons_iff in F as [[F|F] _]; lra.
Qed.

(** ** MaNo *)

Lemma np_pow_le_self t p : (0 <= t <= 1)%R -> (1 <= p)%R -> (np_pow t p <= t)%R.
Proof.
  intros [H0 H1] Hp. unfold np_pow, Reqb. destruct (Req_EM_T t 0) as [->|N]; [lra|]. assert (0 < t)%R by lra.
  rewrite <- (Rpower_1 t) at 2 by auto. unfold Rpower. assert (ln t <= 0)%R by (rewrite <- ln_1; destruct H1 as [H1| ->]; [left; now apply ln_increasing|right; reflexivity]).
  assert (L : (p * ln t <= 1 * ln t)%R) by nra. destruct L as [L| ->]; [left; now apply exp_increasing|right; reflexivity].
Qed.
Lemma np_pow_mono x y p : (0 <= x <= y)%R -> (0 < p)%R -> (np_pow x p <= np_pow y p)%R.
Proof.
  intros [H0 H1] Hp. unfold np_pow, Reqb. destruct (Req_EM_T x 0) as [->|N], (Req_EM_T y 0) as [->|N']; try lra.
  - unfold Rpower. left. apply exp_pos.
  - unfold Rpower. destruct H1 as [H1| ->]; [|right; reflexivity]. left. apply exp_increasing. apply Rmult_lt_compat_l; [auto|]. apply ln_increasing; lra.
Qed.
Lemma np_pow_certain t p : (t = 0 \/ t = 1)%R -> np_pow t p = t.
Proof.
  unfold np_pow, Reqb. intros [-> | ->]; [destruct (Req_EM_T 0 0); [reflexivity|lra]|]. destruct (Req_EM_T 1 0); [lra|]. unfold Rpower. rewrite ln_1, Rmult_0_r. apply exp_0.
Qed.
Lemma vsum_stochastic P : row_stochastic P -> vsum (concat P) = INR (length P).
Proof.
  unfold row_stochastic. induction 1 as [|r P [_ S] _ IH]; [reflexivity|]. cbn [concat length]. rewrite vsum_app, IH, S, S_INR. lra.
Qed.
Lemma concat_length_const {A} C (P : list (list A)) : Forall (fun r => length r = C) P -> length (concat P) = length P * C.
Proof. induction 1 as [|r P H _ IH]; [reflexivity|]. cbn [concat length]. rewrite app_length, IH, H. cbn. lia. Qed.

Lemma aggregate_best C p P P' : (1 <= p)%R -> row_stochastic P -> certain P' -> Forall (fun r => length r = C) P -> Forall (fun r => length r = C) P' -> length P = length P' ->
  (mano_aggregate p P <= mano_aggregate p P')%R.
Proof.
  intros Hp St Ce F F' L. unfold mano_aggregate. assert (St' : row_stochastic P') by (eapply Forall_impl; [|exact Ce]; apply certain_distribution).
  assert (B : Forall (fun t => 0 <= t <= 1)%R (concat P)).
  { apply Forall_concat. eapply Forall_impl; [|exact St]. intros r D. pose proof (distribution_le1 r D) as H1. destruct D as [H0 _]. rewrite Forall_forall in *. auto. }
  assert (E' : map (fun t => np_pow t p) (concat P') = map (fun t => t) (concat P')).
  { apply map_ext_in. intros t Ht. apply np_pow_certain. apply in_concat in Ht as (r & Hr & Ht). unfold certain in Ce. rewrite Forall_forall in Ce. destruct (Ce r Hr) as [Z _]. rewrite Forall_forall in Z. auto. }
  rewrite E', map_id. apply np_pow_mono; [|apply Rdiv_lt_0_compat; lra]. unfold mean. rewrite map_length, !(concat_length_const C) by auto. rewrite <- L.
  assert (S1 : (0 <= vsum (map (fun t => np_pow t p) (concat P)))%R).
  { apply vsum_nonneg', Forall_map. eapply Forall_impl; [|exact B]. intros t Ht. apply np_pow_01; [auto|lra]. }
  assert (S2 : (vsum (map (fun t => np_pow t p) (concat P)) <= vsum (concat P))%R).
  { rewrite <- (map_id (concat P)) at 2. apply vsum_le_pointwise. intros t Ht. rewrite Forall_forall in B. apply np_pow_le_self; [now apply B|auto]. }
  rewrite (vsum_stochastic P St) in S2. rewrite (vsum_stochastic P' St'), <- L.
  destruct (Nat.eq_dec (length P * C) 0) as [->|NZ]; [cbn [INR]; unfold Rdiv; rewrite Rinv_0; lra|].
  assert (0 < / INR (length P * C))%R by (apply Rinv_0_lt_compat, lt_0_INR; lia). unfold Rdiv. split; nra.
Qed.

(** For p >= 1 (the default is 4) no model with probabilities gets a better MaNo score than one that is certain everywhere. *)
Theorem C213_mano : forall Row p threshold C pp pp' (X : list Row) y sd s s', (1 <= p)%R ->
  (forall A d P, pp A d = Ok P -> row_stochastic P /\ Forall (fun r => length r = C) P /\ length P = length A) ->
  (forall A d P, pp' A d = Ok P -> certain P /\ Forall (fun r => length r = C) P /\ length P = length A) ->
  mano_score Row 1 p threshold (inr pp) X y (SDArr sd) = Ok s -> mano_score Row 1 p threshold (inr pp') X y (SDArr sd) = Ok s' -> (s <= s')%R.
Proof.
  intros Row p th C pp pp' X y sd s s' Hp H H' E E'.
  destruct (C51_probabilities Row 1 p th pp X y sd s (fun A d P Q => proj1 (H A d P Q)) E) as (P & a & EP & -> & -> & _).
  assert (H2 : forall A d P, pp' A d = Ok P -> row_stochastic P).
  { intros A d Q HQ. destruct (H' _ _ _ HQ) as [Ce _]. eapply Forall_impl; [|exact Ce]. apply certain_distribution. }
  destruct (C51_probabilities Row 1 p th pp' X y sd s' H2 E') as (P' & a' & EP' & -> & -> & _).
  destruct (H _ _ _ EP) as (St & F & L). destruct (H' _ _ _ EP') as (Ce & F' & L').
  rewrite !Rmult_1_l. apply (aggregate_best C); auto. congruence.
Qed.
(** REFUTED for the accepted values p < 1: a model that knows nothing is ranked above one that is certain. *)
Theorem C213_mano_small_p_refuted : exists pp pp', pp = (fun (A : list Z) (_ : list Z) => Ok (map (fun _ => [1 / 2; 1 / 2]%R) A)) /\ pp' = (fun (A : list Z) (_ : list Z) => Ok (map (fun _ => [1; 0]%R) A)) /\
  exists s s', mano_score Z 1 (1 / 2) 5 (inr pp) [7; 8]%Z (map VNum [1; -1]%Q) (SDArr [1; -2]%Z) = Ok s /\
    mano_score Z 1 (1 / 2) 5 (inr pp') [7; 8]%Z (map VNum [1; -1]%Q) (SDArr [1; -2]%Z) = Ok s' /\ (s' < s)%R.
Proof.
  do 2 eexists. do 2 (split; [reflexivity|]). unfold mano_score. assert (N : Rleb (1 / 2) 0 = false) by (apply Rleb_false; lra). rewrite N. cbn -[mano_aggregate].
  do 2 eexists. do 2 (split; [reflexivity|]). rewrite !Rmult_1_l. unfold mano_aggregate, mean. cbn. rewrite (np_pow_certain 1), (np_pow_certain 0) by auto.
  replace (1 / (1 / 2))%R with (INR 2) by (cbn; lra). unfold np_pow, Reqb.
  assert (S : (0 < Rpower (1 / 2) (1 / 2))%R) by (unfold Rpower; apply exp_pos).
  assert (Q : (Rpower (1 / 2) (1 / 2) * Rpower (1 / 2) (1 / 2) = 1 / 2)%R) by (rewrite <- Rpower_plus; replace (1 / 2 + 1 / 2)%R with 1%R by lra; apply Rpower_1; lra).
  destruct (Req_EM_T (1 / 2) 0); [lra|]. set (q := Rpower (1 / 2) (1 / 2)) in *.
  replace ((q + (q + 0)) / (1 + 1))%R with q by lra. replace ((1 + (0 + 0)) / (1 + 1))%R with (1 / 2)%R by lra.
  destruct (Req_EM_T q 0); [lra|]. destruct (Req_EM_T (1 / 2) 0); [lra|]. rewrite !Rpower_pow by lra. cbn. nra.
Qed.

(** ** Scores that compare predictions with labels *)

(** The weighted share of the predictions that are right. *)
Definition share {A} (eqb : A -> A -> bool) (w : list R) (p y : list A) : R := vsum (map2 (fun a (b : bool) => if b then a else 0%R) w (map2 eqb p y)).
Lemma share_best {A} (eqb : A -> A -> bool) : (forall a, eqb a a = true) -> forall w p y, Forall (fun t => 0 <= t)%R w -> length p = length y -> (share eqb w p y <= share eqb w y y)%R.
Proof.
  intros E w. unfold share. induction w as [|a w IH]; intros [|u p] [|v y] N L; cbn in *; try lra; try discriminate.
  apply Forall_cons_iff in N as [Na N]. specialize (IH p y N (f_equal pred L)). rewrite E. destruct (eqb u v); lra.
Qed.
Definition accuracy_of {Row A} (eqb : A -> A -> bool) (model : list Row -> list Z -> res (list A)) (X : list Row) (y : list A) (sd : list Z) (w : list R) : res R :=
  p <- model X sd ;; if (length p =? length y) && (length w =? length y) then Ok (share eqb w p y / vsum w)%R else Err ValueError.

(** SupervisedScorer with the accuracy: no model is ranked above one that gives the targets their labels. *)
Theorem C213_supervised : forall Row L (eqb : L -> L -> bool) model model' (X : list Row) y sd tl s s', (forall a, eqb a a = true) ->
  model' (rows_of is_target sd X) (filter is_target sd) = Ok (rows_of is_target sd tl) ->
  let func m := fun A b d => accuracy_of eqb m A b d (repeat 1%R (length b)) in
  supervised_score Row 1 (func model) X y (SDArr sd) tl = Ok s -> supervised_score Row 1 (func model') X y (SDArr sd) tl = Ok s' -> (s <= s')%R.
Proof.
  intros Row L eqb m m' X y sd tl s s' R Hm func E E'. apply C44_target_rows in E as (_ & _ & v & E & ->). apply C44_target_rows in E' as (_ & _ & v' & E' & ->).
  unfold func, accuracy_of in *. rewrite Hm in E'. cbn [bind] in E'. destruct (_ && _) in E'; [|discriminate]. injection E' as <-.
  apply bind_ok in E as (p & _ & E). destruct (Nat.eqb_spec (length p) (length (rows_of is_target sd tl))) as [L1|]; [|discriminate].
  rewrite repeat_length, Nat.eqb_refl in E. cbn [andb] in E. injection E as <-.
  assert (N : Forall (fun t => 0 <= t)%R (repeat 1%R (length (rows_of is_target sd tl)))) by (apply Forall_forall; intros t Ht; apply repeat_spec in Ht; lra).
  pose proof (share_best eqb R _ _ _ N L1) as B. assert (0 <= vsum (repeat 1%R (length (rows_of is_target sd tl))))%R by (now apply vsum_nonneg').
  rewrite !Rmult_1_l. apply Rmult_le_compat_r; [|exact B]. destruct (Req_EM_T (vsum (repeat 1%R (length (rows_of is_target sd tl)))) 0) as [Z|NZ]; [rewrite Z, Rinv_0; lra|left; apply Rinv_0_lt_compat; lra].
Qed.

Lemma val_eqb_refl v : val_eqb v v = true.
Proof. destruct v as [q| |b]; cbn; [apply Qeq_bool_refl|reflexivity|now destruct b]. Qed.

(** ImportanceWeightedScorer with the weighted accuracy: no model is ranked above one that is right on the sources. *)
Theorem C213_importance : forall Row kde fexp model model' (X : list Row) y sd s s', (forall t, 0 <= fexp t)%R ->
  model' (rows_of is_source sd X) (filter is_source sd) = Ok (rows_of is_source sd y) ->
  importance_score Row 1 kde fexp (accuracy_of val_eqb model) X y (SDArr sd) = Ok s ->
  importance_score Row 1 kde fexp (accuracy_of val_eqb model') X y (SDArr sd) = Ok s' -> (s <= s')%R.
Proof.
  intros Row kde fexp m m' X y sd s s' HF Hm E E'. unfold importance_score in E, E'.
  destruct (check_X_y_domain (length X) y (SDArr sd) true all_flags) as [sd'|] eqn:Hc; [|discriminate]. cbn [bind] in E, E'.
  apply check_xy_given in Hc as (-> & Ne & Hn & Ly). rewrite extract_source_ok in E, E' by auto. cbn [bind] in E, E'.
  destruct (np_select (map is_source sd) X) as [Xs|] eqn:HX; [|discriminate]. pose proof (select_len _ _ _ HX) as LX. rewrite map_length in LX.
  rewrite select_source in HX by auto. injection HX as <-. cbn [bind] in E, E'. rewrite select_target in E, E' by auto. cbn [bind] in E, E'.
  rewrite select_source in E, E' by lia. cbn [bind] in E, E'.
  destruct (kde (rows_of is_source sd X)) as [es|]; [|discriminate]. cbn [bind] in E, E'. destruct (kde (rows_of is_target sd X)) as [et|]; [|discriminate]. cbn [bind] in E, E'.
  destruct (es (rows_of is_source sd X)) as [ls|]; [|discriminate]. cbn [bind] in E, E'. destruct (et (rows_of is_source sd X)) as [lt|]; [|discriminate]. cbn [bind] in E, E'.
  destruct (np_map2 Rminus lt ls) as [d|]; [|discriminate]. cbn [bind] in E, E'. rewrite select_source in E, E' by auto. cbn [bind] in E, E'. rewrite rows_of_self in E, E'.
  set (w := normalise_sum_or_uniform (map fexp d)) in *.
  assert (N : Forall (fun t => 0 <= t)%R w).
  { destruct d as [|a d]; [unfold w, normalise_sum_or_uniform; destruct (negb _); constructor|].
    apply (proj1 (normalise_distribution (map fexp (a :: d)) ltac:(discriminate) ltac:(apply Forall_map, Forall_forall; intros; apply HF))). }
  unfold accuracy_of in E, E'. rewrite Hm in E'. cbn [bind] in E'. destruct (m (rows_of is_source sd X) (filter is_source sd)) as [p|]; [|discriminate]. cbn [bind] in E.
  destruct (Nat.eqb_spec (length p) (length (rows_of is_source sd y))) as [L1|]; [|discriminate]. rewrite Nat.eqb_refl in E'. cbn [andb] in E, E'.
  destruct (length w =? length (rows_of is_source sd y)); [|discriminate]. injection E as <-. injection E' as <-.
  pose proof (share_best val_eqb val_eqb_refl _ _ _ N L1) as B. pose proof (vsum_nonneg' w N) as V. rewrite !Rmult_1_l. apply Rmult_le_compat_r; [|exact B].
  destruct (Req_EM_T (vsum w) 0) as [Z|NZ]; [rewrite Z, Rinv_0; lra|left; apply Rinv_0_lt_compat; lra].
Qed.
Example C213_supervised_ex : accuracy_of Z.eqb (fun (X : list Z) (_ : list Z) => Ok X) [1; 2; 2]%Z [1; 2; 3]%Z [] (repeat 1%R 3) = Ok (2 / 3)%R.
Proof. unfold accuracy_of, share. cbn. f_equal. lra. Qed.

(** CircularValidation: if predicting the labels themselves is best for the chosen metric, no model is ranked above one whose copy,
    trained backwards, gives the sources their labels. *)
Theorem C213_circular : forall Row predict predict' fit_backward (metric : list val -> list val -> res R) dt (X : list Row) y sd v best,
  (forall a b s s', metric a b = Ok s -> metric a a = Ok s' -> (s <= s')%R) -> metric (rows_of is_source sd y) (rows_of is_source sd y) = Ok best ->
  circular_score Row 1 predict fit_backward metric dt X y (SDArr sd) = Ok v -> exists final, metric (rows_of is_source sd y) final = Ok v /\ (v <= best)%R /\
  (final = rows_of is_source sd y -> forall v', circular_score Row 1 predict' fit_backward metric dt X y (SDArr sd) = Ok v' -> (v' <= v)%R).
Proof.
  intros Row pr pr' fb metric dt X y sd v best HM HB E. destruct (C49_score _ _ _ _ _ _ _ _ _ _ E) as (yp & fin & s & _ & M & -> & _).
  exists fin. rewrite Rmult_1_l. split; [auto|]. split; [exact (HM _ _ _ _ M HB)|]. intros -> v' E'.
  destruct (C49_score _ _ _ _ _ _ _ _ _ _ E') as (yp' & fin' & s' & _ & M' & -> & _). rewrite Rmult_1_l. exact (HM _ _ _ _ M' M).
Qed.

(** ** Soft neighbourhood density *)

(** The entropy of a softmax. *)
Lemma softmax_entropy (f : nat -> R) l : l <> [] ->
  let Z := vsum (map (fun j => exp (f j)) l) in
  (0 < Z)%R /\ entropy (map (fun j => exp (f j) / Z)%R l) = (ln Z - vsum (map (fun j => exp (f j) / Z * f j) l))%R.
Proof.
  intros NE Z. assert (HZ : (0 < Z)%R).
  { unfold Z. destruct l as [|a l]; [easy|]. cbn. pose proof (exp_pos (f a)). assert (0 <= vsum (map (fun j => exp (f j)) l))%R; [|lra].
    apply vsum_nonneg', Forall_map, Forall_forall. intros j _. left. apply exp_pos. }
  split; [auto|]. unfold entropy. rewrite map_map.
  assert (E : forall l', vsum (map (fun x => if Req_EM_T (exp (f x) / Z) 0 then 0 else - (exp (f x) / Z) * ln (exp (f x) / Z))%R l') =
     (vsum (map (fun j => exp (f j)) l') / Z * ln Z - vsum (map (fun j => exp (f j) / Z * f j) l'))%R).
  { induction l' as [|a l' IH]; cbn; [unfold Rdiv; lra|]. rewrite IH. pose proof (exp_pos (f a)) as P.
    assert (0 < exp (f a) / Z)%R by (now apply Rdiv_lt_0_compat). destruct (Req_EM_T (exp (f a) / Z) 0) as [Q|_]; [lra|].
    assert (LE : ln (exp (f a) / Z) = (f a - ln Z)%R) by (unfold Rdiv; rewrite ln_mult, ln_exp, ln_Rinv by (auto; now apply Rinv_0_lt_compat); ring).
    rewrite LE. unfold Rdiv. ring. }
  rewrite E. fold Z. field. lra.
Qed.

(** The rows compared by the score, as lists. *)
Lemma snd_rows Row pp T (X : list Row) y sd r : (forall A d P, pp A d = Ok P -> length P = length A /\ row_stochastic P) ->
  length X = length sd -> 0 < how_many is_target sd -> snd_score Row 1 pp T X y (SDArr sd) = Ok r ->
  exists P, pp (rows_of is_target sd X) (filter is_target sd) = Ok P /\ length P = how_many is_target sd /\
    r = mean (map (fun i => entropy (map (fun j => exp (sim_entry P T i j) / vsum (map (fun k => exp (sim_entry P T i k)) (seq 0 (how_many is_target sd))))%R (seq 0 (how_many is_target sd)))) (seq 0 (how_many is_target sd))).
Proof.
  intros Hp L Hn E. destruct (C47_mean_of_entropies _ _ _ _ _ _ _ _ Hp L Hn E) as (P & D & EP & LD & FD & ND & -> & _). exists P. split; [auto|].
  destruct (Hp _ _ _ EP) as [LP _]. rewrite rows_of_length in LP by auto. split; [auto|]. rewrite Rmult_1_l. f_equal. set (n := how_many is_target sd) in *.
  rewrite Forall_forall in FD. apply (nth_ext _ _ 0%R 0%R); [now rewrite !map_length, seq_length|]. intros i Hi. rewrite map_length, LD in Hi.
  rewrite (nth_indep _ 0%R (entropy [])) by (rewrite map_length; lia). rewrite map_nth.
  set (g := fun i => entropy _) at 1. rewrite (nth_indep _ 0%R (g 0)) by (rewrite map_length, seq_length; lia). rewrite (map_nth g), seq_nth by lia. cbn [plus]. unfold g. f_equal.
  assert (Li : length (nth i D []) = n) by (apply FD, nth_In; lia).
  apply (nth_ext _ _ 0%R 0%R); [now rewrite map_length, seq_length|]. intros j Hj. rewrite Li in Hj. rewrite ND by auto.
  set (h := fun j => (exp (sim_entry P T i j) / _)%R). rewrite (nth_indep _ 0%R (h 0)) by (rewrite map_length, seq_length; lia). rewrite (map_nth h), seq_nth by lia. reflexivity.
Qed.

Lemma cosine_self r : distribution r -> cosine r r = 1%R.
Proof.
  intros [_ S]. unfold cosine. assert (N : dot r r <> 0%R). { intros E. rewrite <- (dot_ones _ _ eq_refl) in S. rewrite dot_comm in S. rewrite dot_zero in S by auto. lra. }
  destruct (sqrt_dot_pos r N) as [P _]. rewrite sqrt_def by lra. field. exact N.
Qed.

(** A model that gives every target the same probabilities gets at least ln (n - 1); no model gets more than ln n (C47). *)
Theorem C213_snd_constant : forall Row T q pp (X : list Row) y sd s, distribution q -> (0 < T)%R -> length X = length sd -> 2 <= how_many is_target sd ->
  pp = (fun A (_ : list Z) => Ok (map (fun _ : Row => q) A)) -> snd_score Row 1 pp T X y (SDArr sd) = Ok s ->
  (ln (INR (how_many is_target sd) - 1) <= s <= ln (INR (how_many is_target sd)))%R.
Proof.
  intros Row T q pp X y sd s HQ HT LX Hn -> E.
  assert (Hp : forall A d P, (fun A (_ : list Z) => Ok (map (fun _ : Row => q) A)) A d = Ok P -> length P = length A /\ row_stochastic P).
  { intros A d P Q. injection Q as <-. split; [apply map_length|]. apply Forall_map, Forall_forall. auto. }
  split; [|destruct (C47_mean_of_entropies _ _ _ _ _ _ _ _ Hp LX ltac:(lia) E) as (P & D & _ & _ & _ & _ & -> & B); lra].
  destruct (snd_rows _ _ _ _ _ _ _ Hp LX ltac:(lia) E) as (P & EP & LP & ->). injection EP as EP. set (n := how_many is_target sd) in *.
  assert (NP : forall i, i < n -> nth i P [] = q).
  { intros i Hi. assert (I : In (nth i P []) P) by (apply nth_In; lia). rewrite <- EP in I at 2. apply in_map_iff in I as (x & Q & _). now rewrite <- Q. }
  assert (SE : forall i j, i < n -> j < n -> sim_entry P T i j = (if i =? j then - / T else / T)%R).
  { intros i j Hi Hj. unfold sim_entry. rewrite !NP, cosine_self by auto. destruct (i =? j); unfold Rdiv; lra. }
  assert (MB : forall l c, l <> [] -> Forall (fun t => c <= t)%R l -> (c <= mean l)%R).
  { intros l c NE F. unfold mean. assert (HL : (0 < INR (length l))%R) by (apply lt_0_INR; destruct l; [easy|cbn; lia]).
    assert (B : (INR (length l) * c <= vsum l)%R). { clear - F. induction F as [|a l H _ IH]; [cbn; lra|]. cbn [length vsum]. rewrite S_INR. lra. }
    apply (Rmult_le_reg_r (INR (length l))); [auto|]. unfold Rdiv. rewrite Rmult_assoc, Rinv_l, Rmult_1_r by lra. lra. }
  apply MB; [destruct n; [lia|discriminate]|]. apply Forall_map, Forall_forall. intros i Hi. apply in_seq in Hi.
  assert (NE : seq 0 n <> []) by (destruct n; [lia|discriminate]).
  destruct (softmax_entropy (sim_entry P T i) (seq 0 n) NE) as [HZ HE]. cbv zeta in HE. rewrite HE. set (Z := vsum (map (fun j => exp (sim_entry P T i j)) (seq 0 n))) in *.
  assert (U : (vsum (map (fun j => exp (sim_entry P T i j) / Z * sim_entry P T i j) (seq 0 n)) <= / T)%R).
  { apply Rle_trans with (vsum (map (fun j => exp (sim_entry P T i j) / Z * / T)%R (seq 0 n))).
    - assert (G : forall l, (forall j, In j l -> j < n) -> (vsum (map (fun j => exp (sim_entry P T i j) / Z * sim_entry P T i j) l) <= vsum (map (fun j => exp (sim_entry P T i j) / Z * / T)%R l))%R).
      { induction l as [|j l IH]; intros H; cbn; [lra|]. assert (IH' := IH (fun k Hk => H k (or_intror Hk))).
        assert (0 < exp (sim_entry P T i j) / Z)%R by (apply Rdiv_lt_0_compat; [apply exp_pos|auto]).
        assert (sim_entry P T i j <= / T)%R by (assert (Hj : j < n) by (apply H; now left); rewrite SE by lia; pose proof (Rinv_0_lt_compat T HT); destruct (i =? j); lra). nra. }
      apply G. intros j Hj. apply in_seq in Hj. lia.
    - assert (G : forall l, vsum (map (fun j => exp (sim_entry P T i j) / Z * / T)%R l) = (vsum (map (fun j => exp (sim_entry P T i j)) l) / Z * / T)%R).
      { induction l as [|j l IH]; cbn; [unfold Rdiv; lra|]. rewrite IH. unfold Rdiv. ring. }
      rewrite G. fold Z. right. field. split; lra. }
  assert (V : (ln (INR n - 1) + / T <= ln Z)%R).
  { rewrite <- (ln_exp (/ T)). assert (1 <= INR n - 1)%R by (replace n with (S (S (n - 2))) by lia; rewrite !S_INR; pose proof (pos_INR (n - 2)); lra).
    rewrite <- ln_mult by (try apply exp_pos; lra).
    assert (K : ((INR n - 1) * exp (/ T) <= Z)%R).
    { unfold Z. assert (G : forall m, m <= n -> ((INR m - (if i <? m then 1 else 0)) * exp (/ T) <= vsum (map (fun j => exp (sim_entry P T i j)) (seq 0 m)))%R).
      { induction m as [|m IH]; intros Hm; [cbn; lra|]. rewrite seq_S, map_app, vsum_app. cbn [plus map vsum]. specialize (IH ltac:(lia)). rewrite SE by lia. rewrite S_INR.
        pose proof (exp_pos (- / T)). destruct (Nat.eqb_spec i m) as [<-|Q].
        - rewrite (proj2 (Nat.ltb_lt i (S i))) by lia. rewrite (proj2 (Nat.ltb_ge i i)) in IH by lia. lra.
        - destruct (Nat.ltb_spec i m), (Nat.ltb_spec i (S m)); try lia; lra. }
      specialize (G n (le_n n)). rewrite (proj2 (Nat.ltb_lt i n)) in G by lia. exact G. }
    pose proof (exp_pos (/ T)). destruct K as [K|K]; [left; apply ln_increasing; [nra|exact K]|right; now rewrite K]. }
  lra.
Qed.

(** REFUTED: with the default temperature, four targets of two classes. The model that knows all the classes is ranked below the
    model that puts everything into the first class. *)
Definition four_right : list Z -> list Z -> res (list (list R)) := fun A _ => Ok (map (fun x => if (x <? 0)%Z then [1; 0]%R else [0; 1]%R) A).
Definition four_constant : list Z -> list Z -> res (list (list R)) := fun A _ => Ok (map (fun _ => [1; 0]%R) A).
Lemma exp_20 : (2 ^ 20 <= exp 20)%R.
Proof.
  assert (E : forall k, exp (INR k) = (exp 1 ^ k)%R).
  { induction k as [|k IH]; [apply exp_0|]. rewrite S_INR, exp_plus, IH. cbn. ring. }
  replace 20%R with (INR 20) by (cbn; lra). rewrite E. apply pow_incr. split; [lra|]. pose proof (exp_ineq1 1 ltac:(lra)). lra.
Qed.
Theorem C213_snd_refuted : exists s s',
  snd_score Z 1 four_constant (1 / 20) [0; -2; -1; 1; 2]%Z (map VNum [1; -1; -1; -1; -1]%Q) (SDArr [1; -2; -2; -2; -2]%Z) = Ok s /\
  snd_score Z 1 four_right (1 / 20) [0; -2; -1; 1; 2]%Z (map VNum [1; -1; -1; -1; -1]%Q) (SDArr [1; -2; -2; -2; -2]%Z) = Ok s' /\ (s' < s)%R.
Proof.
  eexists. eexists. split; [reflexivity|]. split; [reflexivity|].
  match goal with |- (?a < ?b)%R => set (s' := a); set (s := b) end.
  assert (E : snd_score Z 1 four_constant (1 / 20) [0; -2; -1; 1; 2]%Z (map VNum [1; -1; -1; -1; -1]%Q) (SDArr [1; -2; -2; -2; -2]%Z) = Ok s) by reflexivity.
  assert (E' : snd_score Z 1 four_right (1 / 20) [0; -2; -1; 1; 2]%Z (map VNum [1; -1; -1; -1; -1]%Q) (SDArr [1; -2; -2; -2; -2]%Z) = Ok s') by reflexivity.
  clearbody s s'. assert (DQ : distribution [1; 0]%R) by (split; [repeat constructor; lra|cbn; lra]).
  assert (N4 : how_many is_target [1; -2; -2; -2; -2]%Z = 4) by reflexivity.
  destruct (C213_snd_constant Z (1 / 20) [1; 0]%R four_constant [0; -2; -1; 1; 2]%Z _ [1; -2; -2; -2; -2]%Z s DQ ltac:(lra) eq_refl ltac:(rewrite N4; lia) eq_refl E) as [B _].
  assert (H2 : (/ 2 < s)%R).
  { eapply Rlt_le_trans; [exact ln_lt_2|]. change (how_many is_target [1; -2; -2; -2; -2]%Z) with 4 in B. cbn [INR] in B. eapply Rle_trans; [|exact B]. left. apply ln_increasing; lra. }
  enough (s' < / 2)%R by lra. clear E B H2 s.
  assert (Hp : forall A d P, four_right A d = Ok P -> length P = length A /\ row_stochastic P).
  { intros A d P Q. injection Q as <-. split; [apply map_length|]. apply Forall_map, Forall_forall. intros x _. destruct (x <? 0)%Z; (split; [repeat constructor; lra|cbn; lra]). }
  destruct (snd_rows Z four_right (1 / 20) [0; -2; -1; 1; 2]%Z _ [1; -2; -2; -2; -2]%Z _ Hp eq_refl ltac:(rewrite N4; lia) E') as (P & EP & _ & ->). cbn in EP. injection EP as <-. clear E' Hp.
  change (how_many is_target [1; -2; -2; -2; -2]%Z) with 4.
  assert (C11 : cosine [1; 0]%R [1; 0]%R = 1%R) by (apply cosine_self; auto).
  assert (C22 : cosine [0; 1]%R [0; 1]%R = 1%R) by (apply cosine_self; split; [repeat constructor; lra|cbn; lra]).
  assert (C12 : cosine [1; 0]%R [0; 1]%R = 0%R) by (unfold cosine, dot; cbn; unfold Rdiv; ring).
  assert (C21 : cosine [0; 1]%R [1; 0]%R = 0%R) by (unfold cosine, dot; cbn; unfold Rdiv; ring).
  set (e := exp 20). pose proof exp_20 as B. fold e in B. assert (Be : (1048576 <= e)%R) by (cbn in B; lra). clear B.
  assert (EI : exp (-20) = (/ e)%R) by (unfold e; replace (-20)%R with (- (20))%R by lra; apply exp_Ropp).
  assert (RB : forall f : nat -> R, forall i, i < 4 -> (forall j, j < 4 -> f j = if i =? j then (-20)%R else if (i / 2 =? j / 2) then 20%R else 0%R) ->
     (entropy (map (fun j => exp (f j) / vsum (map (fun k => exp (f k)) (seq 0 4)))%R (seq 0 4)) < / 2)%R).
  { intros f i Hi Hf. destruct (softmax_entropy f (seq 0 4) ltac:(discriminate)) as [HZ HE]. cbv zeta in HE. rewrite HE.
    assert (EZ : vsum (map (fun j => exp (f j)) (seq 0 4)) = (e + 2 + / e)%R).
    { cbn [seq map vsum]. rewrite !Hf by lia. do 4 (destruct i as [|i]; [cbn; rewrite EI, exp_0; fold e; lra|]). lia. }
    rewrite EZ in *.
    assert (ES : vsum (map (fun j => exp (f j) / (e + 2 + / e) * f j)%R (seq 0 4)) = (20 * (e - / e) / (e + 2 + / e))%R).
    { cbn [seq map vsum]. rewrite !Hf by lia. do 4 (destruct i as [|i]; [cbn; rewrite EI, exp_0; fold e; unfold Rdiv; ring|]). lia. }
    rewrite ES. assert (I1 : (0 < / e <= / 1048576)%R) by (split; [apply Rinv_0_lt_compat; lra|apply Rinv_le_contravar; lra]).
    assert (LZ : (ln (e + 2 + / e) <= 20 + 3 * / e)%R).
    { replace (e + 2 + / e)%R with (e * (1 + 2 * / e + / e * / e))%R by (field; lra). rewrite ln_mult by nra. unfold e at 1. rewrite ln_exp.
      pose proof (ln_le_sub (1 + 2 * / e + / e * / e) ltac:(nra)). nra. }
    assert (F : (20 - 20 * (e - / e) / (e + 2 + / e) = 40 * (1 + / e) / (e + 2 + / e))%R) by (generalize dependent (/ e)%R; intros z; intros; field; lra).
    assert (G : (40 * (1 + / e) / (e + 2 + / e) <= 80 * / e)%R).
    { apply (Rmult_le_reg_r (e + 2 + / e)); [lra|]. unfold Rdiv. rewrite Rmult_assoc, Rinv_l, Rmult_1_r by lra. replace (80 * / e * (e + 2 + / e))%R with (80 + 160 * / e + 80 * / e * / e)%R by (field; lra). nra. }
    nra. }
  assert (MU : forall g : nat -> R, (forall i, i < 4 -> (g i < / 2)%R) -> (mean (map g (seq 0 4)) < / 2)%R).
  { intros g A. pose proof (A 0 ltac:(lia)). pose proof (A 1 ltac:(lia)). pose proof (A 2 ltac:(lia)). pose proof (A 3 ltac:(lia)). unfold mean. cbn. lra. }
  apply MU.
  intros i Hi. cbv beta. apply (RB (sim_entry _ (1 / 20) i) i Hi). intros j Hj. unfold sim_entry.
    do 4 (destruct i as [|i]; [do 4 (destruct j as [|j]; [cbn; rewrite ?C11, ?C12, ?C21, ?C22; lra|]); lia|]). lia.
Qed.

(** ** Deep embedded validation (greater_is_better=False, the default) *)

Definition log_loss (y : nat) (p : list R) : R := (- ln (nth y p 0))%R.
Definition dev_weights (fs : list Z) (ds : list Z) : res (list Z -> res (list (R * R))) := Ok (fun _ => Ok [(2 / 3, 1 / 3); (4 / 5, 1 / 5)]%R).
(** REFUTED: a model that is certain and right on all the samples used is ranked below a model that prefers the wrong class for all
    of them; the density ratios are 2 and 4. *)
Theorem C213_dev_refuted : exists wrong right : list Z -> list Z -> res (list (list R)),
  (forall A d, right A d = Ok (map (fun _ => [1; 0]%R) A)) /\ (forall A d, wrong A d = Ok (map (fun _ => [exp (-2); 1 - exp (-2)]%R) A)) /\ (exp (-2) < 1 - exp (-2))%R /\
  exists s s', dev_score Z (-1) [0] [1; 2] Ok dev_weights wrong log_loss [1; 2; 3; 9]%Z (map VNum [1; 1; 1; -1]%Q) [0; 0; 0; 1] (SDArr [1; 1; 1; -2]%Z) = Ok s /\
    dev_score Z (-1) [0] [1; 2] Ok dev_weights right log_loss [1; 2; 3; 9]%Z (map VNum [1; 1; 1; -1]%Q) [0; 0; 0; 1] (SDArr [1; 1; 1; -2]%Z) = Ok s' /\ (s' < s)%R.
Proof.
  exists (fun A _ => Ok (map (fun _ => [exp (-2); 1 - exp (-2)]%R) A)), (fun A _ => Ok (map (fun _ => [1; 0]%R) A)). split; [reflexivity|]. split; [reflexivity|]. split.
  { assert (E : (exp (-2) * exp 2 = 1)%R) by (rewrite <- exp_plus; replace (-2 + 2)%R with 0%R by lra; apply exp_0). pose proof (exp_ineq1 2 ltac:(lra)). pose proof (exp_pos (-2)). nra. }
  unfold dev_score. cbn -[dev_value exp Rdiv]. do 2 eexists. do 2 (split; [reflexivity|]).
  rewrite !C48_default_loss_value by reflexivity. cbv zeta. unfold log_loss. cbn [nth]. rewrite ln_1, ln_exp.
  match goal with |- context [sample_cov ?w ?w] => set (ws := w) end. assert (EW : ws = [2; 4]%R) by (unfold ws; repeat (apply f_equal2; [cbn; field|]); reflexivity). rewrite EW.
  assert (EC : sample_cov [2; 4]%R [2; 4]%R = 2%R) by (unfold sample_cov, mean; cbn; field). rewrite EC. destruct (Req_EM_T 2 0); [lra|]. unfold mean. cbn. lra.
Qed.

(** ** MixVal *)

Definition mix_accuracy (model : list (list R) -> list Z -> res (list Z)) : list (list R) -> list Z -> list Z -> res R :=
  fun A b d => accuracy_of Z.eqb model A b d (repeat 1%R (length b)).
Definition always (c : Z) : list (list R) -> list Z -> res (list Z) := fun A _ => Ok (map (fun _ => c) A).

Lemma share_constant c : forall n, share Z.eqb (repeat 1%R n) (repeat c n) (repeat c n) = vsum (repeat 1%R n).
Proof. unfold share. induction n as [|n IH]; cbn; [reflexivity|]. rewrite Z.eqb_refl, IH. reflexivity. Qed.
Lemma vsum_ones n : vsum (repeat 1%R n) = INR n.
Proof. induction n as [|n IH]; [reflexivity|]. cbn [repeat vsum]. rewrite IH, S_INR. lra. Qed.
Lemma map_constant {A} (l : list A) (c : Z) f : (forall x, In x l -> f x = c) -> map f l = repeat c (length l).
Proof. induction l as [|a l IH]; intros H; cbn; [reflexivity|]. rewrite H by now left. f_equal. apply IH. intros; apply H; now right. Qed.

(** A model that answers the same class for everything gets the best value, one (no value if only pairs of different classes are asked for). *)
Theorem C213_mixval_constant : forall c alpha ice perm X y sd out, 0 < how_many is_target sd ->
  mixval_score 1 (always c) (mix_accuracy (always c)) alpha ice perm X y (SDArr sd) = Ok out ->
  out = match ice with IceInter => None | _ => Some 1%R end.
Proof.
  intros c alpha ice perm X y sd out Hn E. destruct (C50_mixval _ _ _ _ _ _ _ _ _ _ E) as (LX & la & EL & H). cbv zeta in H. set (n := how_many is_target sd) in *.
  injection EL as <-. destruct H as (L1 & L2 & F & s1 & s2 & m & H1 & H2 & H3 & ->). set (la := map (fun _ => c) (rows_of is_target sd X)) in *.
  assert (NC : forall i, i < n -> nth i la 0%Z = c).
  { intros i Hi. assert (I : In (nth i la 0%Z) la) by (apply nth_In; lia). unfold la in I at 2. apply in_map_iff in I as (x & Q & _). auto. }
  assert (PN : forall i, i < n -> nth i perm 0 < n) by (intros i Hi; rewrite Forall_forall in F; apply F, nth_In; lia).
  assert (FS : filter (fun i => (nth i la 0 =? nth (nth i perm 0%nat) la 0)%Z) (seq 0 n) = seq 0 n).
  { assert (G : forall l, (forall i, In i l -> i < n) -> filter (fun i => (nth i la 0 =? nth (nth i perm 0%nat) la 0)%Z) l = l).
    { induction l as [|i l IH]; intros H; cbn; [reflexivity|]. pose proof (H i (or_introl eq_refl)). rewrite !NC by (try apply PN; lia). rewrite Z.eqb_refl. f_equal. apply IH. intros; apply H; now right. }
    apply G. intros i Hi. apply in_seq in Hi. lia. }
  assert (FD : filter (fun i => negb (nth i la 0 =? nth (nth i perm 0%nat) la 0)%Z) (seq 0 n) = []).
  { assert (G : forall l, (forall i, In i l -> i < n) -> filter (fun i => negb (nth i la 0 =? nth (nth i perm 0%nat) la 0)%Z) l = []).
    { induction l as [|i l IH]; intros H; cbn; [reflexivity|]. pose proof (H i (or_introl eq_refl)). rewrite !NC by (try apply PN; lia). rewrite Z.eqb_refl. cbn. apply IH. intros; apply H; now right. }
    apply G. intros i Hi. apply in_seq in Hi. lia. }
  assert (S1 : ice <> IceInter -> s1 = Some 1%R).
  { intros Q. specialize (H1 Q). unfold part_score in H1. rewrite FS in H1. destruct H1 as [[Z _]|(_ & r & -> & ER)]; [destruct n; [lia|discriminate]|]. f_equal.
    unfold mix_accuracy, accuracy_of, always in ER. cbn [bind] in ER. rewrite !map_length, repeat_length, Nat.eqb_refl in ER. cbn [andb] in ER. injection ER as <-. rewrite seq_length.
    rewrite (map_constant (seq 0 n) c). 2:{ intros i Hi. apply in_seq in Hi. destruct (Rle_dec (1 / 2) alpha); apply NC; [lia|apply PN; lia]. }
    rewrite (map_constant (map _ (seq 0 n)) c) by reflexivity. rewrite map_length, !seq_length, share_constant, vsum_ones. field. apply not_0_INR. lia. }
  assert (S2 : ice <> IceIntra -> s2 = None).
  { intros Q. specialize (H2 Q). unfold part_score in H2. rewrite FD in H2. now destruct H2 as [[_ Z]|[Z _]]. }
  unfold available_mean in H3. destruct ice.
  - rewrite S1, S2 in H3 by discriminate. destruct H3 as [[Z _]|[_ ->]]; [discriminate|]. cbn. f_equal. unfold mean. cbn. lra.
  - rewrite S1 in H3 by discriminate. destruct H3 as [[Z _]|[_ ->]]; [discriminate|]. cbn. f_equal. unfold mean. cbn. lra.
  - rewrite S2 in H3 by discriminate. destruct H3 as [[_ ->]|[Z _]]; [reflexivity|]. now contradiction Z.
Qed.

(** REFUTED: class 1 lies on both sides of class 0. The model that knows this is ranked below the model that answers 1 everywhere. *)
Definition knows : list (list R) -> list Z -> res (list Z) := fun A _ => Ok (map (fun x => if Rleb (hd 0%R x * hd 0%R x) 1 then 0%Z else 1%Z) A).
Theorem C213_mixval_refuted : exists s s',
  mixval_score 1 (always 1) (mix_accuracy (always 1)) (11 / 20) IceBoth [1; 0; 2] [[5]; [-2]; [2]; [0]]%R (map VNum [1; -1; -1; -1]%Q) (SDArr [1; -2; -2; -2]%Z) = Ok (Some s) /\
  mixval_score 1 knows (mix_accuracy knows) (11 / 20) IceBoth [1; 0; 2] [[5]; [-2]; [2]; [0]]%R (map VNum [1; -1; -1; -1]%Q) (SDArr [1; -2; -2; -2]%Z) = Ok (Some s') /\ (s' < s)%R.
Proof.
  exists 1%R, (1 / 3)%R. split; [|split; [|lra]].
  - unfold mixval_score. cbn -[Rleb]. rewrite (proj2 (Rleb_iff (1 / 2) (11 / 20))) by lra. cbn. do 2 f_equal. unfold share. cbn. field.
  - unfold mixval_score. cbn -[Rleb Rmult]. rewrite (proj2 (Rleb_iff (1 / 2) (11 / 20))) by lra.
    assert (A : Rleb (-2 * -2) 1 = false) by (apply Rleb_false; lra). assert (B : Rleb (2 * 2) 1 = false) by (apply Rleb_false; lra). assert (C : Rleb (0 * 0) 1 = true) by (apply Rleb_iff; lra).
    rewrite A, B, C. cbn -[Rleb Rmult].
    repeat match goal with |- context [Rleb ?x 1] => replace (Rleb x 1) with true by (symmetry; apply Rleb_iff; lra) end. cbn. do 2 f_equal. field.
Qed.
(** The hypotheses are met by models that return a score: certain probabilities with MaNo's default p = 4, and predictions equal to
    the source labels with constant densities. *)
Example C213_mano_ex : exists s, mano_score Z 1 4 5 (inr (fun A _ => Ok (map (fun x => if (x <? 0)%Z then [1; 0]%R else [0; 1]%R) A))) [7; 8; -8]%Z (map VNum [1; -1; -1]%Q) (SDArr [1; -2; -2]%Z) = Ok s.
Proof. unfold mano_score. assert (N : Rleb 4 0 = false) by (apply Rleb_false; lra). rewrite N. eexists. reflexivity. Qed.
Example C213_importance_ex : exists s, importance_score Z 1 (fun _ => Ok (fun A => Ok (map (fun _ => 0%R) A))) (fun _ => 1%R)
  (accuracy_of val_eqb (fun A _ => Ok (map (fun x => VNum (inject_Z x)) A))) [3; 4; 8]%Z (map VNum [3; 4; -1]%Q) (SDArr [1; 1; -2]%Z) = Ok s.
Proof. unfold importance_score. cbn -[normalise_sum_or_uniform]. unfold normalise_sum_or_uniform. destruct (negb _); cbn; eexists; reflexivity. Qed.
