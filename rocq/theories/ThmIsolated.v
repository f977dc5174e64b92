(** Theorems C240: with PerDomain what happens in one domain stays there. *)
From Coq Require Import String List ZArith QArith Bool Arith Lia.
From Verif Require Import Np NpFacts Labels Spec SpecFacts UtilsModel UtilsSpec UtilsProofs UtilsProofs2 SelectModel SelectSpec SelectProofs SelectProofs2 ThmSelect.
From Verif Require ThmHolds.
Import ListNotations.
Local Open Scope nat_scope.
Local Open Scope list_scope.

(** A call PerDomain can handle: one domain label, row, label and entry of each routed parameter per sample. *)
Definition in_shape {R} (route : params -> res params) (X : list R) (y : option (list val)) (ps : params) (sd : list Z) (rp : params) : Prop :=
  get_sd ps = Some sd /\ route ps = Ok rp /\ length X = length sd /\ (forall l, y = Some l -> length l = length sd) /\
  (forall k v, In (k, v) rp -> per_sample (length sd) v).
(** The two calls agree on the domain [d], which both contain: same rows, labels and parameters there; all other domains are arbitrary. *)
Definition agree_on {R} (d : Z) (X : list R) y sd rp X' y' sd' rp' : Prop :=
  In d sd /\ In d sd' /\ rows_of (Z.eqb d) sd X = rows_of (Z.eqb d) sd' X' /\
  option_map (rows_of (Z.eqb d) sd) y = option_map (rows_of (Z.eqb d) sd') (y' : option (list val)) /\ params_rows d sd rp = params_rows d sd' rp'.
(** What the estimator of the domain [d] is fitted with. *)
Definition fitted_with {R Y} (d : Z) (c : @call R) (r : res (Y * list (Z * (list nat * @call R)))) : Prop :=
  exists out calls pos, r = Ok (out, calls) /\ In (d, (pos, c)) calls /\ forall pos' c', In (d, (pos', c')) calls -> pos' = pos /\ c' = c.

Lemma one_entry {B} (f : Z -> B) l d b : In (d, b) (map (fun d => (d, f d)) l) -> b = f d.
Proof. intros H. apply in_map_iff in H. destruct H as (k & E & _). now injection E as -> <-. Qed.

Theorem C240_fit : forall (R : Type) route tr (X X' : list R) y y' ps ps' sd sd' rp rp' d,
  in_shape route X y ps sd rp -> in_shape route X' y' ps' sd' rp' ->
  tr = true \/ (y = None /\ y' = None) \/ (gets_domains rp /\ gets_domains rp') -> agree_on d X y sd rp X' y' sd' rp' ->
  exists c, fitted_with d c (per_domain_fit route tr false (from_array X) y ps) /\ fitted_with d c (per_domain_fit route tr false (from_array X') y' ps').
Proof.
  intros R route tr X X' y y' ps ps' sd sd' rp rp' d (A1 & A2 & A3 & A4 & A5) (B1 & B2 & B3 & B4 & B5) HT (I & I' & EX & EY & EP).
  destruct (C15_per_domain_fit_calls R route tr X y ps sd rp) as (F & _ & U); auto; [tauto|]. destruct (C15_per_domain_fit_calls R route tr X' y' ps' sd' rp') as (F' & _ & U'); auto; [tauto|].
  exists (mkCall (rows_of (Z.eqb d) sd X) (option_map (rows_of (Z.eqb d) sd) y) (params_rows d sd rp)). rewrite F, F'. split.
  - eexists _, _, _. split; [reflexivity|]. split; [apply in_map_iff; exists d; split; [reflexivity|now apply U]|].
    intros p c H. apply one_entry in H. now injection H as -> ->.
  - eexists _, _, _. split; [reflexivity|]. split; [apply in_map_iff; exists d; split; [now rewrite EX, EY, EP|now apply U']|].
    intros p c H. apply one_entry in H. injection H as -> ->. now rewrite EX, EY, EP.
Qed.

Lemma rows_inside {A} (p q : Z -> bool) sd : forall a b : list A, (forall d, q d = true -> p d = true) -> length a = length sd -> length b = length sd ->
  rows_of p sd a = rows_of p sd b -> rows_of q sd a = rows_of q sd b.
Proof.
  unfold rows_of. induction sd as [|s sd IH]; intros [|x a] [|z b] H La Lb; try discriminate; [reflexivity|]. cbn [combine filter map fst snd]. intros E.
  destruct (p s) eqn:P; cbn [map snd] in E.
  - injection E as -> E. destruct (q s); cbn [map snd]; [f_equal|]; apply IH; auto.
  - destruct (q s) eqn:Q; [rewrite (H _ Q) in P; discriminate|]. apply IH; auto.
Qed.
Lemma rows_hidden {A} (q : Z -> bool) (h : A) sd : forall a : list A, length a = length sd -> (forall d, q d = true -> is_target d = true) ->
  (forall v, In v (rows_of is_target sd a) -> v = h) -> rows_of q sd a = repeat h (how_many q sd).
Proof.
  unfold rows_of, how_many. induction sd as [|s sd IH]; intros [|x a] La H V; try discriminate; [reflexivity|]. cbn [combine filter map fst snd length].
  destruct (q s) eqn:Q; cbn [map snd length repeat].
  - f_equal; [|apply IH; auto; intros v Hv; apply V]; cbn [combine filter map fst snd] in *; rewrite (H _ Q) in *; cbn [map snd] in *; [apply V; now left|now right].
  - apply IH; auto. intros v Hv. apply V. cbn [combine filter fst]. destruct (is_target s); cbn [map]; [now right|exact Hv].
Qed.

(** With the labels of the targets hidden: the estimators that receive the domain labels, and transformers. *)
Theorem C240_masked : forall (R : Type) route tr (X X' : list R) y y' ps ps' sd sd' rp rp' d (discrete : bool),
  in_shape route X (Some y) ps sd rp -> in_shape route X' (Some y') ps' sd' rp' -> tr = true \/ (gets_domains rp /\ gets_domains rp') ->
  (if discrete then discrete_labels y /\ discrete_labels y' else continuous_labels y /\ continuous_labels y') -> agree_on d X (Some y) sd rp X' (Some y') sd' rp' ->
  exists c, fitted_with d c (per_domain_fit route tr true (from_array X) (Some y) ps) /\ fitted_with d c (per_domain_fit route tr true (from_array X') (Some y') ps').
Proof.
  intros R route tr X X' y y' ps ps' sd sd' rp rp' d k (A1 & A2 & A3 & A4 & A5) (B1 & B2 & B3 & B4 & B5) HT HK (I & I' & EX & EY & EP).
  assert (N : sd <> []) by (intros ->; destruct I). assert (N' : sd' <> []) by (intros ->; destruct I'). specialize (A4 _ eq_refl). specialize (B4 _ eq_refl).
  destruct (ThmHolds.C16_domain_aware_estimators R route tr X y ps sd rp k) as (m & L & S & V & F); auto; [destruct k; tauto|tauto|].
  destruct (ThmHolds.C16_domain_aware_estimators R route tr X' y' ps' sd' rp' k) as (m' & L' & S' & V' & F'); auto; [destruct k; tauto|tauto|].
  injection EY as EY.
  assert (EM : rows_of (Z.eqb d) sd m = rows_of (Z.eqb d) sd' m').
  { assert (C : is_source d = true \/ is_target d = true) by (unfold is_source, is_target; destruct (Z.leb_spec 0 d), (Z.ltb_spec d 0); auto; lia). destruct C as [C|C].
    - assert (Q : forall e, (d =? e)%Z = true -> is_source e = true) by (intros e E; apply Z.eqb_eq in E; now subst).
      rewrite (rows_inside is_source (Z.eqb d) sd m y), (rows_inside is_source (Z.eqb d) sd' m' y') by auto. exact EY.
    - assert (Q : forall e, (d =? e)%Z = true -> is_target e = true) by (intros e E; apply Z.eqb_eq in E; now subst).
      erewrite (rows_hidden (Z.eqb d) _ sd m), (rows_hidden (Z.eqb d) _ sd' m') by eauto. f_equal.
      rewrite <- (rows_of_length (Z.eqb d) sd X), EX by auto. now apply rows_of_length. }
  exists (mkCall (rows_of (Z.eqb d) sd X) (Some (rows_of (Z.eqb d) sd m)) (params_rows d sd rp)). rewrite F, F'. split.
  - eexists _, _, _. split; [reflexivity|]. split; [apply in_map_iff; exists d; split; [reflexivity|now apply unique_In]|].
    intros p c H. apply one_entry in H. now injection H as -> ->.
  - eexists _, _, _. split; [reflexivity|]. split; [apply in_map_iff; exists d; split; [now rewrite EX, EM, EP|now apply unique_In]|].
    intros p c H. apply one_entry in H. injection H as -> ->. now rewrite EX, EM, EP.
Qed.

(** Prediction and transformation: the rows of [d] get the same values when its estimator is the same, whatever the others are and give. *)
Theorem C240_apply : forall (R Est A : Type) route (zero : A) (meth : Est -> list R -> params -> res (list A)) (ests ests' : dict Z Est) X X' ps ps' sd sd' rp rp' d,
  in_shape route X None ps sd rp -> in_shape route X' None ps' sd' rp' -> agree_on d X None sd rp X' None sd' rp' -> dict_get Z.eqb d ests = dict_get Z.eqb d ests' ->
  (forall e, In e sd -> exists est o, dict_get Z.eqb e ests = Some est /\ meth est (rows_of (Z.eqb e) sd X) (params_rows e sd rp) = Ok o /\ length o = how_many (Z.eqb e) sd) ->
  (forall e, In e sd' -> exists est o, dict_get Z.eqb e ests' = Some est /\ meth est (rows_of (Z.eqb e) sd' X') (params_rows e sd' rp') = Ok o /\ length o = how_many (Z.eqb e) sd') ->
  exists r r', per_domain_route route zero meth ests X ps = Ok r /\ per_domain_route route zero meth ests' X' ps' = Ok r' /\ rows_of (Z.eqb d) sd r = rows_of (Z.eqb d) sd' r'.
Proof.
  intros R Est A route zero meth ests ests' X X' ps ps' sd sd' rp rp' d (A1 & A2 & A3 & _ & A5) (B1 & B2 & B3 & _ & B5) (I & I' & EX & _ & EP) ED H H'.
  pose (out := fun (es : dict Z Est) X sd rp e => match dict_get Z.eqb e es with Some est => match meth est (rows_of (Z.eqb e) sd X) (params_rows e sd rp) with Ok o => o | Err _ => [] end | None => [] end).
  destruct (C15_per_domain_routes_rows R Est A route zero meth ests X ps rp sd (out ests X sd rp)) as (r & E & _ & O); auto; [intros ->; destruct I| |].
  { intros e He. destruct (H e He) as (est & o & D & M & L). exists est. split; [exact D|]. unfold out. rewrite D, M. auto. }
  destruct (C15_per_domain_routes_rows R Est A route zero meth ests' X' ps' rp' sd' (out ests' X' sd' rp')) as (r' & E' & _ & O'); auto; [intros ->; destruct I'| |].
  { intros e He. destruct (H' e He) as (est & o & D & M & L). exists est. split; [exact D|]. unfold out. rewrite D, M. auto. }
  exists r, r'. split; [exact E|]. split; [exact E'|]. rewrite O, O' by auto. unfold out. now rewrite ED, EX, EP.
Qed.

(** Domain 3 among others, then alone: its estimator is fitted with the same two rows. *)
Example C240_ex : let f X y sd := per_domain_fit (fun _ => Ok []) true false (from_array X) (Some y) (dom_params sd) in
  fitted_with 3 (mkCall [10; 30] (Some [VNum 1; VNum 2]) []) (f [10; 20; 30; 5] [VNum 1; VNum 0; VNum 2; VNum 7] [3; -2; 3; 4]%Z) /\
  fitted_with 3 (mkCall [10; 30] (Some [VNum 1; VNum 2]) []) (f [10; 30] [VNum 1; VNum 2] [3; 3]%Z) /\
  agree_on 3 [10; 20; 30; 5] (Some [VNum 1; VNum 0; VNum 2; VNum 7]) [3; -2; 3; 4]%Z [] [10; 30] (Some [VNum 1; VNum 2]) [3; 3]%Z [].
Proof.
  split; [|split].
  - eexists _, _, _. split; [reflexivity|]. split; [right; left; reflexivity|]. intros p c [E|[E|[E|[]]]]; try discriminate. now injection E as <- <-.
  - eexists _, _, _. split; [reflexivity|]. split; [left; reflexivity|]. intros p c [E|[]]. now injection E as <- <-.
  - repeat split; cbn; auto.
Qed.
