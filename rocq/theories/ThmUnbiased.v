(** C207: with exact densities, importance weighting turns averages over the sources into averages over the targets. *)
From Coq Require Import String List ZArith QArith Bool Arith Lia Reals Lra Permutation Psatz.
From Verif Require Import Np NpFacts Labels Spec SpecFacts UtilsModel UtilsSpec UtilsProofs UtilsProofs2 SelectModel
  RVec RVecFacts FWModel FWSpec ReweightModel ReweightSpec ReweightProofs MetricsModel MetricsSpec LossProofs LossProofs2 ThmReweight ThmMetrics.
Import ListNotations.
Local Open Scope nat_scope.
Local Open Scope list_scope.

(** ** Specification *)
Section Spec.
  Context {Row : Type} (eqd : forall a b : Row, {a = b} + {a <> b}).
  (** The share of the samples in [A] that are [x]: the probability of [x] under the distribution of the data set. *)
  Definition share (A : list Row) (x : Row) : R := (INR (count_occ eqd A x) / INR (length A))%R.
  (** The average of a quantity over a data set, and with weights. *)
  Definition average_of (f : Row -> R) (A : list Row) : R := (vsum (map f A) / INR (length A))%R.
  Definition weighted_average (w : list R) (f : Row -> R) (A : list Row) : R := (vsum (map2 (fun t x => t * f x)%R w A) / INR (length A))%R.
  (** Every target value has been seen among the sources. *)
  Definition covered (S T : list Row) : Prop := forall z, In z T -> In z S.
  (** The exponential of the difference of the log densities is the exact ratio; a log density of minus infinity is any number whose exponential
      vanishes. *)
  Definition exact (fexp : R -> R) (es et : list Row -> res (list R)) (S T : list Row) : Prop :=
    forall ls lt, es S = Ok ls -> et S = Ok lt -> map2 (fun t s => fexp (t - s)%R) lt ls = map (fun x => share T x / share S x)%R S.
End Spec.

(** ** The identity behind it *)
Section Core.
  Context {Row : Type} (eqd : forall a b : Row, {a = b} + {a <> b}).
  Let ind (x z : Row) : R := if eqd x z then 1%R else 0%R.
  Lemma count_ind A x : INR (count_occ eqd A x) = vsum (map (fun z => ind z x) A).
  Proof. induction A as [|a A IH]; cbn [count_occ map vsum]; [reflexivity|]. unfold ind at 1. destruct (eqd a x); [rewrite S_INR|]; rewrite IH; ring. Qed.
  Lemma vsum_cong {A} (f g : A -> R) l : (forall x, In x l -> f x = g x) -> vsum (map f l) = vsum (map g l).
  Proof. intros H. f_equal. now apply map_ext_in. Qed.
  Lemma vsum_factor {A} (f : A -> R) c l : vsum (map (fun x => f x * c)%R l) = (vsum (map f l) * c)%R.
  Proof. induction l as [|x l IH]; cbn [map vsum]; [ring|]. rewrite IH. ring. Qed.
  Lemma reweigh f S T : covered S T -> T <> [] -> vsum (map (fun x => share eqd T x / share eqd S x * f x)%R S) = (INR (length S) * average_of f T)%R.
  Proof.
    intros C N. assert (LS : 0 < length S). { destruct T as [|z T]; [contradiction|]. specialize (C z (or_introl eq_refl)). destruct S; [destruct C|cbn; lia]. }
    assert (LT : 0 < length T) by (destruct T; [contradiction|cbn; lia]). apply lt_INR in LS, LT. cbn [INR] in LS, LT.
    transitivity (vsum (map (fun x => vsum (map (fun z => ind z x * (f z / INR (count_occ eqd S z) * (INR (length S) / INR (length T)))) T)) S))%R.
    { apply vsum_cong. intros x Hx. assert (CS : (0 < INR (count_occ eqd S x))%R) by (apply lt_0_INR, count_occ_In; exact Hx).
      transitivity (INR (count_occ eqd T x) * (f x / INR (count_occ eqd S x) * (INR (length S) / INR (length T))))%R; [unfold share; field; lra|]. rewrite count_ind, <- vsum_factor. apply vsum_cong. intros z _. unfold ind. destruct (eqd z x) as [->|]; ring. }
    rewrite (vsum_swap (fun x z => ind z x * (f z / INR (count_occ eqd S z) * (INR (length S) / INR (length T))))%R).
    transitivity (vsum (map (fun z => f z * (INR (length S) / INR (length T)))%R T)).
    { apply vsum_cong. intros z Hz. assert (CS : (0 < INR (count_occ eqd S z))%R) by (apply lt_0_INR, count_occ_In; auto). rewrite vsum_factor.
      assert (E : vsum (map (fun x => ind z x) S) = INR (count_occ eqd S z)). { rewrite count_ind. apply vsum_cong. intros x _. unfold ind. destruct (eqd z x), (eqd x z); congruence. }
      match goal with |- (vsum ?l * _)%R = _ => replace (vsum l) with (INR (count_occ eqd S z)) by (symmetry; exact E) end. field. lra. }
    rewrite vsum_factor. unfold average_of. field. lra.
  Qed.
  Lemma ratios_mean S T : covered S T -> T <> [] -> vsum (map (fun x => share eqd T x / share eqd S x)%R S) = INR (length S).
  Proof.
    intros C N. pose proof (reweigh (fun _ => 1%R) S T C N) as H. assert (E : average_of (fun _ : Row => 1%R) T = 1%R).
    { unfold average_of. assert (L : (0 < INR (length T))%R) by (apply lt_0_INR; destruct T; [contradiction|cbn; lia]). rewrite map_const, vsum_repeat. field. lra. }
    rewrite E, Rmult_1_r in H. rewrite <- H. apply vsum_cong. intros. ring.
  Qed.
  Lemma weighted_map (g f : Row -> R) (S : list Row) : weighted_average (map g S) f S = (vsum (map (fun x => g x * f x)%R S) / INR (length S))%R.
  Proof. unfold weighted_average. f_equal. induction S as [|x S IH]; cbn [map map2 vsum]; [reflexivity|]. now rewrite IH. Qed.
End Core.

(** ** Density weights *)
Theorem C207_density : forall Row (eqd : forall a b : Row, {a = b} + {a <> b}) kde fexp X sda es et w,
  density_fit Row kde X sda = Ok (es, et) -> row_wise es -> density_weights Row fexp (es, et) X sda = Ok w ->
  let sd := eff_domain (length X) sda in let S := rows_of is_source sd X in let T := rows_of is_target sd X in
  T <> [] -> covered S T -> exact eqd fexp es et S T ->
  forall f, weighted_average (rows_of is_source sd w) f S = average_of f T.
Proof.
  intros Row eqd kde fexp X sda es et w Hf Hr H sd S T N C Ex f. destruct (C34_density _ _ _ _ _ _ _ _ _ _ Hf Hr H) as (_ & _ & ls & lt & E1 & E2 & _ & Hw).
  fold sd in E1, E2, Hw. cbn zeta in Hw. rewrite (Ex ls lt E1 E2) in Hw. destruct Hw as (_ & Hw & _). rewrite Hw.
  assert (LS : (0 < INR (length S))%R). { apply lt_0_INR. destruct T as [|z T']; [contradiction|]. specialize (C z (or_introl eq_refl)). destruct S; [destruct C|cbn; lia]. }
  assert (M : mean (map (fun x => share eqd T x / share eqd S x)%R S) = 1%R). { unfold mean. rewrite (ratios_mean eqd S T C N), map_length. field. lra. }
  rewrite M. rewrite map_map. assert (E : map (fun x => if Req_EM_T 1 0 then (1 / INR (length (map (fun x0 => share eqd T x0 / share eqd S x0)%R S)))%R else (share eqd T x / share eqd S x / 1)%R) S = map (fun x => share eqd T x / share eqd S x)%R S).
  { apply map_ext. intros x. destruct (Req_EM_T 1 0) as [K|]; [lra|]. unfold Rdiv. now rewrite Rinv_1, Rmult_1_r. }
  rewrite E, weighted_map, (reweigh eqd f S T C N). unfold average_of. field. split; [|lra]. apply Rgt_not_eq, lt_0_INR. destruct T; [contradiction|cbn; lia].
Qed.
(** Gaussian weights, when the fitted densities are exact. *)
Theorem C207_gaussian : forall Row (eqd : forall a b : Row, {a = b} + {a <> b}) ps pt X sda w, gaussian_weights Row ps pt X sda = Ok w ->
  let sd := eff_domain (length X) sda in let S := rows_of is_source sd X in let T := rows_of is_target sd X in
  T <> [] -> covered S T -> (forall x, In x S -> ps x = share eqd S x /\ pt x = share eqd T x) ->
  forall f, weighted_average (rows_of is_source sd w) f S = average_of f T.
Proof.
  intros Row eqd ps pt X sda w H sd S T N C Ex f. pose proof (C34_gaussian _ _ _ _ _ _ H) as (_ & Hw & _). fold sd in Hw. rewrite Hw. fold S.
  assert (E : map (fun x => pt x / ps x)%R S = map (fun x => share eqd T x / share eqd S x)%R S). { apply map_ext_in. intros x Hx. destruct (Ex x Hx) as (-> & ->). reflexivity. }
  rewrite E, weighted_map, (reweigh eqd f S T C N). unfold average_of. field. split; apply Rgt_not_eq, lt_0_INR.
  - destruct T; [contradiction|cbn; lia].
  - destruct T as [|z T']; [contradiction|]. specialize (C z (or_introl eq_refl)). destruct S; [destruct C|cbn; lia].
Qed.

(** ImportanceWeightedScorer with a score that averages over the samples with the weights it is given: the score is that on the targets. *)
Theorem C207_scorer : forall Row (eqd : forall a b : Row, {a = b} + {a <> b}) sign kde fexp scorer (f : Row -> R) X y sd r,
  (forall t, 0 <= fexp t)%R -> (forall A e, kde A = Ok e -> row_wise e) ->
  (forall A ya sda w, scorer A ya sda w = Ok (vsum (map2 (fun t x => t * f x)%R w A))) ->
  importance_score Row sign kde fexp scorer X y (SDArr sd) = Ok r ->
  let S := rows_of is_source sd X in let T := rows_of is_target sd X in
  T <> [] -> covered S T -> (forall es et, kde S = Ok es -> kde T = Ok et -> exact eqd fexp es et S T) -> length X = length sd ->
  r = (sign * average_of f T)%R.
Proof.
  intros Row eqd sign kde fexp scorer f X y sd r Hf Hr Hsc H S T N C Ex LX.
  assert (NS : S <> []). { destruct T as [|z T']; [contradiction|]. specialize (C z (or_introl eq_refl)). intros E. rewrite E in C. destruct C. }
  assert (LS : length S = how_many is_source sd) by (unfold S; rewrite rows_of_length by congruence; reflexivity).
  destruct (C45_weights Row sign kde fexp scorer X y sd r Hf) as (es & et & ls & lt & weights & s & K1 & K2 & E1 & E2 & Lw & _ & Hw & Hs & ->); auto.
  { rewrite <- LS. destruct S; [contradiction|cbn; lia]. }
  fold S in E1, E2, K1, Hs. fold T in K2. cbn zeta in Hw. rewrite (Ex es et K1 K2 ls lt E1 E2) in Hw. rewrite (ratios_mean eqd S T C N) in Hw.
  assert (PS : (0 < INR (length S))%R) by (apply lt_0_INR; destruct S; [contradiction|cbn; lia]).
  assert (W : weights = map (fun x => share eqd T x / share eqd S x / INR (length S))%R S).
  { apply (nth_ext _ _ 0%R (0 / 0 / INR (length S))%R); [rewrite map_length; congruence|]. intros i Hi. specialize (Hw i ltac:(lia)).
    apply (Rmult_eq_reg_r (INR (length S))); [|lra]. rewrite Hw. destruct S as [|x0 S'] eqn:ES; [contradiction|]. rewrite <- ES in *.
    rewrite (nth_indep _ _ (share eqd T x0 / share eqd S x0)%R) by (rewrite map_length; lia). rewrite (map_nth (fun x => share eqd T x / share eqd S x)%R).
    rewrite (nth_indep _ _ (share eqd T x0 / share eqd S x0 / INR (length S))%R) by (rewrite map_length; lia). rewrite (map_nth (fun x => share eqd T x / share eqd S x / INR (length S))%R). field.
    split; [|lra]. assert (In (nth i S x0) S) by (apply nth_In; lia). unfold share. apply Rgt_not_eq. apply Rmult_lt_0_compat; [apply lt_0_INR, count_occ_In; auto|now apply Rinv_0_lt_compat]. }
  rewrite Hsc in Hs. injection Hs as <-. f_equal. rewrite W.
  pose proof (reweigh eqd f S T C N) as Q. pose proof (weighted_map (fun x => share eqd T x / share eqd S x / INR (length S))%R f S) as G. unfold weighted_average in G.
  assert (G' : vsum (map2 (fun t x => t * f x)%R (map (fun x => share eqd T x / share eqd S x / INR (length S))%R S) S) = vsum (map (fun x => share eqd T x / share eqd S x / INR (length S) * f x)%R S)).
  { apply (Rmult_eq_reg_r (/ INR (length S))); [exact G|]. apply Rinv_neq_0_compat. lra. }
  rewrite G'. rewrite (vsum_cong _ (fun x => share eqd T x / share eqd S x * f x * / INR (length S))%R) by (intros; unfold Rdiv; ring). rewrite vsum_factor, Q. field. lra.
Qed.

(** The histogram is an exact density when both domains take the same values. *)
Definition histogram {Row} (eqd : forall a b : Row, {a = b} + {a <> b}) (A : list Row) : res (list Row -> res (list R)) :=
  Ok (fun X => Ok (map (fun x => ln (share eqd A x)) X)).
Lemma share_pos {Row} (eqd : forall a b : Row, {a = b} + {a <> b}) A x : In x A -> (0 < share eqd A x)%R.
Proof. intros H. unfold share. apply Rmult_lt_0_compat; [apply lt_0_INR, count_occ_In; auto|]. apply Rinv_0_lt_compat, lt_0_INR. destruct A; [destruct H|cbn; lia]. Qed.
Theorem C207_histogram : forall Row (eqd : forall a b : Row, {a = b} + {a <> b}) S T es et, covered T S ->
  histogram eqd S = Ok es -> histogram eqd T = Ok et -> exact eqd exp es et S T.
Proof.
  intros Row eqd S T es et C E1 E2. injection E1 as <-. injection E2 as <-. intros ls lt H1 H2. injection H1 as <-. injection H2 as <-. rewrite ThmReweight.map2_map.
  apply map_ext_in. intros x Hx. pose proof (share_pos eqd S x Hx). pose proof (share_pos eqd T x (C x Hx)). unfold Rminus. rewrite exp_plus, exp_Ropp, !exp_ln by auto. reflexivity.
Qed.

(** The discriminator with the exact probability of being a target: the weights move the average away from that of the targets.
    Sources 1, 1, 1, 2; targets 1, 2, 2, 2. The averages are 5/4 and 7/4, the weighted average is 29/28. *)
Theorem C207_discriminator_refuted : exists proba1 w,
  (forall A, proba1 A = Ok (map (fun x => share Z.eq_dec [1; 2; 2; 2]%Z x / (share Z.eq_dec [1; 1; 1; 2]%Z x + share Z.eq_dec [1; 2; 2; 2]%Z x))%R A)) /\
  disc_weights Z proba1 [1; 1; 1; 2; 1; 2; 2; 2]%Z (SDArr [1; 1; 1; 1; -2; -2; -2; -2]%Z) = Ok w /\
  weighted_average (rows_of is_source [1; 1; 1; 1; -2; -2; -2; -2]%Z w) IZR [1; 1; 1; 2]%Z = (29 / 28)%R /\
  average_of IZR [1; 1; 1; 2]%Z = (5 / 4)%R /\ average_of IZR [1; 2; 2; 2]%Z = (7 / 4)%R.
Proof.
  eexists (fun A => Ok (map (fun x => share Z.eq_dec [1; 2; 2; 2]%Z x / (share Z.eq_dec [1; 1; 1; 2]%Z x + share Z.eq_dec [1; 2; 2; 2]%Z x))%R A)), [9 / 7; 9 / 7; 9 / 7; 1 / 7; 0; 0; 0; 0]%R.
  split; [reflexivity|]. split; [|split; [|split]].
  - unfold disc_weights. cbn -[clip place_weights share]. unfold share. cbn -[clip place_weights]. unfold clip. 
    replace (1 / (1 + 1 + 1 + 1) / ((1 + 1 + 1) / (1 + 1 + 1 + 1) + 1 / (1 + 1 + 1 + 1)))%R with (1 / 4)%R by field.
    replace ((1 + 1 + 1) / (1 + 1 + 1 + 1) / (1 / (1 + 1 + 1 + 1) + (1 + 1 + 1) / (1 + 1 + 1 + 1)))%R with (3 / 4)%R by field.
    rewrite !clip_id by (unfold EPS; lra). unfold mean. cbn. f_equal. repeat (f_equal; try field).
  - unfold weighted_average. cbn. field.
  - unfold average_of. cbn. field.
  - unfold average_of. cbn. field.
Qed.

(** Five sources and three targets with values 1 and 2. *)
Example C207_ex : exists es et w, density_fit Z (histogram Z.eq_dec) [1; 1; 1; 2; 2; 1; 2; 2]%Z (SDArr [1; 1; 1; 1; 1; -2; -2; -2]%Z) = Ok (es, et) /\
  density_weights Z exp (es, et) [1; 1; 1; 2; 2; 1; 2; 2]%Z (SDArr [1; 1; 1; 1; 1; -2; -2; -2]%Z) = Ok w /\
  weighted_average (rows_of is_source [1; 1; 1; 1; 1; -2; -2; -2]%Z w) IZR [1; 1; 1; 2; 2]%Z = (5 / 3)%R.
Proof.
  assert (F : exists es et, density_fit Z (histogram Z.eq_dec) [1; 1; 1; 2; 2; 1; 2; 2]%Z (SDArr [1; 1; 1; 1; 1; -2; -2; -2]%Z) = Ok (es, et) /\
    histogram Z.eq_dec [1; 1; 1; 2; 2]%Z = Ok es /\ histogram Z.eq_dec [1; 2; 2]%Z = Ok et).
  { eexists. eexists. split; [reflexivity|]. split; reflexivity. }
  destruct F as (es & et & F & F1 & F2).
  assert (G : exists w, density_weights Z exp (es, et) [1; 1; 1; 2; 2; 1; 2; 2]%Z (SDArr [1; 1; 1; 1; 1; -2; -2; -2]%Z) = Ok w).
  { injection F1 as <-. injection F2 as <-. unfold density_weights, normalise_or_uniform. cbn -[Reqb exp share mean]. match goal with |- context [Reqb ?a ?b] => destruct (Reqb a b) end; eexists; reflexivity. }
  destruct G as (w & G). exists es, et, w. split; [exact F|]. split; [exact G|].
  assert (K : covered [1; 1; 1; 2; 2]%Z [1; 2; 2]%Z) by (intros z Hz; cbn in *; intuition). assert (K' : covered [1; 2; 2]%Z [1; 1; 1; 2; 2]%Z) by (intros z Hz; cbn in *; intuition).
  assert (Rw : row_wise es) by (injection F1 as <-; intros A r [= <-]; apply map_length).
  assert (T0 : [1; 2; 2]%Z <> []) by discriminate.
  etransitivity; [exact (C207_density Z Z.eq_dec _ _ _ _ es et w F Rw G T0 K (C207_histogram Z Z.eq_dec _ _ es et K' F1 F2) IZR)|]. unfold average_of. cbn. field.
Qed.
