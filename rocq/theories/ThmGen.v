(** Theorems on the synthetic data sets: C72, C111-C116. *)
From Coq Require Import String List ZArith QArith Bool Arith Lia Reals Lra.
From Verif Require Import Np NpFacts Labels RVec RVecFacts PipeModel PipeProofs DataModel DataSpec DataProofs LossSpec LossProofs GenModel GenSpec GenProofs.
Import ListNotations.
Local Open Scope nat_scope.
Local Open Scope list_scope.

Section T.
  Context {Gen : Type} (rand : nat -> Gen -> list R * Gen) (randn : nat -> Gen -> list (list R) * Gen)
    (choice : nat -> nat -> option (list R) -> Gen -> res (list nat * Gen)) (normal : R -> nat -> nat -> Gen -> res (list (list R) * Gen))
    (pdf2 : option (list R * list (list R)) -> list R -> val) (pdf1 : option (R * R) -> R -> val).
  Hypotheses (Hrand : rand_ok rand) (Hrandn : randn_ok randn) (Hchoice : choice_ok choice) (Hnormal : normal_ok normal).
  Local Notation CL := (classif rand randn pdf2).
  Local Notation SUB := (classif_subspace randn pdf1).
  Local Notation SH := (shifted rand randn choice pdf2 pdf1).
  Local Notation MAKE := (make_shifted rand randn choice normal pdf2 pdf1).

  Lemma take_both_spec isel X y X' y' : take_both isel X y = Ok (X', y') -> fst y' = fst y /\ (forall i, In i isel -> i < length X /\ i < length (snd y)) /\ X' = map (fun i => nth i X []) isel /\ snd y' = map (fun i => nth i (snd y) VNan) isel.
  Proof.
    unfold take_both. intros H. destruct (np_take isel X) as [a|] eqn:Ea; [|discriminate]. cbn in H. destruct (np_take isel (snd y)) as [b|] eqn:Eb; [|discriminate]. cbn in H. injection H as <- <-.
    destruct (np_take_map [] _ _ _ Ea) as [-> A]. destruct (np_take_map VNan _ _ _ Eb) as [-> B]. repeat split; auto.
  Qed.
  Lemma take_both_ok isel X y : (forall i, In i isel -> i < length X) -> length (snd y) = length X -> exists r, take_both isel X y = Ok r.
  Proof. intros H L. unfold take_both. destruct (np_take_ok isel X H) as (a & ->). cbn. destruct (np_take_ok isel (snd y)) as (b & ->); [now rewrite L|]. cbn. eauto. Qed.
  Lemma nth_rect isel X : rect 2 X -> (forall i, In i isel -> i < length X) -> rect 2 (map (fun i => nth i X []) isel).
  Proof. intros H B r Hr. apply in_map_iff in Hr as (i & <- & Hi). apply H, nth_In. auto. Qed.

  Lemma half n : 8 * (n * 3) / 2 = 12 * n.
  Proof. replace (8 * (n * 3)) with (12 * n * 2) by lia. now rewrite Nat.div_mul by lia. Qed.
  Lemma shifted_spec n_s n_t shift label ratio mu sigma gamma center params g Xs ys Xt yt g' : SH n_s n_t shift label ratio mu sigma gamma center params g = Ok (Xs, ys, Xt, yt, g') ->
    (exists g0 g1, (if match shift with Subspace => true | _ => false end then SUB n_s params label g0 else CL n_s params label g0) = Ok (Xs, ys, g1)) /\
    match shift with
    | Covariate => exists g0 g1 X y isel g2, CL (n_t * 100) params label g0 = Ok (X, y, g1) /\
        (let w := map (fun r => exp (- gamma * vsum (map2 (fun a c => (a - c) * (a - c)) r center)))%R X in choice (length X) (8 * n_t) (Some (map (fun a => a / vsum w)%R w)) g1 = Ok (isel, g2)) /\
        fst yt = fst y /\ Xt = map (fun i => nth i X []) isel /\ snd yt = map (fun i => nth i (snd y) VNan) isel
    | TargetShift => exists g0 g1 X y i1 i2 g2 g3, CL (n_t * 3) params label g0 = Ok (X, y, g1) /\ (0 <= py_int (INR (8 * n_t) * ratio) <= Z.of_nat (8 * n_t))%Z /\
        choice (12 * n_t) (Z.to_nat (py_int (INR (8 * n_t) * ratio))) None g1 = Ok (i1, g2) /\ choice (12 * n_t) (8 * n_t - Z.to_nat (py_int (INR (8 * n_t) * ratio))) None g2 = Ok (i2, g3) /\
        fst yt = fst y /\ Xt = map (fun i => nth i X []) (i1 ++ map (fun i => i + 12 * n_t) i2) /\ snd yt = map (fun i => nth i (snd y) VNan) (i1 ++ map (fun i => i + 12 * n_t) i2)
    | Conditional => exists g0 g1 X, CL n_t params label g0 = Ok (X, yt, g1) /\ Xt = map (map (fun a => a * sigma + mu)%R) X
    | Subspace => exists g0 g1 X, SUB n_t params label g0 = Ok (X, yt, g1) /\ Xt = map (map (fun a => a * -1)%R) X
    | OtherShift => False
    end.
  Proof.
    unfold shifted. intros H. destruct (CL n_s params label g) as [[[xs ys'] g1]|] eqn:E; [|discriminate]. cbn [bind] in H. destruct shift.
    - destruct (CL (n_t * 100) params label g1) as [[[X y] g2]|] eqn:Et; [|discriminate]. cbn [bind] in H. rewrite !map_length in H. destruct (choice _ _ _ g2) as [[isel g3]|] eqn:Ec; [|discriminate]. cbn [bind fst snd] in H.
      destruct (take_both isel X y) as [[X' y']|] eqn:Ek; [|discriminate]. cbn [bind fst snd] in H. injection H as <- <- <- <- <-. destruct (take_both_spec _ _ _ _ _ Ek) as (K1 & K2 & -> & K4). split; [eauto|].
      exists g1, g2, X, y, isel, g3. auto.
    - destruct (CL (n_t * 3) params label g1) as [[[X y] g2]|] eqn:Et; [|discriminate]. cbn [bind] in H. rewrite half in H. set (k := py_int (INR (8 * n_t) * ratio)) in *.
      unfold choice_z in H. destruct (Z.ltb_spec k 0) as [Q|Q]; [discriminate|]. destruct (choice _ _ None g2) as [[i1 g3]|] eqn:E1; [|discriminate]. cbn [bind fst snd] in H. destruct (Z.ltb_spec (Z.of_nat (8 * n_t) - k) 0) as [Q2|Q2]; [discriminate|].
      replace (Z.to_nat (Z.of_nat (8 * n_t) - k)) with (8 * n_t - Z.to_nat k) in H by lia.
      destruct (choice _ _ None g3) as [[i2 g4]|] eqn:E2; [|discriminate]. cbn [bind fst snd] in H. destruct (take_both _ X y) as [[X' y']|] eqn:Ek; [|discriminate]. cbn [bind fst snd] in H. injection H as <- <- <- <- <-. destruct (take_both_spec _ _ _ _ _ Ek) as (K1 & K2 & -> & K4). split; [eauto|].
      exists g1, g2, X, y, i1, i2, g3, g4. repeat split; auto; lia.
    - destruct (CL n_t params label g1) as [[[X y] g2]|] eqn:Et; [|discriminate]. cbn [bind] in H. injection H as <- <- <- <- <-. split; [eauto|]. exists g1, g2, X. auto.
    - destruct (SUB n_s params label g1) as [[[X y] g2]|] eqn:Es; [|discriminate]. cbn [bind] in H. destruct (SUB n_t params label g2) as [[[X' y'] g3]|] eqn:Et; [|discriminate]. cbn [bind] in H. injection H as <- <- <- <- <-. split; [eauto|]. exists g2, g3, X'. auto.
    - discriminate.
  Qed.

  Lemma shifted_sizes n_s n_t shift label ratio mu sigma gamma center params g Xs ys Xt yt g' : SH n_s n_t shift label ratio mu sigma gamma center params g = Ok (Xs, ys, Xt, yt, g') ->
    length Xs = per_sample shift * n_s /\ length (snd ys) = length Xs /\ rect 2 Xs /\ length Xt = per_sample shift * n_t /\ length (snd yt) = length Xt /\ rect 2 Xt.
  Proof.
    intros H. apply shifted_spec in H as [(g0 & g1 & Es) Et].
    assert (S : length Xs = per_sample shift * n_s /\ length (snd ys) = length Xs /\ rect 2 Xs).
    { destruct shift; cbn [per_sample]; (apply classif_spec in Es as (A & B & C & _) || apply subspace_spec in Es as (A & B & C & _)); auto; repeat split; auto; lia. }
    destruct S as (S1 & S2 & S3). split; [auto|]. split; [auto|]. split; [auto|].
    destruct shift; cbn [per_sample].
    - destruct Et as (h0 & h1 & X & y & isel & h2 & Ec & Eh & _ & -> & Ey). apply classif_spec in Ec as (A & B & C & _); auto. apply (proj1 Hchoice) in Eh as (L & _ & Bd). rewrite Ey, !map_length. repeat split; auto. now apply nth_rect.
    - destruct Et as (h0 & h1 & X & y & i1 & i2 & h2 & h3 & Ec & K & E1 & E2 & _ & -> & Ey). apply classif_spec in Ec as (A & B & C & _); auto. apply (proj1 Hchoice) in E1 as (L1 & _ & B1). apply (proj1 Hchoice) in E2 as (L2 & _ & B2).
      rewrite Ey, !map_length, app_length, map_length. repeat split; auto; [lia|]. apply nth_rect; auto. intros i Hi. apply in_app_or in Hi as [Hi|Hi]; [specialize (B1 i Hi); lia|]. apply in_map_iff in Hi as (j & <- & Hj). specialize (B2 j Hj). lia.
    - destruct Et as (h0 & h1 & X & Ec & ->). apply classif_spec in Ec as (A & B & C & _); auto. rewrite map_length. repeat split; auto; [lia|]. intros r Hr. apply in_map_iff in Hr as (q & <- & Hq). rewrite map_length. auto.
    - destruct Et as (h0 & h1 & X & Ec & ->). apply subspace_spec in Ec as (A & B & C & _); auto. rewrite map_length. repeat split; auto; [lia|]. intros r Hr. apply in_map_iff in Hr as (q & <- & Hq). rewrite map_length. auto.
    - destruct Et.
  Qed.

  Lemma standardise_length X r : length (standardise X r) = length r.
  Proof. unfold standardise. now rewrite map_length, seq_length. Qed.
  (** What make_shifted_datasets returns. *)
  Lemma make_spec n_s n_t shift noise label ratio mu sigma gamma center params std g ds : MAKE n_s n_t shift noise label ratio mu sigma gamma center params std g = Ok ds ->
    exists Xs ys Xt yt Xs' Xt' g1 g2, SH n_s n_t shift label ratio mu sigma gamma center params g = Ok (Xs, ys, Xt, yt, g1) /\ noisy normal 2 noise Xs Xt g1 = Ok (Xs', Xt', g2) /\
      length Xs' = length Xs /\ length Xt' = length Xt /\ rect 2 Xs' /\ rect 2 Xt' /\
      let f := if std then standardise (Xs' ++ Xt') else fun r => r in
      make_dataset [C3 (mkDom (map f Xs') (Some ys)) (Some "s"%string); C3 (mkDom (map f Xt') (Some yt)) (Some "t"%string)] = Ok ds.
  Proof.
    intros H. unfold make_shifted in H. destruct (SH _ _ _ _ _ _ _ _ _ _ g) as [[[[[Xs ys] Xt] yt] g1]|] eqn:E; [|discriminate]. cbn [bind] in H.
    pose proof (shifted_sizes _ _ _ _ _ _ _ _ _ _ _ _ _ _ _ _ E) as (_ & _ & R1 & _ & _ & R2).
    destruct (noisy normal 2 noise Xs Xt g1) as [[[Xs' Xt'] g2]|] eqn:En; [|discriminate]. cbn [bind] in H. exists Xs, ys, Xt, yt, Xs', Xt', g1, g2.
    destruct (noisy_spec normal Hnormal _ _ _ _ _ _ _ _ R1 R2 En) as (L1 & L2 & Q1 & Q2 & _). repeat split; auto. destruct std; cbn; [auto|]. rewrite !map_id. auto.
  Qed.

(** ** C72: sizes and class counts *)

(** Whatever is generated has the documented size, one label per row, and the packed arrays are source rows then target rows. *)
Theorem C72_sizes : forall n_s n_t shift noise label ratio mu sigma gamma center params std g ds, MAKE n_s n_t shift noise label ratio mu sigma gamma center params std g = Ok ds ->
  exists Xs ys Xt yt, packed_xy ds ["s"%string] ["t"%string] true = Ok (PArrays (Xs ++ Xt) (ys ++ yt) (repeat 1%Z (length Xs) ++ repeat (-2)%Z (length Xt))) /\
    length Xs = per_sample shift * n_s /\ length ys = length Xs /\ length Xt = per_sample shift * n_t /\ length yt = length Xt /\ rect 2 (Xs ++ Xt).
Proof.
  intros n_s n_t shift noise label ratio mu sigma gamma center params std g ds H. apply make_spec in H as (Xs & ys & Xt & yt & Xs' & Xt' & g1 & g2 & E & En & L1 & L2 & R1 & R2 & M).
  pose proof (shifted_sizes _ _ _ _ _ _ _ _ _ _ _ _ _ _ _ _ E) as (A & B & _ & C & D & _). set (f := if std then standardise (Xs' ++ Xt') else fun r => r) in *. cbn zeta in M.
  exists (map f Xs'), (snd ys), (map f Xt'), (snd yt). destruct (packed_two _ _ _ _ ds true ltac:(rewrite map_length, L1; exact B) ltac:(rewrite map_length, L2; exact D) M) as (P & _ & _).
  split; [exact P|]. rewrite !map_length. split; [lia|]. split; [lia|]. split; [lia|]. split; [lia|].
  assert (F : forall X, rect 2 X -> rect 2 (map f X)). { intros X HX r Hr. apply in_map_iff in Hr as (q & <- & Hq). unfold f. destruct std; [rewrite standardise_length|]; auto. }
  apply rect_app; auto.
Qed.
(** With documented arguments it is generated. *)
Theorem C72_succeeds : forall n_s n_t shift noise label ratio mu sigma gamma center params std g, good_args shift label params ratio -> good_noise noise -> 1 <= n_t ->
  exists ds, MAKE n_s n_t shift noise label ratio mu sigma gamma center params std g = Ok ds.
Proof.
  intros n_s n_t shift noise label ratio mu sigma gamma center params std g (GL & GS & GR & GP) GN Ht.
  assert (PC : label = Regression -> match params with RScalar _ _ => False | _ => True end) by (intros ->; destruct params; auto).
  assert (SHOK : exists r, SH n_s n_t shift label ratio mu sigma gamma center params g = Ok r).
  { unfold shifted. destruct (classif_ok rand randn pdf2 n_s params label g GL PC) as ([[Xs ys] g1] & E). rewrite E. cbn [bind]. destruct shift.
    - destruct (classif_ok rand randn pdf2 (n_t * 100) params label g1 GL PC) as ([[X y] g2] & Et). rewrite Et. cbn [bind]. apply classif_spec in Et as (A & B & _ & _); auto.
      match goal with |- context [choice ?n ?k (Some ?p) ?g] => destruct (proj2 (proj2 (proj2 Hchoice)) n k p g) as ([isel g3] & Ec) end.
      + rewrite !map_length. lia.
      + now rewrite !map_length.
      + intros x Hx. apply in_map_iff in Hx as (a & <- & Ha). apply in_map_iff in Ha as (r & <- & Hr). apply Rdiv_lt_0_compat; [apply exp_pos|]. apply vsum_pos; [destruct X; [destruct Hr|discriminate]|]. intros z Hz. apply in_map_iff in Hz as (q & <- & _). apply exp_pos.
      + rewrite vsum_div. apply Rinv_r. apply Rgt_not_eq. apply vsum_pos; [destruct X; [cbn in A; lia|discriminate]|]. intros z Hz. apply in_map_iff in Hz as (q & <- & _). apply exp_pos.
      + rewrite Ec. cbn [bind fst snd]. apply (proj1 Hchoice) in Ec as (_ & _ & Bd). rewrite !map_length in Bd. destruct (take_both_ok isel X y) as (r & ->); [auto|lia|]. cbn. eauto.
    - destruct (classif_ok rand randn pdf2 (n_t * 3) params label g1 GL PC) as ([[X y] g2] & Et). rewrite Et. cbn [bind]. rewrite half. apply classif_spec in Et as (A & B & _ & _); auto.
      specialize (GR eq_refl). assert (P : (0 <= INR (8 * n_t) * ratio <= INR (8 * n_t))%R). { pose proof (pos_INR (8 * n_t)). split; [apply Rmult_le_pos; lra|]. rewrite <- (Rmult_1_r (INR (8 * n_t))) at 2. apply Rmult_le_compat_l; lra. }
      destruct (py_int_nonneg _ (proj1 P)) as [Q1 Q2]. set (k := py_int (INR (8 * n_t) * ratio)) in *. assert (Q3 : (k <= Z.of_nat (8 * n_t))%Z). { apply le_IZR. rewrite <- INR_IZR_INZ. lra. }
      unfold choice_z. destruct (Z.ltb_spec k 0); [lia|]. destruct (proj1 (proj2 Hchoice) (12 * n_t) (Z.to_nat k) g2 ltac:(lia)) as ([i1 g3] & E1). rewrite E1. cbn [bind fst snd]. destruct (Z.ltb_spec (Z.of_nat (8 * n_t) - k) 0); [lia|].
      destruct (proj1 (proj2 Hchoice) (12 * n_t) (Z.to_nat (Z.of_nat (8 * n_t) - k)) g3 ltac:(lia)) as ([i2 g4] & E2). rewrite E2. cbn [bind fst snd]. apply (proj1 Hchoice) in E1 as (_ & _ & B1). apply (proj1 Hchoice) in E2 as (_ & _ & B2).
      match goal with |- context [take_both ?i X y] => destruct (take_both_ok i X y) as (r & ->) end; [|lia|cbn; eauto]. intros i Hi. apply in_app_or in Hi as [Hi|Hi]; [specialize (B1 i Hi); lia|]. apply in_map_iff in Hi as (j & <- & Hj). specialize (B2 j Hj). lia.
    - destruct (classif_ok rand randn pdf2 n_t params label g1 GL PC) as ([[X y] g2] & Et). rewrite Et. cbn. eauto.
    - assert (PS : label = Regression -> match params with RMatrix _ _ => False | _ => True end) by (intros ->; destruct params; auto).
      destruct (subspace_ok randn pdf1 n_s params label g1 GL PS) as ([[X y] g2] & Es). rewrite Es. cbn [bind]. destruct (subspace_ok randn pdf1 n_t params label g2 GL PS) as ([[X' y'] g3] & Et). rewrite Et. cbn. eauto.
    - congruence. }
  destruct SHOK as ([[[[Xs ys] Xt] yt] g1] & E). unfold make_shifted. rewrite E. cbn [bind]. destruct (noisy_ok normal Hnormal 2 noise Xs Xt g1 GN) as ([[Xs' Xt'] g2] & En). rewrite En. cbn [bind]. apply make_two_ok.
Qed.
(** Target shift: floor(8 n ratio) target samples of class 0, the others of the other classes. *)
Theorem C72_target_shift : forall n_s n_t noise label ratio mu sigma gamma center params std g ds, label = Binary \/ label = Multiclass -> (0 <= ratio <= 1)%R ->
  MAKE n_s n_t TargetShift noise label ratio mu sigma gamma center params std g = Ok ds ->
  exists X y sd k, packed_xy ds ["s"%string] ["t"%string] true = Ok (PArrays X y sd) /\ class_size 0 (skipn (8 * n_s) y) = k /\ length (skipn (8 * n_s) y) = 8 * n_t /\
    (INR k <= 8 * INR n_t * ratio < INR k + 1)%R /\ (label = Binary -> class_size 1 (skipn (8 * n_s) y) = 8 * n_t - k) /\ class_size 0 (firstn (8 * n_s) y) = 4 * n_s.
Proof.
  intros n_s n_t noise label ratio mu sigma gamma center params std g ds HL HR H. apply make_spec in H as (Xs & ys & Xt & yt & Xs' & Xt' & g1 & g2 & E & En & L1 & L2 & R1 & R2 & M).
  pose proof (shifted_sizes _ _ _ _ _ _ _ _ _ _ _ _ _ _ _ _ E) as (A & B & _ & C & D & _). set (f := if std then standardise (Xs' ++ Xt') else fun r => r) in *. cbn zeta in M. cbn [per_sample] in *.
  destruct (packed_two _ _ _ _ ds true ltac:(rewrite map_length, L1; exact B) ltac:(rewrite map_length, L2; exact D) M) as (P & _ & _). cbn zeta in P. do 3 eexists. eexists. split; [exact P|].
  assert (SK : skipn (8 * n_s) (snd ys ++ snd yt) = snd yt). { rewrite skipn_app, skipn_all2 by lia. replace (8 * n_s - length (snd ys)) with 0 by lia. reflexivity. }
  assert (FI : firstn (8 * n_s) (snd ys ++ snd yt) = snd ys). { rewrite firstn_app, firstn_all2 by lia. replace (8 * n_s - length (snd ys)) with 0 by lia. cbn. apply app_nil_r. }
  rewrite SK, FI. split; [reflexivity|]. split; [lia|].
  apply shifted_spec in E as [(h & h' & Es) (h0 & h1 & X & y & i1 & i2 & h2 & h3 & Ec & K & E1 & E2 & _ & _ & Ey)].
  set (k := py_int (INR (8 * n_t) * ratio)) in *. apply classif_spec in Ec as (AX & AY & _ & B0 & B1 & B2 & B3 & B4 & _ & N0 & N1 & N2 & N3 & N4 & _ & YB & YM); auto.
  apply classif_spec in Es as (_ & _ & _ & S0 & S1 & S2 & S3 & S4 & _ & M0 & M1 & M2 & M3 & M4 & _ & ZB & ZM); auto.
  apply (proj1 Hchoice) in E1 as (K1 & _ & D1). apply (proj1 Hchoice) in E2 as (K2 & _ & D2).
  assert (LO : forall i, i < 12 * n_t -> nth i (snd y) VNan = lab 0).
  { intros i Hi. destruct HL as [HL|HL]; [rewrite (YB HL)|rewrite (YM HL)]; rewrite app_nth1 by (rewrite repeat_length; lia); rewrite (nth_indep _ VNan (lab 0)) by (rewrite repeat_length; lia); apply nth_repeat. }
  assert (HI : forall i, 12 * n_t <= i < 24 * n_t -> exists c, nth i (snd y) VNan = lab c /\ c <> 0 /\ (label = Binary -> c = 1)).
  { intros i Hi. assert (IN : forall l, In (nth i (snd y) VNan) l -> (forall v, In v l -> exists c, v = lab c /\ c <> 0 /\ (label = Binary -> c = 1)) -> exists c, nth i (snd y) VNan = lab c /\ c <> 0 /\ (label = Binary -> c = 1)) by (intros l I1 I2; auto).
    destruct HL as [HL|HL]; [rewrite (YB HL)|rewrite (YM HL)]; rewrite app_nth2 by (rewrite repeat_length; lia); rewrite repeat_length.
    - exists 1. rewrite (nth_indep _ VNan (lab 1)) by (rewrite !repeat_length, !app_length; lia). rewrite nth_repeat. repeat split; auto; lia.
    - match goal with |- context [nth ?j ?l VNan] => assert (I : In (nth j l VNan) l) by (apply nth_In; rewrite !app_length, !repeat_length; lia); revert I; generalize (nth j l VNan) end.
      intros v I. repeat (apply in_app_or in I as [I|I]); apply repeat_spec in I; subst v; eexists; (split; [reflexivity|split; [lia|congruence]]). }
  assert (C0 : class_size 0 (snd yt) = Z.to_nat k).
  { rewrite Ey, map_app, class_size_app, (class_size_map_const 0 _ 0) by (intros i Hi; apply LO; auto). rewrite map_map, class_size_zero; [cbn; lia|].
    intros i Hi. specialize (D2 i Hi). destruct (HI (i + 12 * n_t) ltac:(lia)) as (c & Hc & Nc & _). eauto. }
  rewrite C0. split.
  - assert (P8 : (INR (8 * n_t) * ratio = 8 * INR n_t * ratio)%R) by (rewrite mult_INR; cbn; ring). pose proof (py_int_nonneg (INR (8 * n_t) * ratio)) as Q. fold k in Q. rewrite P8 in Q. pose proof (pos_INR n_t).
    assert (PP : (0 <= 8 * INR n_t * ratio)%R) by (apply Rmult_le_pos; lra). destruct (Q PP) as [Q1 Q2]. rewrite INR_IZR_INZ, Z2Nat.id; auto.
  - split.
    + intros HB. rewrite Ey, map_app, class_size_app, (class_size_map_const 1 _ 0) by (intros i Hi; apply LO; auto). rewrite map_map, (class_size_map_const 1 _ 1); [cbn; lia|].
      intros i Hi. specialize (D2 i Hi). destruct (HI (i + 12 * n_t) ltac:(lia)) as (c & Hc & _ & C1). now rewrite Hc, (C1 HB).
    + destruct HL as [HL|HL]; [rewrite (ZB HL)|rewrite (ZM HL)]; rewrite !class_size_app, !class_size_repeat; cbn [Nat.eqb]; lia.
Qed.

(** ** C111: the label tells the cluster *)

Theorem C111_clusters : forall n params label g x y g', CL n params label g = Ok (x, y, g') ->
  exists B0 B1 B2 B3 B4, x = B0 ++ B1 ++ B2 ++ B3 ++ B4 /\ length B0 = 4 * n /\ length B1 = n /\ length B2 = n /\ length B3 = n /\ length B4 = n /\
    (forall r, In r B0 -> exists u v, r = [2 * u - 1 / 2 * v + 2; - 1 / 2 * u + 2 * v + 2]%R /\ (u * u + v * v <= 1)%R) /\
    gaussian_block randn n (-3 / 2) 3 (15 / 100) 0 (3 / 10) B1 /\ gaussian_block randn n (-1 / 2) 1 (2 / 10) (-1 / 10) (2 / 10) B2 /\
    gaussian_block randn n 1 (-4 / 10) (17 / 100) (-5 / 100) (17 / 100) B3 /\ gaussian_block randn n 3 (-1) (3 / 10) 0 (15 / 100) B4 /\
    (label = Binary -> snd y = repeat (lab 0) (length B0) ++ repeat (lab 1) (length (B1 ++ B2 ++ B3 ++ B4))) /\
    (label = Multiclass -> snd y = repeat (lab 0) (length B0) ++ repeat (lab 1) (length B1) ++ repeat (lab 2) (length B2) ++ repeat (lab 3) (length B3) ++ repeat (lab 4) (length B4)).
Proof.
  intros n params label g x y g' H. pose proof (classif_spec rand randn pdf2 Hrand Hrandn _ _ _ _ _ _ _ H) as (LX & LY & _ & B0 & B1 & B2 & B3 & B4 & EX & N0 & N1 & N2 & N3 & N4 & D & YB & YM).
  exists B0, B1, B2, B3, B4. do 7 (split; [auto|]). unfold classif in H. destruct (unif_circle rand (n * 4) g) as [x1 g1] eqn:E1. apply (unif_circle_spec rand Hrand) in E1 as [L1 _].
  pose proof (Hrandn n g1) as [L2 _]. destruct (randn n g1) as [x21 g2] eqn:F1. pose proof (Hrandn n g2) as [L3 _]. destruct (randn n g2) as [x22 g3] eqn:F2.
  pose proof (Hrandn n g3) as [L4 _]. destruct (randn n g3) as [x23 g4] eqn:F3. pose proof (Hrandn n g4) as [L5 _]. destruct (randn n g4) as [x24 g5] eqn:F4. cbn [fst] in *.
  match type of H with (yy <- ?m ;; Ok (?X0, yy, _)) = _ => assert (XE : x = X0) by (destruct m; [|discriminate]; cbn [bind] in H; now injection H as <- _ _) end. clear H.
  rewrite EX in XE. apply app_eq_split in XE as [_ XE]; [|rewrite map_length; lia]. apply app_eq_split in XE as [Q1 XE]; [|rewrite map_length; lia]. apply app_eq_split in XE as [Q2 XE]; [|rewrite map_length; lia]. apply app_eq_split in XE as [Q3 Q4]; [|rewrite map_length; lia].
  repeat split; auto.
  - exists g1. rewrite F1, Q1. apply map_ext. intros z. unfold affine. f_equal; [ring|]. f_equal. ring.
  - exists g2. rewrite F2, Q2. apply map_ext. intros z. unfold affine. f_equal; [ring|]. f_equal. ring.
  - exists g3. rewrite F3, Q3. apply map_ext. intros z. unfold affine. f_equal; [ring|]. f_equal. ring.
  - exists g4. rewrite F4, Q4. apply map_ext. intros z. unfold affine. f_equal; [ring|]. f_equal. ring.
Qed.
(** 'subspace' with binary labels: half of the samples per class. *)
Theorem C111_subspace_binary : forall n params g x y g', SUB n params Binary g = Ok (x, y, g') -> exists B0 B1 B2, x = B0 ++ B1 ++ B2 /\ length B0 = 2 * n /\ length B1 = n /\ length B2 = n /\ snd y = repeat (lab 0) (length B0) ++ repeat (lab 1) (length (B1 ++ B2)).
Proof. intros n params g x y g' H. apply subspace_spec in H as (_ & _ & _ & B0 & B1 & B2 & EX & N0 & N1 & N2 & YB & _); auto. exists B0, B1, B2. auto 10. Qed.
(** REFUTED for 'subspace' with multiclass labels. For odd n two samples of the first cluster of the second class carry label 0, the
    label of the first class. *)
Theorem C111_subspace_mislabelled_refuted : forall n params g x y g', Nat.Odd n -> SUB n params Multiclass g = Ok (x, y, g') -> exists B0 B1 B2, x = B0 ++ B1 ++ B2 /\ length B0 = 2 * n /\ length B1 = n /\ length B2 = n /\
  nth 0 (skipn (length B0) (snd y)) VNan = lab 0 /\ class_size 0 (snd y) = 2 * n + 2.
Proof.
  intros n params g x y g' [m Hm] H. apply subspace_spec in H as (_ & LY & _ & B0 & B1 & B2 & EX & N0 & N1 & N2 & _ & YM); auto. specialize (YM eq_refl). cbn zeta in YM. exists B0, B1, B2. do 4 (split; [auto|]).
  assert (Q : 2 * n mod 4 = 2) by (replace (2 * n) with (2 + m * 4) by lia; rewrite Nat.mod_add by lia; reflexivity). rewrite Q in YM. split.
  - rewrite YM, N0. rewrite repeat_app, <- app_assoc, skipn_app, skipn_all2 by (rewrite repeat_length; lia). rewrite repeat_length, Nat.sub_diag. reflexivity.
  - rewrite YM, !class_size_app, !class_size_repeat. cbn [Nat.eqb]. lia.
Qed.
(** For even n the four labels 1, ..., 4 halve the two clusters. *)
Theorem C111_subspace_split_refuted : forall n params g x y g', 1 <= n -> SUB (2 * n) params Multiclass g = Ok (x, y, g') -> exists B0 B1 B2, x = B0 ++ B1 ++ B2 /\ length B0 = 4 * n /\ length B1 = 2 * n /\ length B2 = 2 * n /\
  firstn (length B1) (skipn (length B0) (snd y)) = repeat (lab 1) n ++ repeat (lab 2) n.
Proof.
  intros n params g x y g' Hn H. apply subspace_spec in H as (_ & LY & _ & B0 & B1 & B2 & EX & N0 & N1 & N2 & _ & YM); auto. specialize (YM eq_refl). cbn zeta in YM. exists B0, B1, B2. do 4 (split; [auto; lia|]).
  assert (Q : 2 * (2 * n) mod 4 = 0) by (replace (2 * (2 * n)) with (n * 4) by lia; apply Nat.mod_mul; lia). assert (Q2 : 2 * (2 * n) / 4 = n) by (replace (2 * (2 * n)) with (n * 4) by lia; apply Nat.div_mul; lia). rewrite Q, Q2 in YM.
  rewrite YM, N0, N1. rewrite skipn_app, skipn_all2 by (rewrite repeat_length; lia). rewrite repeat_length. replace (2 * (2 * n) - (2 * (2 * n) + 0)) with 0 by lia. cbn [skipn app].
  rewrite firstn_app, repeat_length, firstn_all2 by (rewrite repeat_length; lia). f_equal. replace (2 * n - n) with n by lia. rewrite firstn_app, repeat_length, Nat.sub_diag, firstn_all2 by (rewrite repeat_length; lia). cbn. apply app_nil_r.
Qed.

(** ** C112: the shifts *)

Lemma make_plain n_s n_t shift label ratio mu sigma gamma center params g ds : MAKE n_s n_t shift NNone label ratio mu sigma gamma center params false g = Ok ds ->
  exists Xs ys Xt yt g1, SH n_s n_t shift label ratio mu sigma gamma center params g = Ok (Xs, ys, Xt, yt, g1) /\ get_domain ds "s" = Ok (mkDom Xs (Some ys)) /\ get_domain ds "t" = Ok (mkDom Xt (Some yt)).
Proof.
  intros H. apply make_spec in H as (Xs & ys & Xt & yt & Xs' & Xt' & g1 & g2 & E & En & L1 & L2 & R1 & R2 & M). cbn in En. injection En as <- <- <-. cbn zeta in M. rewrite !map_id in M.
  pose proof (shifted_sizes _ _ _ _ _ _ _ _ _ _ _ _ _ _ _ _ E) as (A & B & _ & C & D & _). exists Xs, ys, Xt, yt, g1. split; auto. eapply (packed_two _ _ _ _ ds true B D M).
Qed.
(** Covariate shift: the target is 8 n distinct samples, with their labels, of a draw of 800 n samples from the source
    distribution, chosen with weights proportional to exp(-gamma |x - center_cov_shift|^2). *)
Theorem C112_covariate : forall n_s n_t label ratio mu sigma gamma center params g ds, MAKE n_s n_t Covariate NNone label ratio mu sigma gamma center params false g = Ok ds ->
  exists g0 X y g1 w isel g2 Xt yt, CL (100 * n_t) params label g0 = Ok (X, y, g1) /\ get_domain ds "t" = Ok (mkDom Xt (Some yt)) /\
    choice (length X) (8 * n_t) (Some w) g1 = Ok (isel, g2) /\ NoDup isel /\ length isel = 8 * n_t /\ Xt = map (fun i => nth i X []) isel /\ snd yt = map (fun i => nth i (snd y) VNan) isel /\
    length w = length X /\ (length center = 2 -> 1 <= n_t -> exists c, (0 < c)%R /\ forall i, i < length X -> nth i w 0%R = (c * exp (- gamma * Rsqr (distance (nth i X []) center)))%R) /\ (1 <= n_t -> vsum w = 1%R).
Proof.
  intros n_s n_t label ratio mu sigma gamma center params g ds H. apply make_plain in H as (Xs & ys & Xt & yt & g' & E & _ & T). apply shifted_spec in E as [_ (g0 & g1 & X & y & isel & g2 & Ec & Eh & _ & EX & Ey)]. cbn zeta in Eh.
  set (w := map _ X) in Eh. exists g0, X, y, g1, (map (fun a => a / vsum w)%R w), isel, g2, Xt, yt. replace (100 * n_t) with (n_t * 100) by lia. destruct (proj1 Hchoice _ _ _ _ _ _ Eh) as (L & ND & Bd).
  assert (LW : length w = length X) by (unfold w; now rewrite map_length). pose proof (classif_spec rand randn pdf2 Hrand Hrandn _ _ _ _ _ _ _ Ec) as (LX & _ & RX & _).
  assert (PW : 1 <= n_t -> (0 < vsum w)%R). { intros Hn. apply vsum_pos; [intros W; rewrite W in LW; cbn in LW; lia|]. intros z Hz. apply in_map_iff in Hz as (q & <- & _). apply exp_pos. }
  do 7 (split; [auto|]). split; [now rewrite map_length|]. split.
  - intros HC Hn. exists (/ vsum w)%R. split; [apply Rinv_0_lt_compat; auto|]. intros i Hi. rewrite (nth_indep _ 0%R ((fun a => a / vsum w)%R 0%R)) by (rewrite map_length; lia). rewrite (map_nth (fun a => a / vsum w)%R).
    unfold Rdiv. rewrite Rmult_comm. f_equal. unfold w. match goal with |- nth i (map ?f X) 0%R = _ => rewrite (nth_indep _ 0%R (f [])) by (rewrite map_length; auto); rewrite (map_nth f) end.
    f_equal. f_equal. unfold distance. rewrite Rsqr_sqrt; [reflexivity|]. clear. generalize (nth i X []). intros u. revert center. induction u as [|a u IH]; intros [|c cs]; cbn; try lra. specialize (IH cs). pose proof (Rle_0_sqr (a - c)) as Q. unfold Rsqr in Q. lra.
  - intros Hn. rewrite vsum_div. apply Rinv_r, Rgt_not_eq. exact (PW Hn).
Qed.
(** Target shift: distinct samples, with their labels, of a draw of 24 n samples. *)
Theorem C112_target : forall n_s n_t label ratio mu sigma gamma center params g ds, MAKE n_s n_t TargetShift NNone label ratio mu sigma gamma center params false g = Ok ds ->
  exists g0 X y g1 isel Xt yt, CL (3 * n_t) params label g0 = Ok (X, y, g1) /\ get_domain ds "t" = Ok (mkDom Xt (Some yt)) /\ NoDup isel /\ (forall i, In i isel -> i < length X) /\
    Xt = map (fun i => nth i X []) isel /\ snd yt = map (fun i => nth i (snd y) VNan) isel.
Proof.
  intros n_s n_t label ratio mu sigma gamma center params g ds H. apply make_plain in H as (Xs & ys & Xt & yt & g' & E & _ & T). apply shifted_spec in E as [_ (g0 & g1 & X & y & i1 & i2 & g2 & g3 & Ec & K & E1 & E2 & _ & EX & Ey)].
  exists g0, X, y, g1, (i1 ++ map (fun i => i + 12 * n_t) i2), Xt, yt. replace (3 * n_t) with (n_t * 3) by lia. destruct (proj1 Hchoice _ _ _ _ _ _ E1) as (L1 & ND1 & B1). destruct (proj1 Hchoice _ _ _ _ _ _ E2) as (L2 & ND2 & B2).
  pose proof (classif_spec rand randn pdf2 Hrand Hrandn _ _ _ _ _ _ _ Ec) as (LX & _ & RX & _). do 2 (split; [auto|]). split; [|split; [|auto]].
  - apply NoDup_app_intro; auto; [apply FinFun.Injective_map_NoDup; auto; intros a b; lia|]. intros i Hi Hj. apply in_map_iff in Hj as (j & <- & Hj). specialize (B1 _ Hi). lia.
  - intros i Hi. apply in_app_or in Hi as [Hi|Hi]; [specialize (B1 i Hi); lia|]. apply in_map_iff in Hi as (j & <- & Hj). specialize (B2 j Hj). lia.
Qed.
(** Conditional shift: a new draw, scaled by sigma and translated by mean; labels of the draw. *)
Theorem C112_conditional : forall n_s n_t label ratio mu sigma gamma center params g ds, MAKE n_s n_t Conditional NNone label ratio mu sigma gamma center params false g = Ok ds ->
  exists g0 X y g1, CL n_t params label g0 = Ok (X, y, g1) /\ get_domain ds "t" = Ok (mkDom (map (map (fun a => sigma * a + mu)%R) X) (Some y)).
Proof.
  intros n_s n_t label ratio mu sigma gamma center params g ds H. apply make_plain in H as (Xs & ys & Xt & yt & g' & E & _ & T). apply shifted_spec in E as [_ (g0 & g1 & X & Ec & ->)]. exists g0, X, yt, g1. split; auto. rewrite T. do 2 f_equal. apply map_ext. intros r. apply map_ext. intros a. ring.
Qed.
(** Subspace: both domains drawn anew from the other generator, the target mirrored at the origin. *)
Theorem C112_subspace : forall n_s n_t label ratio mu sigma gamma center params g ds, MAKE n_s n_t Subspace NNone label ratio mu sigma gamma center params false g = Ok ds ->
  exists g0 g1 g2 g3 Xs ys X y, SUB n_s params label g0 = Ok (Xs, ys, g1) /\ SUB n_t params label g2 = Ok (X, y, g3) /\ get_domain ds "s" = Ok (mkDom Xs (Some ys)) /\ get_domain ds "t" = Ok (mkDom (map (map Ropp) X) (Some y)).
Proof.
  intros n_s n_t label ratio mu sigma gamma center params g ds H. apply make_plain in H as (Xs & ys & Xt & yt & g' & E & S & T). apply shifted_spec in E as [(g0 & g1 & Es) (g2 & g3 & X & Ec & ->)]. cbn in Es. exists g0, g1, g2, g3, Xs, ys, X, yt. repeat split; auto.
  rewrite T. do 2 f_equal. apply map_ext. intros r. apply map_ext. intros a. ring.
Qed.
(** Noise and standardisation leave the labels and the number of rows alone. *)
Theorem C112_labels_kept : forall n_s n_t shift noise label ratio mu sigma gamma center params std g ds, MAKE n_s n_t shift noise label ratio mu sigma gamma center params std g = Ok ds ->
  exists ds0, MAKE n_s n_t shift NNone label ratio mu sigma gamma center params false g = Ok ds0 /\ forall name, name = "s"%string \/ name = "t"%string ->
    exists X X0 y, get_domain ds name = Ok (mkDom X (Some y)) /\ get_domain ds0 name = Ok (mkDom X0 (Some y)) /\ length X = length X0.
Proof.
  intros n_s n_t shift noise label ratio mu sigma gamma center params std g ds H. apply make_spec in H as (Xs & ys & Xt & yt & Xs' & Xt' & g1 & g2 & E & En & L1 & L2 & R1 & R2 & M). cbn zeta in M.
  pose proof (shifted_sizes _ _ _ _ _ _ _ _ _ _ _ _ _ _ _ _ E) as (A & B & _ & C & D & _). destruct (make_two_ok Xs ys Xt yt) as (ds0 & M0). exists ds0. split; [unfold make_shifted; rewrite E; cbn; exact M0|].
  destruct (packed_two _ _ _ _ ds true ltac:(rewrite map_length, L1; exact B) ltac:(rewrite map_length, L2; exact D) M) as (_ & P1 & P2). destruct (packed_two _ _ _ _ ds0 true B D M0) as (_ & Q1 & Q2).
  intros name [->| ->]; do 3 eexists; (split; [eassumption|split; [eassumption|now rewrite map_length]]).
Qed.
(** standardize=True: over source and target together every feature has mean 0 and variance 1, unless it was constant. *)
Theorem C112_standardized : forall n_s n_t shift noise label ratio mu sigma gamma center params g ds, MAKE n_s n_t shift noise label ratio mu sigma gamma center params true g = Ok ds ->
  exists ds0 X0 y sd X, MAKE n_s n_t shift noise label ratio mu sigma gamma center params false g = Ok ds0 /\ packed_xy ds0 ["s"%string] ["t"%string] true = Ok (PArrays X0 y sd) /\ packed_xy ds ["s"%string] ["t"%string] true = Ok (PArrays X y sd) /\
    forall j, j < 2 -> X0 <> [] -> feature_var X0 j <> 0%R -> feature_mean X j = 0%R /\ feature_var X j = 1%R.
Proof.
  intros n_s n_t shift noise label ratio mu sigma gamma center params g ds H. apply make_spec in H as (Xs & ys & Xt & yt & Xs' & Xt' & g1 & g2 & E & En & L1 & L2 & R1 & R2 & M). cbn zeta in M.
  pose proof (shifted_sizes _ _ _ _ _ _ _ _ _ _ _ _ _ _ _ _ E) as (A & B & _ & C & D & _). destruct (make_two_ok Xs' ys Xt' yt) as (ds0 & M0).
  destruct (packed_two _ _ _ _ ds true ltac:(rewrite map_length, L1; exact B) ltac:(rewrite map_length, L2; exact D) M) as (P & _ & _). destruct (packed_two Xs' ys Xt' yt ds0 true ltac:(lia) ltac:(lia) M0) as (Q & _ & _). cbn zeta in P, Q. rewrite !map_length in P. rewrite <- map_app in P.
  do 5 eexists. split; [unfold make_shifted; rewrite E; cbn [bind]; rewrite En; cbn [bind]; exact M0|]. split; [exact Q|]. split; [exact P|].
  intros j Hj NE V. apply standardise_moments; auto. apply rect_app; auto.
Qed.

(** ** C113: density parameters for regression labels *)

(** REFUTED for 'subspace': the documented scalars are rejected by the draw that is thrown away, matrices by the other one. *)
Theorem C113_subspace_refuted : forall n_s n_t noise ratio mu sigma gamma center std g,
  (forall m s, MAKE n_s n_t Subspace noise Regression ratio mu sigma gamma center (RScalar m s) std g = Err ValueError) /\
  (forall m s, MAKE n_s n_t Subspace noise Regression ratio mu sigma gamma center (RMatrix m s) std g = Err ValueError).
Proof.
  intros n_s n_t noise ratio mu sigma gamma center std g. split; intros m s; unfold make_shifted, shifted.
  - assert (E : CL n_s (RScalar m s) Regression g = Err ValueError). { unfold classif. destruct (unif_circle rand (n_s * 4) g) as [x1 g1]. destruct (randn n_s g1) as [? h1]. destruct (randn n_s h1) as [? h2]. destruct (randn n_s h2) as [? h3]. destruct (randn n_s h3) as [? h4]. reflexivity. } now rewrite E.
  - destruct (classif_ok rand randn pdf2 n_s (RMatrix m s) Regression g ltac:(discriminate) (fun _ => I)) as ([[X y] g1] & E). rewrite E. cbn [bind].
    assert (E2 : SUB n_s (RMatrix m s) Regression g1 = Err ValueError). { unfold classif_subspace. destruct (randn (n_s * 2) g1) as [? h1]. destruct (randn n_s h1) as [? h2]. destruct (randn n_s h2) as [? h3]. reflexivity. } now rewrite E2.
Qed.
(** The other shifts take a vector and a matrix, and the labels are the density at the sample (times the constant, in [pdf2]). *)
Theorem C113_labels : forall n params g x y g', CL n params Regression g = Ok (x, y, g') -> y = (YFloat, map (pdf2 (match params with RMatrix m s => Some (m, s) | _ => None end)) x) /\ forall m s, params <> RScalar m s.
Proof.
  intros n params g x y g' H. unfold classif in H. destruct (unif_circle rand (n * 4) g) as [x1 g1]. destruct (randn n g1) as [? h1]. destruct (randn n h1) as [? h2]. destruct (randn n h2) as [? h3]. destruct (randn n h3) as [? h4].
  destruct params; cbn [bind] in H; try discriminate; injection H as <- <- <-; split; auto; discriminate.
Qed.

(** ** C114: shifted blobs *)

Theorem C114_translation : forall d Xs ys shift g ds, length ys = length Xs -> rect d Xs -> make_blobs_shifted normal d (Xs, ys) shift NNone g = Ok ds ->
  let s := match shift with inl a => repeat a d | inr l => l end in
  packed_xy ds ["s"%string] ["t"%string] true = Ok (PArrays (Xs ++ map (fun r => vadd r s) Xs) (ys ++ ys) (repeat 1%Z (length Xs) ++ repeat (-2)%Z (length Xs))).
Proof.
  intros d Xs ys shift g ds L HR H s. unfold make_blobs_shifted in H. destruct (mapM (shift_row shift) Xs) as [Xt|] eqn:E; [|discriminate]. cbn [bind noisy] in H.
  assert (EX : Xt = map (fun r => vadd r s) Xs).
  { clear H. revert Xt E HR. clear. induction Xs as [|r Xs IH]; intros Xt E HR; cbn in E; [now injection E as <-|]. destruct (shift_row shift r) as [r'|] eqn:Er; [|discriminate]. cbn in E. destruct (mapM (shift_row shift) Xs) as [q|]; [|discriminate]. cbn in E. injection E as <-.
    cbn [map]. f_equal; [|apply IH; auto; intros x Hx; apply HR; cbn; auto]. unfold shift_row in Er. destruct shift as [a|l]; subst s.
    - injection Er as <-. rewrite <- (HR r (or_introl eq_refl)). clear. induction r as [|x r IH]; [reflexivity|]. cbn. unfold vadd in *. cbn. now rewrite IH.
    - now apply np_map2_ok in Er as [_ ->]. }
  subst Xt. destruct (packed_two Xs (YInt, ys) (map (fun r => vadd r s) Xs) (YInt, ys) ds true L ltac:(rewrite map_length; exact L) H) as (P & _ & _). cbn zeta in P. rewrite map_length in P. exact P.
Qed.
Theorem C114_accepts : forall d Xs ys shift noise g, rect d Xs -> good_noise noise -> match shift with inl _ => True | inr l => length l = d end -> exists ds, make_blobs_shifted normal d (Xs, ys) shift noise g = Ok ds.
Proof.
  intros d Xs ys shift noise g HR GN HS. unfold make_blobs_shifted. destruct (mapM_ok_all (shift_row shift) Xs) as (Xt & E).
  - intros r Hr. unfold shift_row. destruct shift as [a|l]; [eauto|]. unfold np_map2. rewrite (HR r Hr), HS, Nat.eqb_refl. eauto.
  - rewrite E. cbn [bind]. destruct (noisy_ok normal Hnormal d noise Xs Xt g GN) as ([[A B] g2] & En). rewrite En. cbn [bind]. apply make_two_ok.
Qed.
(** With noise the labels are still those of the blobs, in both domains. *)
Theorem C114_labels : forall d Xs ys shift noise g ds, make_blobs_shifted normal d (Xs, ys) shift noise g = Ok ds -> forall name, name = "s"%string \/ name = "t"%string -> exists X, get_domain ds name = Ok (mkDom X (Some (YInt, ys))).
Proof.
  intros d Xs ys shift noise g ds H. unfold make_blobs_shifted in H. destruct (mapM (shift_row shift) Xs) as [Xt|]; [|discriminate]. cbn [bind] in H. destruct (noisy normal d noise Xs Xt g) as [[[A B] g2]|]; [|discriminate]. cbn [bind] in H.
  unfold make_dataset in H. cbn in H. injection H as <-. intros name [->| ->]; eexists; reflexivity.
Qed.
End T.

(** ** C115: moons *)

Section Moons.
  Context {Gen : Type} (normal : R -> nat -> nat -> Gen -> res (list (list R) * Gen)) (cluster : list R -> nat -> Gen -> list (list R) * Gen).
  Hypotheses (Hnormal : normal_ok normal) (Hcluster : cluster_ok cluster).

  Lemma moon_index pos : (0 <= pos < 1)%R -> exists i, py_index 100 (py_int (pos * 100)) = Ok i /\ i < 100 /\ (INR i <= 100 * pos < INR i + 1)%R.
  Proof.
    intros H. destruct (py_int_nonneg (pos * 100) ltac:(lra)) as [A B]. set (k := py_int (pos * 100)) in *. assert (K : (k < 100)%Z) by (apply lt_IZR; lra). exists (Z.to_nat k). unfold py_index.
    replace (0 <=? k)%Z with true by (symmetry; apply Z.leb_le; lia). replace (k <? Z.of_nat 100)%Z with true by (symmetry; apply Z.ltb_lt; lia). cbn [andb]. split; [reflexivity|]. split; [lia|]. rewrite INR_IZR_INZ, Z2Nat.id by lia. lra.
  Qed.
(** Position in [0, 1): two clusters of [n] samples, labelled 0 and 1, drawn around points of the two half circles, at an angle within
    pi / 99 of pi times the position. *)
Theorem C115_centres : forall n pos g, (0 <= pos < 1)%R -> exists t A B g1 g2, moons cluster n pos g = Ok (A ++ B, (YFloat, repeat (lab 0) n ++ repeat (lab 1) n), g2) /\ (0 <= t <= PI)%R /\ (Rabs (t - PI * pos) <= PI / 99)%R /\
  cluster [cos t; sin t] n g = (A, g1) /\ cluster [1 - cos t; 1 / 2 - sin t]%R n g1 = (B, g2) /\ length A = n /\ length B = n.
Proof.
  intros n pos g H. destruct (moon_index pos H) as (i & E & Hi & Q). unfold moons. rewrite E. cbn [bind]. pose proof (Hcluster (outer i) n g) as [L1 _]. destruct (cluster (outer i) n g) as [A g1] eqn:EA. pose proof (Hcluster (inner i) n g1) as [L2 _]. destruct (cluster (inner i) n g1) as [B g2] eqn:EB.
  exists (angle i), A, B, g1, g2. cbn [fst] in *. pose proof PI_RGT_0 as P. assert (I0 : (0 <= INR i <= 99)%R). { split; [apply pos_INR|]. replace 99%R with (INR 99) by (rewrite INR_IZR_INZ; reflexivity). apply le_INR. lia. }
  assert (T : (angle i = PI * (INR i / 99))%R) by (unfold angle; field). repeat split; auto.
  - rewrite T. apply Rmult_le_pos; lra.
  - rewrite T. rewrite <- (Rmult_1_r PI) at 2. apply Rmult_le_compat_l; lra.
  - rewrite T. replace (PI * (INR i / 99) - PI * pos)%R with (PI * (INR i / 99 - pos))%R by ring. rewrite Rabs_mult, (Rabs_pos_eq PI) by lra. unfold Rdiv at 2. apply Rmult_le_compat_l; [lra|]. apply Rabs_le. lra.
  - rewrite <- EB. unfold inner. do 3 f_equal. lra.
Qed.
(** REFUTED at the end of the moon: position 1 is out of range. *)
Theorem C115_end_refuted : forall n g, moons cluster n 1 g = Err IndexError.
Proof.
  intros n g. unfold moons. assert (E : py_int (1 * 100) = 100%Z). { destruct (py_int_nonneg (1 * 100) ltac:(lra)) as [A B]. set (k := py_int (1 * 100)) in *. assert (99 < k)%Z by (apply lt_IZR; lra). assert (k < 101)%Z by (apply lt_IZR; lra). lia. } rewrite E. reflexivity.
Qed.

  Definition moon_labels (n : nat) : list val := repeat (lab 0) n ++ repeat (lab 1) n.
  Definition noise_for (noise : noise_arg) (which : nat) : Prop := match noise with NNone => True | NReal s => (0 <= s)%R | NSeq l => exists s, nth_error l which = Some s /\ (0 <= s)%R end.
  Lemma moon_domains_spec n noise which : noise_for noise which -> forall named s g h, tracks s h -> inv s -> NoDup (map fst h ++ map snd named) -> (forall p, In p (map fst named) -> (0 <= p < 1)%R) ->
    exists s' g' new, moon_domains normal cluster n noise which named s g = Ok (s', g') /\ tracks s' (h ++ new) /\ inv s' /\ map fst new = map snd named /\ Forall (fun nd => length (d_X (snd nd)) = 2 * n /\ d_y (snd nd) = Some (YFloat, moon_labels n)) new.
  Proof.
    intros HN named. induction named as [|[pos name] named IH]; intros s g h T Hi ND HP.
    - exists s, g, []. rewrite app_nil_r. split; [reflexivity|]. split; [exact T|]. split; [exact Hi|]. split; [reflexivity|constructor].
    - cbn [moon_domains]. destruct (C115_centres n pos g) as (t & A & B & g1 & g2 & E & _ & _ & EA & EB & L1 & L2); [apply HP; cbn; auto|]. rewrite E. cbn [bind].
      assert (RN : rect 2 (A ++ B)). { apply rect_app; [pose proof (proj2 (Hcluster [cos t; sin t] n g)) as Q; rewrite EA in Q; exact Q|pose proof (proj2 (Hcluster [1 - cos t; 1 / 2 - sin t]%R n g1)) as Q; rewrite EB in Q; exact Q]. }
      assert (NX : exists X g3, moon_noise normal noise which (A ++ B) g2 = Ok (X, g3) /\ length X = 2 * n).
      { destruct noise as [|sc|l]; cbn in *.
        - do 2 eexists. split; [reflexivity|]. rewrite app_length. lia.
        - destruct (add_noise_ok normal Hnormal 2 sc (A ++ B) g2 HN) as ([X g3] & EX). exists X, g3. split; auto. apply add_noise_spec in EX as (LX & _); auto. rewrite LX, app_length. lia.
        - destruct HN as (sc & Hsc & P). unfold seq_item. rewrite Hsc. cbn. destruct (add_noise_ok normal Hnormal 2 sc (A ++ B) g2 P) as ([X g3] & EX). exists X, g3. split; auto. apply add_noise_spec in EX as (LX & _); auto. rewrite LX, app_length. lia. }
      destruct NX as (X & g3 & EX & LX). rewrite EX. cbn [bind fst snd]. cbn [map snd] in ND. assert (NI : ~ In name (map fst h)). { apply NoDup_remove_2 in ND. intros I. apply ND. apply in_or_app. auto. }
      assert (EA2 : exists s1, add_domain s (mkDom X (Some (YFloat, moon_labels n))) (Some name) = Ok s1). { unfold add_domain. rewrite dict_get_absent by (rewrite (tracks_fst s h T); auto). cbn. eauto. }
      destruct EA2 as (s1 & ES). fold (moon_labels n). rewrite ES. cbn [bind]. destruct (add_named_ok _ _ _ _ _ T ES) as [_ T1]. destruct (IH s1 g3 (h ++ [(name, mkDom X (Some (YFloat, moon_labels n)))])) as (s' & g' & new & E' & T' & I' & F' & P'); auto.
      + eapply inv_add; eauto.
      + rewrite map_app, <- app_assoc. cbn. exact ND.
      + intros p Hp. apply HP. cbn. auto.
      + exists s', g', ((name, mkDom X (Some (YFloat, moon_labels n))) :: new). rewrite <- app_assoc in T'. cbn [app] in T'. split; [exact E'|]. split; [exact T'|]. split; [exact I'|]. split; [cbn; now rewrite F'|]. constructor; auto.
  Qed.
  Lemma tracks_lookup (s : @dataset (list R)) pre new : tracks s (pre ++ new) -> NoDup (map fst (pre ++ new)) -> Forall2 (lookup_ok s) (map fst new) (combine (seq (1 + length pre) (length new)) (map snd new)).
  Proof.
    intros T ND. revert pre T ND. induction new as [|[n d] new IH]; intros pre T ND; cbn [map seq length combine]; [constructor|]. constructor.
    - unfold lookup_ok, known. cbn [fst snd]. destruct T as [T1 T2]. repeat split; [|lia|].
      + rewrite T2. apply (nth_error_In _ (length pre)). rewrite map_app. apply combine_nth_error.
        * rewrite nth_error_app2 by (rewrite map_length; auto). rewrite map_length, Nat.sub_diag. reflexivity.
        * rewrite (nth_error_nth' _ 0) by (rewrite seq_length, app_length; cbn; lia). rewrite seq_nth by (rewrite app_length; cbn; lia). reflexivity.
      + rewrite T1, map_app, nth_error_app2 by (rewrite map_length; lia). rewrite map_length. replace (1 + length pre - 1 - length pre) with 0 by lia. reflexivity.
    - specialize (IH (pre ++ [(n, d)])). rewrite <- app_assoc in IH. cbn [app] in IH. specialize (IH T ND). rewrite app_length in IH. cbn [length] in IH. replace (1 + (length pre + 1)) with (S (1 + length pre)) in IH by lia. exact IH.
  Qed.
  Lemma moon_names_nodup pre pos : NoDup (map snd (moon_names pre pos)) /\ (pre = "s"%string \/ pre = "t"%string -> forall x, In x (map snd (moon_names pre pos)) -> exists rest, x = String.append pre rest).
  Proof.
    destruct pos as [p|l]; cbn [moon_names].
    - split; [repeat constructor; cbn; tauto|]. intros _ x [<-|[]]. exists EmptyString. cbn [snd]. clear. induction pre as [|c pre IH]; [reflexivity|]. cbn [String.append]. now rewrite <- IH.
    - rewrite map_map. cbn [fst snd]. split.
      + assert (G : forall k s, NoDup (map (fun x : nat * R => String.append pre (string_of_nat (fst x))) (combine (seq s k) l))).
        { clear. induction l as [|a l IH]; intros k s; [destruct k; constructor|]. destruct k as [|k]; [constructor|]. cbn. constructor; [|apply IH]. intros I. apply in_map_iff in I as ([i q] & E & I). apply in_combine_l, in_seq in I. cbn in E.
          assert (INJ : forall u v, String.append pre u = String.append pre v -> u = v) by (clear; induction pre as [|c pre IH]; cbn; intros u v H; [auto|injection H; auto]). apply INJ, string_of_nat_inj in E. lia. }
        apply G.
      + intros _ x I. apply in_map_iff in I as (q & <- & _). eauto.
  Qed.
  Lemma moon_names_pos pre pos : map fst (moon_names pre pos) = match pos with inl p => [p] | inr l => l end.
  Proof. destruct pos as [p|l]; [reflexivity|]. cbn. rewrite map_map. cbn. generalize 0. induction l as [|a l IH]; intros s; [reflexivity|]. cbn. now rewrite IH. Qed.
  Lemma moon_names_count pre pos : length (moon_names pre pos) = length (match pos with inl p => [p] | inr l => l end).
  Proof. rewrite <- (moon_names_pos pre pos). now rewrite map_length. Qed.
(** Every list of valid positions: one domain per position, sources labelled 1, 2, ... and targets with the following numbers,
    negative; 2 n samples each, the first half of class 0. *)
Theorem C115_layout : forall n_s n_t noise pos_s pos_t g, let ps := match pos_s with inl p => [p] | inr l => l end in let pt := match pos_t with inl p => [p] | inr l => l end in
  (forall p, In p ps \/ In p pt -> (0 <= p < 1)%R) -> 1 <= length ps + length pt -> noise_for noise 0 -> noise_for noise 1 ->
  exists ds sn tn X, make_moons normal cluster n_s n_t noise pos_s pos_t g = Ok (ds, sn, tn) /\
    packed_xy ds sn tn true = Ok (PArrays X (concat (repeat (moon_labels n_s) (length ps)) ++ concat (repeat (moon_labels n_t) (length pt)))
      (concat (map (fun i => repeat (Z.of_nat i) (2 * n_s)) (seq 1 (length ps))) ++ concat (map (fun i => repeat (- Z.of_nat i)%Z (2 * n_t)) (seq (1 + length ps) (length pt))))) /\
    length X = 2 * n_s * length ps + 2 * n_t * length pt.
Proof.
  intros n_s n_t noise pos_s pos_t g ps pt HP HL N0 N1. unfold make_moons.
  destruct (moon_names_nodup "s" pos_s) as [ND1 PR1]. destruct (moon_names_nodup "t" pos_t) as [ND2 PR2].
  destruct (moon_domains_spec n_s noise 0 N0 (moon_names "s" pos_s) (@empty_ds (list R)) g []) as (s1 & g1 & h1 & E1 & T1 & I1 & F1 & P1).
  { split; reflexivity. } { apply inv_empty. } { exact ND1. } { intros p Hp. rewrite moon_names_pos in Hp. apply HP. auto. }
  rewrite E1. cbn [bind fst snd]. cbn [app] in T1.
  assert (NDA : NoDup (map snd (moon_names "s" pos_s) ++ map snd (moon_names "t" pos_t))).
  { apply NoDup_app_intro; auto. intros x X1 X2. destruct (PR1 (or_introl eq_refl) x X1) as (r1 & ->). destruct (PR2 (or_intror eq_refl) _ X2) as (r2 & E). discriminate. }
  destruct (moon_domains_spec n_t noise 1 N1 (moon_names "t" pos_t) s1 g1 h1) as (s2 & g2 & h2 & E2 & T2 & I2 & F2 & P2); auto.
  { now rewrite F1. } { intros p Hp. rewrite moon_names_pos in Hp. apply HP. auto. }
  rewrite E2. cbn [bind fst snd]. do 4 eexists. split; [reflexivity|].
  assert (C1 : length h1 = length ps) by (rewrite <- (map_length fst h1), F1, map_length; apply moon_names_count). assert (C2 : length h2 = length pt) by (rewrite <- (map_length fst h2), F2, map_length; apply moon_names_count).
  assert (ND : NoDup (map fst (h1 ++ h2))) by (rewrite map_app, F1, F2; auto).
  assert (LS : Forall2 (lookup_ok s2) (map fst h1) (combine (seq 1 (length h1)) (map snd h1))).
  { pose proof (tracks_lookup s2 [] (h1 ++ h2) T2 ND) as Q. cbn [length Nat.add app] in Q. rewrite map_app, app_length, seq_app, map_app in Q.
    assert (CA : forall (a b : list nat) (c d : list (@dom (list R))), length a = length c -> combine (a ++ b) (c ++ d) = combine a c ++ combine b d) by (clear; induction a as [|x a IH]; intros b [|y c] d H; try discriminate; cbn; [auto|rewrite IH; auto]).
    rewrite CA in Q by (rewrite seq_length, map_length; auto). apply Forall2_app_inv_l in Q as (l1 & l2 & Q1 & Q2 & Q). assert (LL : length l1 = length (combine (seq 1 (length h1)) (map snd h1))).
    { assert (FL : forall (u : list string) (v : list (nat * @dom (list R))), Forall2 (lookup_ok s2) u v -> length u = length v) by (clear; induction 1; cbn; congruence). rewrite <- (FL _ _ Q1), combine_length, seq_length, !map_length. lia. }
    symmetry in Q. apply app_eq_split in Q as [-> _]; auto. }
  pose proof (tracks_lookup s2 h1 h2 T2 ND) as LT. rewrite F1 in LS. rewrite F2 in LT.
  unfold packed_xy, pack. rewrite (pack_sources_ok s2 _ _ I2 LS). cbn [bind p_X p_y p_sd p_names app]. rewrite (pack_targets_unmasked s2 _ _ I2 LT). cbn [bind p_X p_y p_sd p_names].
  rewrite (map_length snd (moon_names "s" pos_s)), (map_length snd (moon_names "t" pos_t)), (moon_names_count "s" pos_s), (moon_names_count "t" pos_t). fold ps pt. destruct (Nat.eqb_spec (length ps + length pt) 0) as [Z0|_]; [lia|].
  assert (YB : forall n h k, Forall (fun nd : string * @dom (list R) => length (d_X (snd nd)) = 2 * n /\ d_y (snd nd) = Some (YFloat, moon_labels n)) h ->
     concat (map (fun kd : nat * @dom (list R) => plain_labels (snd kd)) (combine (seq k (length h)) (map snd h))) = concat (repeat (moon_labels n) (length h)) /\
     (forall sg : nat -> Z, concat (map (fun kd : nat * @dom (list R) => repeat (sg (fst kd)) (length (plain_labels (snd kd)))) (combine (seq k (length h)) (map snd h))) = concat (map (fun i => repeat (sg i) (2 * n)) (seq k (length h)))) /\
     length (concat (map (fun kd : nat * @dom (list R) => d_X (snd kd)) (combine (seq k (length h)) (map snd h)))) = 2 * n * length h).
  { clear. intros n h. induction h as [|[nm d] h IH]; intros k F; [cbn; repeat split; auto; lia|]. apply Forall_cons_iff in F as [[D1 D2] F]. cbn [snd] in *. destruct (IH (S k) F) as (A & B & C). cbn [length seq map combine concat repeat fst snd].
    assert (PL : plain_labels d = moon_labels n) by (unfold plain_labels; now rewrite D2). rewrite A, PL. repeat split.
    - intros sg. rewrite B. f_equal. f_equal. unfold moon_labels. rewrite app_length, !repeat_length. lia.
    - rewrite app_length, C, D1. cbn [length]. lia. }
  destruct (YB n_s h1 1 P1) as (A1 & B1 & C1'). destruct (YB n_t h2 (1 + length h1) P2) as (A2 & B2 & C2'). rewrite A1, A2, (B1 Z.of_nat), (B2 (fun i => (- Z.of_nat i)%Z)), C1, C2. split; [reflexivity|]. rewrite app_length, <- C1, <- C2, C1', C2'. reflexivity.
Qed.
End Moons.

(** ** C116: signals with a peak frequency *)

Section Signals.
  Context {Gen : Type} (choice : nat -> nat -> option (list R) -> Gen -> res (list nat * Gen))
    (uniform_half : nat -> Gen -> list R * Gen) (noise3 : nat -> nat -> nat -> Gen -> list (list (list R)) * Gen) (normal1 : R -> R -> Gen -> R * Gen)
    (bandpass : R -> R -> list (list R) -> res (list (list R))) (rfft irfft : list R -> list R).
  Hypothesis Hchoice : choice_ok choice.
  Hypothesis Hnoise3 : forall n c s g, length (fst (noise3 n c s g)) = n.
  (** irfft inverts rfft, linearly. *)
  Hypothesis Hfft : forall a x, irfft (vscale a (rfft x)) = vscale a x.

  Lemma signals_length f b s w xs g X g' : signals normal1 bandpass rfft irfft f b s w xs g = Ok (X, g') -> length X = length xs.
  Proof.
    revert g X g'. induction xs as [|x xs IH]; intros g X g' H; cbn [signals] in H; [now injection H as <- <-|]. destruct (one_signal normal1 bandpass rfft irfft f b s w x g) as [[a g1]|]; [|discriminate]. cbn [bind fst snd] in H.
    destruct (signals normal1 bandpass rfft irfft f b s w xs g1) as [[q g2]|] eqn:E; [|discriminate]. cbn [bind fst snd] in H. injection H as <- <-. cbn. f_equal. eapply IH; eauto.
  Qed.
  Lemma class_signals_length n c s freqs b sf : forall X g X' g', length X = n -> class_signals uniform_half noise3 normal1 bandpass rfft irfft n c s freqs b sf X g = Ok (X', g') -> length X' = n.
  Proof.
    induction freqs as [|f fs IH]; intros X g X' g' L H; cbn [class_signals] in H; [now injection H as <- <-|]. destruct (uniform_half c g) as [w g1]. pose proof (Hnoise3 n c s g1) as LN. destruct (noise3 n c s g1) as [xr g2].
    destruct (signals normal1 bandpass rfft irfft f b sf w xr g2) as [[a g3]|] eqn:E; [|discriminate]. cbn [bind fst snd] in *. apply signals_length in E. eapply IH; [|exact H]. rewrite map2_length; lia.
  Qed.
(** One class after the other, [n] signals each, labelled by the number of the class. *)
Theorem C116_labels : forall n c s freqs b sf g X y g', peak_signals uniform_half noise3 normal1 bandpass rfft irfft n c s freqs b sf g = Ok (X, y, g') ->
  y = concat (map (fun k => repeat (lab k) n) (seq 0 (length freqs))) /\ length X = n * length freqs /\ length y = length X.
Proof.
  intros n c s freqs b sf g X y g' H. assert (H' : all_signals uniform_half noise3 normal1 bandpass rfft irfft n c s freqs 0 b sf g = Ok (X, y, g')) by (destruct freqs; [discriminate|exact H]). clear H. revert H'. generalize 0. intros k H.
  assert (G : y = concat (map (fun k => repeat (lab k) n) (seq k (length freqs))) /\ length X = n * length freqs /\ length y = length X); [|exact G].
  revert k g X y g' H. induction freqs as [|f fs IH]; intros k g X y g' H; cbn [all_signals] in H; [injection H as <- <- <-; cbn; repeat split; auto; lia|].
  destruct (class_signals uniform_half noise3 normal1 bandpass rfft irfft n c s f b sf _ g) as [[a g1]|] eqn:E; [|discriminate]. cbn [bind fst snd] in H. destruct (all_signals uniform_half noise3 normal1 bandpass rfft irfft n c s fs (S k) b sf g1) as [[[X1 y1] g2]|] eqn:E2; [|discriminate]. cbn [bind] in H. injection H as <- <- <-.
  apply class_signals_length in E; [|apply repeat_length]. destruct (IH _ _ _ _ _ E2) as (-> & L1 & L2). cbn [seq map concat length]. rewrite !app_length, repeat_length, E. repeat split; auto; lia.
Qed.
(** At most 15 frequencies can be drawn; the source and the target have the same number of classes. *)
Theorem C116_too_many : forall n_s n_t c nf nc df b sf g, 15 < nc * nf -> make_frequencies choice uniform_half noise3 normal1 bandpass rfft irfft n_s n_t c nf nc df b sf g = Err ValueError.
Proof. intros n_s n_t c nf nc df b sf g H. unfold make_frequencies. rewrite (proj1 (proj2 (proj2 Hchoice))) by auto. reflexivity. Qed.
  Lemma rows_of_length m k l : length (rows_of m k l) = k.
  Proof. revert l. induction k as [|k IH]; intros l; cbn; auto. Qed.
Theorem C116_dataset : forall n_s n_t c nf nc df b sf g Xs ys Xt yt, make_frequencies choice uniform_half noise3 normal1 bandpass rfft irfft n_s n_t c nf nc df b sf g = Ok (Xs, ys, (Xt, yt)) ->
  ys = concat (map (fun k => repeat (lab k) n_s) (seq 0 nc)) /\ yt = concat (map (fun k => repeat (lab k) n_t) (seq 0 nc)) /\ length Xs = n_s * nc /\ length Xt = n_t * nc.
Proof.
  intros n_s n_t c nf nc df b sf g Xs ys Xt yt H. unfold make_frequencies in H. destruct (choice 15 (nc * nf) None g) as [[l g1]|]; [|discriminate]. cbn [bind fst snd] in H.
  destruct (peak_signals _ _ _ _ _ _ n_s c 3000 _ b sf g1) as [[[X y] g2]|] eqn:E1; [|discriminate]. cbn [bind] in H. destruct (peak_signals _ _ _ _ _ _ n_t c 3000 _ b sf g2) as [[[X' y'] g3]|] eqn:E2; [|discriminate]. cbn [bind] in H. injection H as <- <- <- <-.
  apply C116_labels in E1 as (-> & L1 & _). apply C116_labels in E2 as (-> & L2 & _). rewrite map_length, !rows_of_length in *. auto.
Qed.
  (** A band of noise at a frequency drawn around [f], with some weights; a signal that is the sum of one such band per frequency. *)
  Definition filtered (b sf f : R) (x : list (list R)) : Prop :=
    exists w raw v g g' out, normal1 f (sf * b)%R g = (v, g') /\ bandpass (Rabs (v + 1 / 10 ^ 5)) (Rabs (v + 1 / 10 ^ 5) + b)%R raw = Ok out /\ x = weigh rfft irfft w out.
  Definition superposed (b sf : R) (freqs : list R) (zero x : list (list R)) : Prop := exists parts, Forall2 (filtered b sf) freqs parts /\ x = fold_left (map2 vadd) parts zero.
  Lemma signals_spec f b s w xs g X g' : signals normal1 bandpass rfft irfft f b s w xs g = Ok (X, g') -> forall i, i < length xs -> filtered b s f (nth i X []).
  Proof.
    revert g X g'. induction xs as [|x xs IH]; intros g X g' H i Hi; cbn [signals] in H; [cbn in Hi; lia|]. destruct (one_signal normal1 bandpass rfft irfft f b s w x g) as [[a g1]|] eqn:E1; [|discriminate]. cbn [bind fst snd] in H.
    destruct (signals normal1 bandpass rfft irfft f b s w xs g1) as [[q g2]|] eqn:E; [|discriminate]. cbn [bind fst snd] in H. injection H as <- <-. destruct i as [|i]; [|cbn; eapply IH; eauto; cbn in Hi; lia]. cbn [nth].
    unfold one_signal in E1. destruct (normal1 f (s * b)%R g) as [v g3] eqn:EN. set (u := (v + 1 / 10 ^ 5)%R) in *.
    assert (AB : (if Rltb u 0 then (- u)%R else u) = Rabs u). { unfold Rltb. destruct (Rlt_dec u 0); [now rewrite Rabs_left|rewrite Rabs_pos_eq; lra]. }
    rewrite AB in E1. destruct (bandpass (Rabs u) (Rabs u + b)%R x) as [out|] eqn:EB; [|discriminate]. cbn [bind] in E1. injection E1 as <- <-. exists w, x, v, g, g3, out. auto.
  Qed.
  Lemma class_signals_spec n c s freqs b sf : forall X g X' g', length X = n -> class_signals uniform_half noise3 normal1 bandpass rfft irfft n c s freqs b sf X g = Ok (X', g') -> forall i, i < n -> superposed b sf freqs (nth i X []) (nth i X' []).
  Proof.
    induction freqs as [|f fs IH]; intros X g X' g' L H i Hi; cbn [class_signals] in H; [injection H as <- <-; exists []; split; [constructor|reflexivity]|]. destruct (uniform_half c g) as [w g1]. pose proof (Hnoise3 n c s g1) as LN. destruct (noise3 n c s g1) as [xr g2].
    destruct (signals normal1 bandpass rfft irfft f b sf w xr g2) as [[a g3]|] eqn:E; [|discriminate]. cbn [bind fst snd] in *. pose proof (signals_length _ _ _ _ _ _ _ _ E) as LA. pose proof (signals_spec _ _ _ _ _ _ _ _ E i ltac:(lia)) as FI.
    assert (LM : length (map2 (map2 vadd) X a) = n) by (rewrite map2_length; lia). destruct (IH _ _ _ _ LM H i Hi) as (parts & F & EX). exists (nth i a [] :: parts). split; [constructor; auto|]. cbn [fold_left]. rewrite EX. f_equal.
    assert (N2 : forall (P Q : list (list (list R))) i, i < length P -> i < length Q -> nth i (map2 (map2 vadd) P Q) [] = map2 vadd (nth i P []) (nth i Q [])) by (clear; induction P as [|p P IHP]; intros [|q Q] [|i] H1 H2; cbn in *; try lia; auto; apply IHP; lia).
    apply N2; lia.
  Qed.
  Lemma all_signals_spec n c s b sf : forall freqs k0 g X y g', all_signals uniform_half noise3 normal1 bandpass rfft irfft n c s freqs k0 b sf g = Ok (X, y, g') ->
    forall k i, k < length freqs -> i < n -> superposed b sf (nth k freqs []) (repeat (repeat 0%R s) c) (nth (k * n + i) X []).
  Proof.
    induction freqs as [|f fs IH]; intros k0 g X y g' H k i Hk Hi; [cbn in Hk; lia|]. cbn [all_signals] in H. destruct (class_signals uniform_half noise3 normal1 bandpass rfft irfft n c s f b sf _ g) as [[a g1]|] eqn:E; [|discriminate]. cbn [bind fst snd] in H. destruct (all_signals uniform_half noise3 normal1 bandpass rfft irfft n c s fs (S k0) b sf g1) as [[[X1 y1] g2]|] eqn:E2; [|discriminate]. cbn [bind] in H. injection H as <- <- <-.
    pose proof (class_signals_length _ _ _ _ _ _ _ _ _ _ (repeat_length _ _) E) as LA. destruct k as [|k].
    - cbn [nth Nat.mul Nat.add]. rewrite app_nth1 by lia. pose proof (class_signals_spec _ _ _ _ _ _ _ _ _ _ (repeat_length _ _) E i Hi) as Q. rewrite (nth_indep _ [] (repeat (repeat 0%R s) c)) in Q by (rewrite repeat_length; auto). rewrite nth_repeat in Q. exact Q.
    - cbn [nth]. rewrite app_nth2 by lia. replace (S k * n + i - length a) with (k * n + i) by lia. eapply IH; eauto. cbn in Hk. lia.
  Qed.
  Lemma rows_of_nth m : forall n l k, k < n -> nth k (rows_of m n l) [] = map INR (firstn m (skipn (k * m) l)).
  Proof.
    induction n as [|n IH]; intros l k H; [lia|]. cbn [rows_of]. destruct k as [|k]; [reflexivity|]. cbn [nth]. rewrite IH by lia. do 2 f_equal. cbn [Nat.mul].
    assert (SK : forall (A : Type) a b (q : list A), skipn a (skipn b q) = skipn (b + a) q) by (clear; induction b as [|b IH]; intros q; [reflexivity|]; destruct q; [cbn; apply skipn_nil|]; cbn; apply IH). apply SK.
  Qed.
(** The frequencies of the classes are distinct integers below 15; a source signal of class [k] is a sum of one band of noise per
    frequency of the class, a target signal the same at the frequencies moved by delta_f. *)
Theorem C116_frequencies : forall n_s n_t c nf nc df b sf g Xs ys Xt yt, make_frequencies choice uniform_half noise3 normal1 bandpass rfft irfft n_s n_t c nf nc df b sf g = Ok (Xs, ys, (Xt, yt)) ->
  exists freqs size, length freqs = nc * nf /\ NoDup freqs /\ (forall f, In f freqs -> f < 15) /\
    forall k, k < nc -> let own := firstn nf (skipn (k * nf) freqs) in
      (forall i, i < n_s -> superposed b sf (map INR own) (repeat (repeat 0%R size) c) (nth (k * n_s + i) Xs [])) /\
      (forall i, i < n_t -> superposed b sf (map (fun f => INR f + df)%R own) (repeat (repeat 0%R size) c) (nth (k * n_t + i) Xt [])).
Proof.
  intros n_s n_t c nf nc df b sf g Xs ys Xt yt H. unfold make_frequencies in H. generalize dependent 3000. intros size H. destruct (choice 15 (nc * nf) None g) as [[l g1]|] eqn:EC; [|discriminate]. cbn [bind fst snd] in H.
  destruct (peak_signals _ _ _ _ _ _ n_s c size _ b sf g1) as [[[X y] g2]|] eqn:E1; [|discriminate]. cbn [bind] in H. destruct (peak_signals _ _ _ _ _ _ n_t c size _ b sf g2) as [[[X' y'] g3]|] eqn:E2; [|discriminate]. cbn [bind] in H. injection H as <- <- <- <-.
  destruct (proj1 Hchoice _ _ _ _ _ _ EC) as (L & ND & B). exists l, size. do 3 (split; [auto|]).
  assert (PS : forall n fr g X y g', peak_signals uniform_half noise3 normal1 bandpass rfft irfft n c size fr b sf g = Ok (X, y, g') -> all_signals uniform_half noise3 normal1 bandpass rfft irfft n c size fr 0 b sf g = Ok (X, y, g')) by (intros n [|? ?] g0 Y0 z0 g0' Q; [discriminate|exact Q]).
  apply PS in E1. apply PS in E2. intros k Hk own. split; intros i Hi.
  - pose proof (all_signals_spec _ _ _ _ _ _ _ _ _ _ _ E1 k i ltac:(rewrite rows_of_length; auto) Hi) as Q. now rewrite rows_of_nth in Q by auto.
  - pose proof (all_signals_spec _ _ _ _ _ _ _ _ _ _ _ E2 k i ltac:(rewrite map_length, rows_of_length; auto) Hi) as Q.
    rewrite (nth_indep _ [] (map (fun f => f + df)%R [])) in Q by (rewrite map_length, rows_of_length; auto). rewrite (map_nth (map (fun f => f + df)%R)), rows_of_nth, map_map in Q by auto. exact Q.
Qed.
(** REFUTED: the weight of channel [j] multiplies time step [j] of all channels, not channel [j]. *)
Theorem C116_weights_refuted : forall weights X ch t, (forall r, In r X -> length weights <= length r) -> ch < length X ->
  nth t (nth ch (weigh rfft irfft weights X) []) 0%R = ((if t <? length weights then nth t weights 0 else 1) * nth t (nth ch X []) 0)%R.
Proof.
  intros weights X ch t HL Hc. unfold weigh.
  assert (SC : forall j a X, fold_left (fun X jw => set_col (fst jw) (irfft (vscale (snd jw) (rfft (get_col (fst jw) X)))) X) [(j, a)] X = map (fun r => update j (a * nth j r 0)%R r) X).
  { intros j a Y. cbn [fold_left fst snd]. rewrite Hfft. unfold set_col, get_col, vscale. induction Y as [|r Y IH]; [reflexivity|]. cbn [map map2]. f_equal. exact IH. }
  assert (UPD : forall (r : list R) j v t, nth t (update j v r) 0%R = if (t =? j) && (j <? length r) then v else nth t r 0%R).
  { induction r as [|x r IH]; intros j v u; [replace (j <? length (@nil R)) with false by (symmetry; apply Nat.ltb_ge; cbn; lia); rewrite andb_false_r; destruct j, u; reflexivity|]. destruct j as [|j], u as [|u]; cbn [update nth Nat.eqb length]; try reflexivity. rewrite IH. reflexivity. }
  assert (UL : forall (r : list R) j v, length (update j v r) = length r) by (induction r as [|x r IH]; intros [|j] v; cbn; auto).
  assert (G : forall ws k X, (forall r, In r X -> k + length ws <= length r) -> ch < length X ->
     nth t (nth ch (fold_left (fun X jw => set_col (fst jw) (irfft (vscale (snd jw) (rfft (get_col (fst jw) X)))) X) (combine (seq k (length ws)) ws) X) []) 0%R =
     ((if (k <=? t) && (t <? k + length ws) then nth (t - k) ws 0 else 1) * nth t (nth ch X []) 0)%R).
  { induction ws as [|a ws IH]; intros k Y HY HcY.
    - cbn [length seq combine fold_left]. rewrite Nat.add_0_r. replace ((k <=? t) && (t <? k)) with false by (destruct (Nat.leb_spec k t), (Nat.ltb_spec t k); try reflexivity; lia). ring.
    - cbn [length seq combine]. change ((k, a) :: combine (seq (S k) (length ws)) ws) with ([(k, a)] ++ combine (seq (S k) (length ws)) ws). rewrite fold_left_app, SC. rewrite IH.
      + rewrite (nth_indep _ [] ((fun r => update k (a * nth k r 0)%R r) [])) by (rewrite map_length; auto). rewrite (map_nth (fun r => update k (a * nth k r 0)%R r)). rewrite UPD.
        assert (LK : k < length (nth ch Y [])) by (specialize (HY (nth ch Y []) (nth_In _ _ HcY)); cbn in HY; lia). apply Nat.ltb_lt in LK. rewrite LK, andb_true_r. destruct (Nat.eqb_spec t k) as [->|N].
        * replace (S k <=? k) with false by (symmetry; apply Nat.leb_gt; lia). rewrite Nat.leb_refl. cbn [andb]. replace (k <? k + S (length ws)) with true by (symmetry; apply Nat.ltb_lt; lia). rewrite Nat.sub_diag. cbn [nth]. ring.
        * destruct (Nat.leb_spec (S k) t) as [Q|Q]; cbn [andb].
          -- replace (k <=? t) with true by (symmetry; apply Nat.leb_le; lia). cbn [andb]. replace (S k + length ws) with (k + S (length ws)) by lia. destruct (Nat.ltb_spec t (k + S (length ws))); auto. replace (t - k) with (S (t - S k)) by lia. reflexivity.
          -- replace (k <=? t) with false by (symmetry; apply Nat.leb_gt; lia). reflexivity.
      + intros r Hr. apply in_map_iff in Hr as (q & <- & Hq). rewrite UL. specialize (HY q Hq). cbn in HY. lia.
      + now rewrite map_length. }
  rewrite (G weights 0 X); auto. cbn [Nat.leb Nat.add andb]. now rewrite Nat.sub_0_r.
Qed.
End Signals.

(** ** Examples: a generator that meets all the promises. *)

Definition toy_rand (n : nat) (g : unit) : list R * unit := (repeat (1 / 2)%R n, g).
Definition toy_randn (n : nat) (g : unit) : list (list R) * unit := (map (fun i => [INR i; 1%R]) (seq 0 n), g).
Definition toy_choice (n k : nat) (p : option (list R)) (g : unit) : res (list nat * unit) := if k <=? n then Ok (seq 0 k, g) else Err ValueError.
Definition toy_normal (s : R) (n d : nat) (g : unit) : res (list (list R) * unit) := if Rlt_dec s 0 then Err ValueError else Ok (repeat (repeat s d) n, g).
Definition toy_cluster (c : list R) (n : nat) (g : unit) : list (list R) * unit := (repeat [nth 0 c 0%R; nth 1 c 0%R] n, g).
Definition toy_pdf2 (p : option (list R * list (list R))) (x : list R) : val := lab (length x).
Definition toy_pdf1 (p : option (R * R)) (x : R) : val := lab 1.
Lemma toy_rand_ok : rand_ok toy_rand.
Proof. intros n g. split; [apply repeat_length|]. intros x H. apply repeat_spec in H. lra. Qed.
Lemma toy_randn_ok : randn_ok toy_randn.
Proof. intros n g. split; [cbn; now rewrite map_length, seq_length|]. intros r H. apply in_map_iff in H as (i & <- & _). reflexivity. Qed.
Lemma toy_choice_ok : choice_ok toy_choice.
Proof.
  unfold toy_choice. repeat split.
  - destruct (k <=? n); [|discriminate]. injection H as <- <-. apply seq_length.
  - destruct (k <=? n); [|discriminate]. injection H as <- <-. apply seq_NoDup.
  - destruct (Nat.leb_spec k n); [|discriminate]. injection H as <- <-. intros i I. apply in_seq in I. lia.
  - intros n k g H. apply Nat.leb_le in H. rewrite H. eauto.
  - intros n k g H. apply Nat.leb_gt in H. now rewrite H.
  - intros n k p g H _ _ _. apply Nat.leb_le in H. rewrite H. eauto.
Qed.
Lemma toy_normal_ok : normal_ok toy_normal.
Proof.
  unfold toy_normal. split.
  - intros s n d g X g' H. destruct (Rlt_dec s 0); [discriminate|]. injection H as <- <-. split; [apply repeat_length|]. intros r Hr. apply repeat_spec in Hr as ->. apply repeat_length.
  - intros s n d g H. destruct (Rlt_dec s 0); [lra|eauto].
Qed.
Lemma toy_cluster_ok : cluster_ok toy_cluster.
Proof. intros c n g. split; [apply repeat_length|]. intros r H. apply repeat_spec in H as ->. reflexivity. Qed.
Local Notation MAKE := (make_shifted toy_rand toy_randn toy_choice toy_normal toy_pdf2 toy_pdf1).

(** Three source and one target sample per toy_cluster, target shift with ratio 9/10, noise: 24 and 8 rows; 7 of the 8 target rows of
    class 0. *)
Example C72_example : exists ds X y sd, MAKE 3 1 TargetShift (NReal (1 / 10)) Binary (9 / 10) 1 2 1 [0; 0]%R RDefault false tt = Ok ds /\ packed_xy ds ["s"%string] ["t"%string] true = Ok (PArrays X y sd) /\
  length X = 32 /\ class_size 0 (skipn 24 y) = 7 /\ class_size 1 (skipn 24 y) = 1.
Proof.
  destruct (C72_succeeds toy_rand toy_randn toy_choice toy_normal toy_pdf2 toy_pdf1 toy_rand_ok toy_randn_ok toy_choice_ok toy_normal_ok 3 1 TargetShift (NReal (1 / 10)) Binary (9 / 10) 1 2 1 [0; 0]%R RDefault false tt) as (ds & E).
  { split; [discriminate|]. split; [discriminate|]. split; [intros _; lra|exact I]. } { cbn. lra. } { lia. }
  destruct (C72_target_shift toy_rand toy_randn toy_choice toy_normal toy_pdf2 toy_pdf1 toy_rand_ok toy_randn_ok toy_choice_ok toy_normal_ok 3 1 (NReal (1 / 10)) Binary (9 / 10) 1 2 1 [0; 0]%R RDefault false tt ds (or_introl eq_refl) ltac:(lra) E) as (X & y & sd & k & P & K & _ & Q & B & _).
  destruct (C72_sizes toy_rand toy_randn toy_choice toy_normal toy_pdf2 toy_pdf1 toy_rand_ok toy_randn_ok toy_choice_ok toy_normal_ok _ _ _ _ _ _ _ _ _ _ _ _ _ _ E) as (Xs & ys & Xt & yt & P' & L1 & L2 & L3 & L4 & _). rewrite P in P'. injection P' as -> -> ->.
  exists ds, (Xs ++ Xt), (ys ++ yt), (repeat 1%Z (length Xs) ++ repeat (-2)%Z (length Xt)). split; [exact E|]. split; [exact P|]. rewrite app_length, L1, L3. split; [reflexivity|].
  assert (K7 : k = 7). { cbn [INR] in Q. assert (6 < k) by (apply INR_lt; replace (INR 6) with 6%R by (cbn; ring); lra). assert (k < 8) by (apply INR_lt; replace (INR 8) with 8%R by (cbn; ring); lra). lia. }
  change (8 * 3) with 24 in *. split; [lia|]. rewrite (B eq_refl), K7. reflexivity.
Qed.
(** Multiclass: the five clusters carry five labels; under 'subspace' with one sample per toy_cluster the second class is labelled 0. *)
Example C111_example :
  (exists x y, classif toy_rand toy_randn toy_pdf2 1 RDefault Multiclass tt = Ok (x, y, tt) /\ length x = 8 /\ snd y = map lab [0; 0; 0; 0; 1; 2; 3; 4]) /\
  (exists x y, classif_subspace toy_randn toy_pdf1 1 RDefault Multiclass tt = Ok (x, y, tt) /\ length x = 4 /\ class_size 0 (snd y) = 4).
Proof. split; do 2 eexists; (split; [reflexivity|split; reflexivity]). Qed.
(** Conditional shift: the target is the source draw of this generator, doubled and moved by one. *)
Example C112_example : exists ds Xs Xt y, MAKE 1 1 Conditional NNone Binary (9 / 10) 1 2 1 [0; 0]%R RDefault false tt = Ok ds /\ get_domain ds "s" = Ok (mkDom Xs (Some y)) /\ get_domain ds "t" = Ok (mkDom Xt (Some y)) /\ Xt = map (map (fun a => 2 * a + 1)%R) Xs /\ length Xs = 8.
Proof. do 4 eexists. split; [reflexivity|]. split; [reflexivity|]. split; [reflexivity|]. split; [|reflexivity]. apply map_ext. intros r. apply map_ext. intros a. ring. Qed.
Example C113_example : (exists x g', classif toy_rand toy_randn toy_pdf2 1 (RMatrix [0; 0] [[1; 0]; [0; 1]])%R Regression tt = Ok (x, (YFloat, repeat (lab 2) 8), g') /\ length x = 8) /\
  MAKE 1 1 Subspace NNone Regression (9 / 10) 1 2 1 [0; 0]%R (RScalar 0 1) false tt = Err ValueError.
Proof. split; [do 2 eexists; split; reflexivity|]. apply C113_subspace_refuted. Qed.
Example C114_example : exists ds, make_blobs_shifted toy_normal 2 ([[1; 2]; [3; 4]]%R, [lab 0; lab 1]) (inr [10; 20]%R) NNone tt = Ok ds /\
  packed_xy ds ["s"%string] ["t"%string] true = Ok (PArrays [[1; 2]; [3; 4]; [1 + 10; 2 + 20]; [3 + 10; 4 + 20]]%R [lab 0; lab 1; lab 0; lab 1] [1; 1; -2; -2]%Z).
Proof. eexists. split; reflexivity. Qed.
(** One source position and two target positions. *)
Example C115_example : exists ds sn tn X, make_moons toy_normal toy_cluster 1 1 (NReal (1 / 10)) (inl (1 / 4)%R) (inr [1 / 2; 3 / 4]%R) tt = Ok (ds, sn, tn) /\
  packed_xy ds sn tn true = Ok (PArrays X (map lab [0; 1; 0; 1; 0; 1]) [1; 1; -2; -2; -3; -3]%Z) /\ length X = 6.
Proof.
  destruct (C115_layout toy_normal toy_cluster toy_normal_ok toy_cluster_ok 1 1 (NReal (1 / 10)) (inl (1 / 4)%R) (inr [1 / 2; 3 / 4]%R) tt) as (ds & sn & tn & X & E & P & L).
  - intros p [[<-|[]]|[<-|[<-|[]]]]; lra.
  - cbn. lia.
  - cbn. lra.
  - cbn. lra.
  - exists ds, sn, tn, X. split; [exact E|]. split; [exact P|exact L].
Qed.
(** One channel with three time steps: only the first step is weighted. *)
Example C116_example : nth 0 (weigh (fun x => x) (fun x => x) [1 / 2]%R [[1; 1; 1]]%R) [] = [1 / 2 * 1; 1; 1]%R.
Proof. reflexivity. Qed.
Example C116_example_labels : exists Xs Xt, make_frequencies toy_choice (fun n g => (repeat 1%R n, g)) (fun n c s g => (repeat (repeat (repeat 1%R 2) c) n, g)) (fun f s g => (f, g)) (fun _ _ x => Ok x) (fun x => x) (fun x => x) 2 1 1 1 2 1 1 1 tt
  = Ok (Xs, map lab [0; 0; 1; 1], (Xt, map lab [0; 1])) /\ length Xs = 4 /\ length Xt = 2.
Proof. do 2 eexists. split; [reflexivity|]. split; reflexivity. Qed.
