(** Proofs on the synthetic data sets. *)
From Coq Require Import String List ZArith QArith Bool Arith Lia Reals Lra.
From Verif Require Import Np NpFacts Labels RVec RVecFacts PipeModel DataModel LossSpec LossProofs GenModel GenSpec.
Import ListNotations.
Local Open Scope nat_scope.
Local Open Scope list_scope.

Lemma rect_app d A B : rect d A -> rect d B -> rect d (A ++ B).
Proof. intros H1 H2 r H. apply in_app_or in H as [H|H]; auto. Qed.
Lemma affine_rect a b c d e f X : rect 2 (map (affine a b c d e f) X).
Proof. intros r H. apply in_map_iff in H as (x & <- & _). reflexivity. Qed.
Lemma np_take_ok {A} idx (xs : list A) : (forall i, In i idx -> i < length xs) -> exists ys, np_take idx xs = Ok ys.
Proof. intros H. apply mapM_ok_all. intros i Hi. specialize (H i Hi). destruct (nth_error xs i) eqn:E; eauto. apply nth_error_None in E. lia. Qed.
Lemma np_take_map {A} (d : A) idx xs ys : np_take idx xs = Ok ys -> ys = map (fun i => nth i xs d) idx /\ forall i, In i idx -> i < length xs.
Proof.
  unfold np_take. revert ys. induction idx as [|i idx IH]; intros ys H; cbn in H; [injection H as <-; split; [reflexivity|intros i []]|].
  destruct (nth_error xs i) as [x|] eqn:E; [|discriminate]. cbn in H. destruct (mapM _ idx) as [r|]; [|discriminate]. cbn in H. injection H as <-.
  destruct (IH r eq_refl) as [-> B]. split; [cbn; now rewrite (nth_error_nth _ _ d E)|]. intros j [<-|Hj]; auto. apply nth_error_Some. congruence.
Qed.
Lemma vadd_length u v : length u = length v -> length (vadd u v) = length u.
Proof. intros H. unfold vadd. now rewrite map2_length. Qed.
Lemma map2_vadd_rect d X N : rect d X -> rect d N -> length X = length N -> rect d (map2 vadd X N) /\ length (map2 vadd X N) = length X.
Proof.
  revert N. induction X as [|r X IH]; intros [|n N] H1 H2 L; try discriminate; [split; [intros q []|reflexivity]|]. cbn [map2 length] in *.
  destruct (IH N) as [A B]; [intros q Hq; apply H1; cbn; auto|intros q Hq; apply H2; cbn; auto|lia|]. split; [|lia].
  intros q [<-|Hq]; auto. rewrite vadd_length; [apply H1; cbn; auto|]. rewrite (H1 r), (H2 n); cbn; auto.
Qed.

Section G.
  Context {Gen : Type} (rand : nat -> Gen -> list R * Gen) (randn : nat -> Gen -> list (list R) * Gen)
    (choice : nat -> nat -> option (list R) -> Gen -> res (list nat * Gen)) (normal : R -> nat -> nat -> Gen -> res (list (list R) * Gen))
    (pdf2 : option (list R * list (list R)) -> list R -> val) (pdf1 : option (R * R) -> R -> val).
  Hypotheses (Hrand : rand_ok rand) (Hrandn : randn_ok randn) (Hchoice : choice_ok choice) (Hnormal : normal_ok normal).

  (** The unit disc. *)
  Lemma unif_circle_spec n g x g' : unif_circle rand n g = (x, g') -> length x = n /\ forall r, In r x -> exists u v, r = [u; v] /\ (u * u + v * v <= 1)%R.
  Proof.
    unfold unif_circle. pose proof (Hrand n g) as [L1 _]. destruct (rand n g) as [a g1] eqn:E1. pose proof (Hrand n g1) as [L2 B]. destruct (rand n g1) as [r g2] eqn:E2. cbn [fst] in *.
    intros H. injection H as <- <-. split; [rewrite map2_length; lia|]. clear - B. revert r B. induction a as [|a l IH]; intros [|r rs] B q H; cbn in H; try tauto.
    destruct H as [<-|H]; [|apply (IH rs); auto; intros; apply B; cbn; auto]. do 2 eexists. split; [reflexivity|].
    pose proof (B r (or_introl eq_refl)) as P. replace (_ + _)%R with (sqrt r * sqrt r * (Rsqr (sin (a * 2 * PI)) + Rsqr (cos (a * 2 * PI))))%R by (unfold Rsqr; ring).
    rewrite sin2_cos2, sqrt_sqrt; lra.
  Qed.
  Definition block (n : nat) (mu1 mu2 s11 s12 s21 s22 : R) (B : list (list R)) : Prop := length B = n /\ exists Z, length Z = n /\ B = map (affine s11 s12 s21 s22 mu1 mu2) Z.
  Lemma classif_spec n params label g x y g' : classif rand randn pdf2 n params label g = Ok (x, y, g') ->
    length x = 8 * n /\ length (snd y) = 8 * n /\ rect 2 x /\ exists B0 B1 B2 B3 B4, x = B0 ++ B1 ++ B2 ++ B3 ++ B4 /\ length B0 = 4 * n /\ length B1 = n /\ length B2 = n /\ length B3 = n /\ length B4 = n /\
      (forall r, In r B0 -> exists u v, r = [2 * u - 1 / 2 * v + 2; - 1 / 2 * u + 2 * v + 2]%R /\ (u * u + v * v <= 1)%R) /\
      (label = Binary -> snd y = repeat (lab 0) (length B0) ++ repeat (lab 1) (length (B1 ++ B2 ++ B3 ++ B4))) /\
      (label = Multiclass -> snd y = repeat (lab 0) (length B0) ++ repeat (lab 1) (length B1) ++ repeat (lab 2) (length B2) ++ repeat (lab 3) (length B3) ++ repeat (lab 4) (length B4)).
  Proof.
    unfold classif. destruct (unif_circle rand (n * 4) g) as [x1 g1] eqn:E1. apply unif_circle_spec in E1 as [L1 D].
    pose proof (Hrandn n g1) as [L2 _]. destruct (randn n g1) as [x21 g2]. pose proof (Hrandn n g2) as [L3 _]. destruct (randn n g2) as [x22 g3].
    pose proof (Hrandn n g3) as [L4 _]. destruct (randn n g3) as [x23 g4]. pose proof (Hrandn n g4) as [L5 _]. destruct (randn n g4) as [x24 g5]. cbn [fst] in *.
    set (B0 := map _ x1). set (B1 := map _ x21). set (B2 := map _ x22). set (B3 := map _ x23). set (B4 := map _ x24).
    assert (M0 : length B0 = 4 * n) by (unfold B0; rewrite map_length; lia). assert (M1 : length B1 = n) by (unfold B1; now rewrite map_length). assert (M2 : length B2 = n) by (unfold B2; now rewrite map_length).
    assert (M3 : length B3 = n) by (unfold B3; now rewrite map_length). assert (M4 : length B4 = n) by (unfold B4; now rewrite map_length).
    assert (RX : rect 2 (B0 ++ B1 ++ B2 ++ B3 ++ B4)) by (repeat apply rect_app; apply affine_rect).
    assert (LX : length (B0 ++ B1 ++ B2 ++ B3 ++ B4) = 8 * n) by (rewrite !app_length; lia).
    assert (DX : forall r, In r B0 -> exists u v, r = [2 * u - 1 / 2 * v + 2; - 1 / 2 * u + 2 * v + 2]%R /\ (u * u + v * v <= 1)%R).
    { intros r Hr. unfold B0 in Hr. apply in_map_iff in Hr as (q & <- & Hq). destruct (D q Hq) as (u & v & -> & N). exists u, v. split; auto. unfold affine. cbn [nth]. f_equal; [field|]. f_equal. field. }
    intros H.
    assert (G : exists y', y = y' /\ length (snd y') = 8 * n /\ (label = Binary -> snd y' = repeat (lab 0) (length B0) ++ repeat (lab 1) (length (B1 ++ B2 ++ B3 ++ B4))) /\
      (label = Multiclass -> snd y' = repeat (lab 0) (length B0) ++ repeat (lab 1) (length B1) ++ repeat (lab 2) (length B2) ++ repeat (lab 3) (length B3) ++ repeat (lab 4) (length B4)) /\ x = B0 ++ B1 ++ B2 ++ B3 ++ B4).
    { exists y. destruct label; cbn [bind] in H.
      - injection H as <- <- <-. cbn [snd]. rewrite !app_length, !repeat_length. repeat split; try discriminate; try lia. intros _. rewrite M0, M1, M2, M3, M4. f_equal; f_equal; lia.
      - injection H as <- <- <-. cbn [seq fold_left snd Nat.add]. rewrite !app_length, !repeat_length. repeat split; try discriminate; try lia. intros _. rewrite M0, M1, M2, M3, M4, <- !app_assoc. f_equal; f_equal; lia.
      - destruct params; try discriminate; cbn [bind] in H; injection H as <- <- <-; cbn [snd]; rewrite map_length; repeat split; try discriminate; auto.
      - discriminate. }
    destruct G as (y' & <- & Ly & Gb & Gm & ->). repeat split; auto. exists B0, B1, B2, B3, B4. repeat split; auto.
  Qed.
  Lemma classif_ok n params label g : label <> OtherLabel -> (label = Regression -> match params with RScalar _ _ => False | _ => True end) -> exists r, classif rand randn pdf2 n params label g = Ok r.
  Proof.
    intros H1 H2. unfold classif. destruct (unif_circle rand (n * 4) g) as [x1 g1]. destruct (randn n g1) as [x21 g2]. destruct (randn n g2) as [x22 g3]. destruct (randn n g3) as [x23 g4]. destruct (randn n g4) as [x24 g5].
    destruct label; cbn [bind]; eauto; [|congruence]. specialize (H2 eq_refl). destruct params; cbn [bind]; eauto. destruct H2.
  Qed.
  Lemma subspace_spec n params label g x y g' : classif_subspace randn pdf1 n params label g = Ok (x, y, g') ->
    length x = 4 * n /\ length (snd y) = 4 * n /\ rect 2 x /\ exists B0 B1 B2, x = B0 ++ B1 ++ B2 /\ length B0 = 2 * n /\ length B1 = n /\ length B2 = n /\
      (label = Binary -> snd y = repeat (lab 0) (length B0) ++ repeat (lab 1) (length (B1 ++ B2))) /\
      (label = Multiclass -> let q := 2 * n / 4 in snd y = repeat (lab 0) (2 * n + 2 * n mod 4) ++ repeat (lab 1) q ++ repeat (lab 2) q ++ repeat (lab 3) q ++ repeat (lab 4) q).
  Proof.
    unfold classif_subspace. pose proof (Hrandn (n * 2) g) as [L1 _]. destruct (randn (n * 2) g) as [x1 g1]. pose proof (Hrandn n g1) as [L2 _]. destruct (randn n g1) as [x21 g2]. pose proof (Hrandn n g2) as [L3 _]. destruct (randn n g2) as [x22 g3]. cbn [fst] in *.
    set (B0 := map _ x1). set (B1 := map _ x21). set (B2 := map _ x22).
    assert (M0 : length B0 = 2 * n) by (unfold B0; rewrite map_length; lia). assert (M1 : length B1 = n) by (unfold B1; now rewrite map_length). assert (M2 : length B2 = n) by (unfold B2; now rewrite map_length).
    assert (RX : rect 2 (B0 ++ B1 ++ B2)) by (repeat apply rect_app; apply affine_rect). assert (LX : length (B0 ++ B1 ++ B2) = 4 * n) by (rewrite !app_length; lia).
    replace (2 * n + 2 * n mod 4) with (n * 2 + n * 2 mod 4) by (replace (2 * n) with (n * 2) by lia; reflexivity). replace (2 * n / 4) with (n * 2 / 4) by (replace (2 * n) with (n * 2) by lia; reflexivity).
    pose proof (Nat.div_mod (n * 2) 4 ltac:(lia)) as DM. set (q := n * 2 / 4) in *. set (m := n * 2 mod 4) in *. clearbody q m. intros H.
    assert (G : length (snd y) = 4 * n /\ (label = Binary -> snd y = repeat (lab 0) (length B0) ++ repeat (lab 1) (length (B1 ++ B2))) /\
      (label = Multiclass -> snd y = repeat (lab 0) (n * 2 + m) ++ repeat (lab 1) q ++ repeat (lab 2) q ++ repeat (lab 3) q ++ repeat (lab 4) q) /\ x = B0 ++ B1 ++ B2).
    { destruct label; cbn [bind] in H.
      - injection H as <- <- <-. cbn [snd]. rewrite !app_length, !repeat_length. repeat split; try discriminate; try lia. intros _. rewrite M0, M1, M2. f_equal; f_equal; lia.
      - injection H as <- <- <-. cbn [seq fold_left snd Nat.add]. rewrite !app_length, !repeat_length.
        split; [lia|]. split; [discriminate|]. split; [|reflexivity]. intros _. rewrite <- !app_assoc. reflexivity.
      - destruct params; try discriminate; cbn [bind] in H; injection H as <- <- <-; cbn [snd]; rewrite map_length; repeat split; try discriminate; auto.
      - discriminate. }
    destruct G as (Ly & Gb & Gm & ->). repeat split; auto. exists B0, B1, B2. repeat split; auto.
  Qed.
  Lemma subspace_ok n params label g : label <> OtherLabel -> (label = Regression -> match params with RMatrix _ _ => False | _ => True end) -> exists r, classif_subspace randn pdf1 n params label g = Ok r.
  Proof.
    intros H1 H2. unfold classif_subspace. destruct (randn (n * 2) g) as [x1 g1]. destruct (randn n g1) as [x21 g2]. destruct (randn n g2) as [x22 g3].
    destruct label; cbn [bind]; eauto; [|congruence]. specialize (H2 eq_refl). destruct params; cbn [bind]; eauto. destruct H2.
  Qed.
  (** Noise. *)
  Lemma add_noise_spec d s X g X' g' : rect d X -> add_noise normal d s X g = Ok (X', g') -> length X' = length X /\ rect d X' /\ exists N, length N = length X /\ rect d N /\ X' = map2 vadd X N.
  Proof.
    intros HR H. unfold add_noise in H. destruct (normal s (length X) d g) as [[N g1]|] eqn:E; [|discriminate]. cbn in H. injection H as <- <-. apply (proj1 Hnormal) in E as [L RN].
    destruct (map2_vadd_rect d X N) as [A B]; auto. repeat split; auto. exists N. auto.
  Qed.
  Lemma add_noise_ok d s X g : (0 <= s)%R -> exists r, add_noise normal d s X g = Ok r.
  Proof. intros H. unfold add_noise. destruct (proj2 Hnormal s (length X) d g H) as (r & ->). cbn. eauto. Qed.
  Lemma noisy_spec d noise Xs Xt g Xs' Xt' g' : rect d Xs -> rect d Xt -> noisy normal d noise Xs Xt g = Ok (Xs', Xt', g') ->
    length Xs' = length Xs /\ length Xt' = length Xt /\ rect d Xs' /\ rect d Xt' /\ (noise = NNone -> Xs' = Xs /\ Xt' = Xt).
  Proof.
    intros H1 H2 H. unfold noisy in H. destruct noise as [|s|l].
    - injection H as <- <- <-. repeat split; auto.
    - destruct (add_noise normal d s Xs g) as [[a ga]|] eqn:Ea; [|discriminate]. cbn in H. destruct (add_noise normal d s Xt ga) as [[b gb]|] eqn:Eb; [|discriminate]. cbn in H. injection H as <- <- <-.
      apply add_noise_spec in Ea as (A1 & A2 & _); auto. apply add_noise_spec in Eb as (B1 & B2 & _); auto. repeat split; auto; discriminate.
    - destruct (seq_item l 0) as [s0|]; [|discriminate]. cbn [bind] in H. destruct (add_noise normal d s0 Xs g) as [[a ga]|] eqn:Ea; [|discriminate]. cbn [bind snd fst] in H.
      destruct (seq_item l 1) as [s1|]; [|discriminate]. cbn [bind] in H. destruct (add_noise normal d s1 Xt ga) as [[b gb]|] eqn:Eb; [|discriminate]. cbn [bind snd fst] in H. injection H as <- <- <-.
      apply add_noise_spec in Ea as (A1 & A2 & _); auto. apply add_noise_spec in Eb as (B1 & B2 & _); auto. repeat split; auto; discriminate.
  Qed.
  Lemma noisy_ok d noise Xs Xt g : good_noise noise -> exists r, noisy normal d noise Xs Xt g = Ok r.
  Proof.
    intros H. destruct noise as [|s|l]; cbn in *; eauto.
    - destruct (add_noise_ok d s Xs g H) as ([a ga] & ->). cbn. destruct (add_noise_ok d s Xt ga H) as (r & ->). cbn. eauto.
    - destruct H as (s0 & s1 & r & -> & P0 & P1). cbn. destruct (add_noise_ok d s0 Xs g P0) as ([a ga] & ->). cbn. destruct (add_noise_ok d s1 Xt ga P1) as (q & ->). cbn. eauto.
  Qed.
End G.

(** int() of a number that is not negative is its integral part. *)
Lemma py_int_nonneg x : (0 <= x)%R -> (0 <= py_int x)%Z /\ (IZR (py_int x) <= x < IZR (py_int x) + 1)%R.
Proof.
  intros H. unfold py_int. destruct (Rle_dec 0 x); [|contradiction]. destruct (base_Int_part x) as [A B]. split; [|lra].
  assert (-1 < Int_part x)%Z; [|lia]. apply lt_IZR. lra.
Qed.

(** Packing of the two domains of make_shifted_datasets and make_shifted_blobs. *)
Lemma packed_two Xs ys Xt yt ds rxy : length (snd ys) = length Xs -> length (snd yt) = length Xt ->
  make_dataset [C3 (mkDom Xs (Some ys)) (Some "s"%string); C3 (mkDom Xt (Some yt)) (Some "t"%string)] = Ok ds ->
  packed_xy ds ["s"%string] ["t"%string] rxy = Ok (let X := Xs ++ Xt in let y := snd ys ++ snd yt in let sd := repeat 1%Z (length Xs) ++ repeat (-2)%Z (length Xt) in
     if rxy then PArrays X y sd else PBunch X y sd [("s"%string, 1%Z); ("t"%string, (-2)%Z)]) /\
  get_domain ds "s" = Ok (mkDom Xs (Some ys)) /\ get_domain ds "t" = Ok (mkDom Xt (Some yt)).
Proof.
  intros L1 L2 H. unfold make_dataset in H. cbn in H. injection H as <-. split; [|split; reflexivity]. unfold packed_xy, pack. cbn. rewrite L1, L2. destruct rxy; reflexivity.
Qed.
Lemma make_two_ok Xs ys Xt yt : exists ds, make_dataset [C3 (mkDom Xs (Some ys)) (Some "s"%string); C3 (mkDom Xt (Some yt)) (Some "t"%string)] = Ok ds (A := @dataset (list R)).
Proof. unfold make_dataset. cbn. eauto. Qed.

(** Class counts. *)
Lemma class_size_app k a b : class_size k (a ++ b) = class_size k a + class_size k b.
Proof. unfold class_size. now rewrite filter_app, app_length. Qed.
Lemma class_size_map_const k (f : nat -> val) c idx : (forall i, In i idx -> f i = lab c) -> class_size k (map f idx) = if c =? k then length idx else 0.
Proof.
  intros H. induction idx as [|i idx IH]; [destruct (c =? k); reflexivity|]. cbn [map]. change (f i :: map f idx) with ([f i] ++ map f idx). rewrite class_size_app, IH by (intros; apply H; cbn; auto).
  rewrite (H i (or_introl eq_refl)). unfold class_size, lab, val_eqb_q. cbn [filter length]. destruct (Nat.eqb_spec c k) as [->|N].
  - assert (E : Qeq_bool (inject_Z (Z.of_nat k)) (inject_Z (Z.of_nat k)) = true) by (apply Qeq_bool_iff; reflexivity). rewrite E. reflexivity.
  - destruct (Qeq_bool (inject_Z (Z.of_nat c)) (inject_Z (Z.of_nat k))) eqn:E; [|reflexivity]. apply Qeq_bool_iff in E. unfold Qeq in E. cbn in E. lia.
Qed.
Lemma class_size_repeat k c n : class_size k (repeat (lab c) n) = if c =? k then n else 0.
Proof.
  rewrite <- (seq_length n 0) at 1. replace (repeat (lab c) (length (seq 0 n))) with (map (fun _ : nat => lab c) (seq 0 n)).
  - rewrite (class_size_map_const k (fun _ => lab c) c) by auto. now rewrite seq_length.
  - rewrite seq_length. clear. revert n. assert (G : forall n s, map (fun _ : nat => lab c) (seq s n) = repeat (lab c) n) by (induction n as [|n IH]; intros s; cbn; [reflexivity|now rewrite IH]). intros. apply G.
Qed.
Lemma class_size_zero k (f : nat -> val) idx : (forall i, In i idx -> exists c, f i = lab c /\ c <> k) -> class_size k (map f idx) = 0.
Proof.
  induction idx as [|i idx IH]; intros H; [reflexivity|]. cbn [map]. change (f i :: map f idx) with ([f i] ++ map f idx). rewrite class_size_app, IH by (intros; apply H; cbn; auto).
  destruct (H i (or_introl eq_refl)) as (c & -> & N). pose proof (class_size_map_const k (fun _ => lab c) c [i] ltac:(auto)) as E. cbn [map] in E. rewrite E. apply Nat.eqb_neq in N. now rewrite N.
Qed.

Lemma app_eq_split {A} (a b c d : list A) : a ++ b = c ++ d -> length a = length c -> a = c /\ b = d.
Proof. revert c. induction a as [|x a IH]; intros [|y c] H L; try discriminate; cbn in *; [auto|]. injection H as -> H. destruct (IH c H) as [-> ->]; auto; lia. Qed.
Lemma NoDup_app_intro {A} (a b : list A) : NoDup a -> NoDup b -> (forall x, In x a -> In x b -> False) -> NoDup (a ++ b).
Proof.
  induction a as [|x a IH]; intros H1 H2 H; [auto|]. inversion H1; subst. cbn. constructor.
  - intros I. apply in_app_or in I as [I|I]; [auto|]. apply (H x); cbn; auto.
  - apply IH; auto. intros z Z1 Z2. apply (H z); cbn; auto.
Qed.
(** Moments after standardisation. *)
Lemma standardise_moments X j : rect 2 X -> j < 2 -> X <> [] -> feature_var X j <> 0%R -> feature_mean (map (standardise X) X) j = 0%R /\ feature_var (map (standardise X) X) j = 1%R.
Proof.
  intros HR Hj NE V. assert (N : INR (length X) <> 0%R) by (apply not_0_INR; destruct X; [congruence|discriminate]).
  assert (CM : col_mean X j = feature_mean X j) by (unfold col_mean, feature_mean, mean; now rewrite map_length).
  assert (VP : (0 < feature_var X j)%R). { destruct (Rle_lt_or_eq_dec 0 (feature_var X j)) as [P|P]; auto; [|congruence]. unfold feature_var. apply Rle_mult_inv_pos.
    - apply vsum_nonneg_map. intros r _. apply pow2_ge_0.
    - pose proof (pos_INR (length X)). lra. }
  assert (SD : (col_std X j * col_std X j = feature_var X j)%R).
  { unfold col_std. rewrite CM. assert (Q : mean (map (fun r => ((nth j r 0 - feature_mean X j) * (nth j r 0 - feature_mean X j))%R) X) = feature_var X j). { unfold mean, feature_var. rewrite map_length. f_equal. apply vsum_ext. intros r _. ring. } rewrite Q. apply sqrt_sqrt. lra. }
  assert (S0 : col_std X j <> 0%R) by (intros E; rewrite E in SD; lra).
  assert (EN : forall r, In r X -> nth j (standardise X r) 0%R = ((nth j r 0 - feature_mean X j) / col_std X j)%R).
  { intros r Hr. unfold standardise. match goal with |- nth j (map ?f ?l) 0%R = _ => rewrite (nth_indep (map f l) 0%R (f 0)) by (rewrite map_length, seq_length, (HR r Hr); auto); rewrite (map_nth f), seq_nth by (rewrite (HR r Hr); auto) end. cbn [Nat.add]. now rewrite CM. }
  assert (M0 : feature_mean (map (standardise X) X) j = 0%R).
  { unfold feature_mean at 1. rewrite !map_length, map_map. rewrite (vsum_ext _ (fun r => (/ col_std X j * nth j r 0 + - (feature_mean X j / col_std X j))%R)) by (intros r Hr; rewrite (EN r Hr); field; auto).
    rewrite vsum_plus, vsum_mult. assert (K : forall c, vsum (map (fun _ : list R => c) X) = (INR (length X) * c)%R). { intros c. clear. induction X as [|r X IH]; [cbn; ring|]. cbn [map vsum length]. rewrite IH, S_INR. ring. }
    rewrite K. unfold feature_mean. field. auto. }
  split; auto. unfold feature_var at 1. rewrite M0, !map_length, map_map.
  rewrite (vsum_ext _ (fun r => (/ (col_std X j * col_std X j) * (nth j r 0 - feature_mean X j) ^ 2)%R)) by (intros r Hr; rewrite (EN r Hr); field; auto).
  rewrite vsum_mult, SD. unfold feature_var in *. field. split; auto. intros E. apply V. rewrite E. field. auto.
Qed.
