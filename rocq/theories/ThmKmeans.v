(** C68 and C107: spherical k-means in terms of angles, through the public methods. *)
From Coq Require Import String List ZArith Bool Arith Lia Reals Lra.
From Verif Require Import Np NpFacts RVec RVecFacts LossModel LossSpec LossProofs ThmLoss CallModel CallSpec CallProofs ThmCall.
Import ListNotations.
Local Open Scope nat_scope.

(** ** Specification *)
Definition len (x : list R) : R := sqrt (vsum (map (fun a => a * a)%R x)).
(** The cosine of the angle between two vectors. *)
Definition cos_angle (x c : list R) : R := (dot x c / (len x * len c))%R.
(** Vectors that do not vanish numerically. *)
Definition far (x : list R) : Prop := (1 / 10 ^ 8 <= len x)%R.
(** Sum over the samples of half of one minus the cosine of the angle to the centre of the label. *)
Definition spread (X cents : list (list R)) (labels : list nat) : R :=
  vsum (map2 (fun x l => (1 - cos_angle x (nth l cents [])) / 2)%R X labels).
(** Directions. *)
Definition direction (x : list R) : list R := map (fun a => a / len x)%R x.
(** No group of directions adds up to a vector that is almost, but not quite, zero. *)
Definition sum_of (d : nat) (rows : list (list R)) : list R := map (fun j => vsum (map (fun r => nth j r 0%R) rows)) (seq 0 d).
Definition clear_groups (d : nat) (X : list (list R)) : Prop :=
  forall mask, length mask = length X -> let v := sum_of d (map snd (filter fst (combine mask (map direction X)))) in len v = 0%R \/ far v.

(** ** Proofs *)
Lemma len_norm x : len x = norm2 x.
Proof. unfold len, norm2. f_equal. induction x as [|a x IH]; [reflexivity|]. cbn [map vsum]. rewrite IH. reflexivity. Qed.
Lemma far_norm x : far x -> (cos_eps <= norm2 x)%R.
Proof. unfold far. rewrite len_norm. auto. Qed.
Lemma cosine_angle x c : far x -> far c -> cosine x c = cos_angle x c.
Proof. intros A B. apply far_norm in A, B. unfold cosine, cos_angle. now rewrite !len_norm, !Rmax_left. Qed.
Lemma direction_normalise x : direction x = normalise x.
Proof. unfold direction, normalise. now rewrite len_norm. Qed.
Lemma normalise_scale x : normalise x = vscale (/ norm2 x) x.
Proof. unfold normalise, vscale. apply map_ext. intros a. unfold Rdiv. ring. Qed.
Lemma normalise_unit x : far x -> unit (normalise x).
Proof.
  intros F. apply far_norm in F. pose proof cos_eps_pos. unfold unit. rewrite normalise_scale, dot_scale_l, dot_scale_r, <- norm_sq. field. lra.
Qed.
Lemma normalise_norm x : far x -> norm2 (normalise x) = 1%R.
Proof. intros F. apply norm2_unit. now apply normalise_unit. Qed.
Lemma normalise_cosine x c : far x -> cosine (normalise x) c = cosine x c.
Proof.
  intros F. pose proof (normalise_norm x F) as N. apply far_norm in F. pose proof cos_eps_pos as P. unfold cosine. rewrite N. rewrite (Rmax_left (norm2 x)) by auto.
  rewrite (Rmax_left 1) by (unfold cos_eps; lra). rewrite normalise_scale, dot_scale_l. pose proof (Rmax_r (norm2 c) cos_eps). field. split; lra.
Qed.
Lemma spread_inertia X cents : Forall far X -> (forall c, In c cents -> far c) -> forall labels, (forall l, In l labels -> l < length cents) ->
  inertia_of X cents labels = spread X cents labels /\ inertia_of (map normalise X) cents labels = spread X cents labels.
Proof.
  intros FX FC. unfold inertia_of, spread. induction FX as [|x X Hx FX IH]; intros labels HL; [split; reflexivity|].
  destruct labels as [|l labels]; [split; reflexivity|]. destruct (IH labels (fun k Hk => HL k (or_intror Hk))) as [I1 I2]. cbn [map map2 vsum]. rewrite I1, I2.
  assert (F : far (nth l cents [])) by (apply FC, nth_In, HL; now left).
  unfold dissim. rewrite (normalise_cosine x _ Hx), (cosine_angle _ _ Hx F). split; f_equal; field.
Qed.
Lemma closest_normalise f X : Forall far X -> kmeans_predict f (map normalise X) = kmeans_predict f X.
Proof.
  intros F. unfold kmeans_predict. induction F as [|x X Hx F IH]; [reflexivity|]. cbn [map mapM]. rewrite IH. now rewrite (C107_predict_scale f x (far_norm x Hx)).
Qed.
Lemma vadd_tab (u v : nat -> R) d : vadd (map u (seq 0 d)) (map v (seq 0 d)) = map (fun j => u j + v j)%R (seq 0 d).
Proof. unfold vadd. generalize 0 as s. induction d as [|d IH]; intros s; [reflexivity|]. cbn [seq map map2]. now rewrite IH. Qed.
Lemma tab_self (r : list R) d : length r = d -> r = map (fun j => nth j r 0%R) (seq 0 d).
Proof.
  intros <-. induction r as [|a r IH]; [reflexivity|]. cbn [length seq map nth]. f_equal. rewrite <- seq_shift, map_map. exact IH.
Qed.
Lemma sum_of_rows d rows : rect d rows -> sum_of d rows = vsum_rows d rows.
Proof.
  intros H. induction rows as [|r rows IH].
  - unfold sum_of, vsum_rows. cbn. generalize 0 as s. induction d as [|d IHd]; intros s; [reflexivity|]. cbn [seq map repeat]. rewrite IHd; [reflexivity|]. intros ? [].
  - change (vsum_rows d (r :: rows)) with (vadd r (vsum_rows d rows)). rewrite <- IH by (intros x Hx; apply H; now right).
    rewrite (tab_self r d) at 2 by (apply H; now left). unfold sum_of. rewrite vadd_tab. reflexivity.
Qed.
Lemma members_rows k labels : forall X, length labels = length X -> members k labels X = map snd (filter fst (combine (map (fun l => l =? k) labels) X)).
Proof.
  unfold members. induction labels as [|l labels IH]; intros [|x X] L; try discriminate L; [reflexivity|]. cbn [combine filter map fst].
  injection L as L. specialize (IH X L). destruct (l =? k); cbn [map snd]; now rewrite IH.
Qed.
Lemma chosen_rect d mask : forall X, rect d X -> rect d (map snd (filter (@fst bool (list R)) (combine mask X))).
Proof.
  intros X H r Hr. apply in_map_iff in Hr as ([b r'] & <- & Hr). apply filter_In in Hr as [Hr _]. apply in_combine_r in Hr. now apply H.
Qed.
Lemma clear_not_tiny d X : rect d X -> clear_groups d X -> not_tiny d (map normalise X).
Proof.
  intros H C labels k L. rewrite map_length in L. rewrite members_rows by now rewrite map_length.
  specialize (C (map (fun l => l =? k) labels)). rewrite map_length in C. specialize (C L). cbn zeta in C.
  replace (map direction X) with (map normalise X) in C by (apply map_ext; intros x; now rewrite direction_normalise).
  rewrite sum_of_rows in C.
  - destruct C as [C|C]; [left; now rewrite <- len_norm|right; now apply far_norm].
  - apply chosen_rect. intros r Hr. apply in_map_iff in Hr as (x & <- & Hx). unfold normalise. rewrite map_length. now apply H.
Qed.

(** ** C107 *)

(** Every sample gets the centre with the smallest angle, the first one on ties. *)
Theorem C107_nearest : forall f X labels, Forall far (f_centers f) -> Forall far X -> kmeans_predict f X = Ok labels -> length labels = length X /\
  forall i x l, nth_error X i = Some x -> nth_error labels i = Some l -> exists c, nth_error (f_centers f) l = Some c /\
    forall j c', nth_error (f_centers f) j = Some c' -> (cos_angle x c' <= cos_angle x c)%R /\ (j < l -> (cos_angle x c' < cos_angle x c)%R).
Proof.
  intros f X labels FC FX H. unfold kmeans_predict in H. destruct (mapM_nth _ _ _ H) as [L P]. split; [auto|]. intros i x l Hx Hl.
  destruct (P i x Hx) as (l' & E & N). rewrite Hl in N. injection N as <-. unfold closest in E. apply np_argmin_spec in E as (B & M & S1). rewrite map_length in B.
  destruct (nth_error (f_centers f) l) as [c|] eqn:Ec; [|apply nth_error_None in Ec; lia]. exists c. split; [reflexivity|].
  assert (Fx : far x) by (apply nth_error_In in Hx; rewrite Forall_forall in FX; auto).
  assert (D : forall j c', nth_error (f_centers f) j = Some c' -> nth j (map (dissim x) (f_centers f)) 0%R = (1 / 2 * (1 - cos_angle x c'))%R).
  { intros j c' Hj. rewrite (nth_indep _ 0%R (dissim x [])) by (rewrite map_length; apply nth_error_Some; congruence). rewrite map_nth. rewrite (nth_error_nth _ _ [] Hj).
    unfold dissim. rewrite cosine_angle; auto. apply nth_error_In in Hj. rewrite Forall_forall in FC; auto. }
  intros j c' Hj. split.
  - specialize (M j). rewrite map_length in M. assert (j < length (f_centers f)) by (apply nth_error_Some; congruence). specialize (M ltac:(assumption)).
    rewrite (D _ _ Hj), (D _ _ Ec) in M. lra.
  - intros Hjl. specialize (S1 j Hjl). rewrite (D _ _ Hj), (D _ _ Ec) in S1. lra.
Qed.

(** When the fit converged, inertia_ is the spread of the samples around the centres predict gives them, and no other assignment has a smaller one. *)
Theorem C107_inertia_value : forall K d max_iter tol X c0 inits f, Forall far X -> Forall far (f_centers f) ->
  kmeans_fit K d max_iter tol X (Some c0) inits = Ok f -> f_n_iter f < max_iter ->
  exists labels, kmeans_predict f X = Ok labels /\ f_inertia f = spread X (f_centers f) labels /\
    forall other, length other = length X -> (forall l, In l other -> l < length (f_centers f)) -> (f_inertia f <= spread X (f_centers f) other)%R.
Proof.
  intros K d max_iter tol X c0 inits f FX FC H L. destruct (C107_inertia_converged _ _ _ _ _ _ _ _ H L) as (labels & P & I). rewrite Forall_forall in FC.
  rewrite closest_normalise in P by auto. exists labels. split; [exact P|]. destruct (closest_labels _ _ _ P) as (A & B & M).
  rewrite I. rewrite (proj2 (spread_inertia X _ FX FC labels B)). split; [reflexivity|]. intros other LO BO.
  rewrite <- (proj1 (spread_inertia X _ FX FC labels B)), <- (proj1 (spread_inertia X _ FX FC other BO)). now apply M.
Qed.

(** inertia_ is never larger than the spread around the initial centres, however the samples are assigned to them. *)
Theorem C107_never_worse : forall K d max_iter tol X c0 inits f, 1 <= max_iter -> rect d X -> rect d c0 -> length c0 <= K -> Forall far X -> Forall far c0 -> clear_groups d X ->
  kmeans_fit K d max_iter tol X (Some c0) inits = Ok f ->
  forall labels, length labels = length X -> (forall l, In l labels -> l < length c0) -> (f_inertia f <= spread X c0 labels)%R.
Proof.
  intros K d max_iter tol X c0 inits f HM HX HC HK FX FC CG H labels LL BL. unfold kmeans_fit in H.
  destruct (run_single K d max_iter tol (map normalise X) c0) as [[[i c] n]|] eqn:E; [|discriminate]. injection H as <-. cbn [f_inertia].
  destruct (C107_descent K d max_iter tol (map normalise X) c0 i c n) as (l0 & P & D); auto.
  - intros r Hr. apply in_map_iff in Hr as (x & <- & Hx). unfold normalise. rewrite map_length. now apply HX.
  - intros x Hx. apply in_map_iff in Hx as (y & <- & Hy). apply normalise_unit. rewrite Forall_forall in FX. auto.
  - now apply clear_not_tiny.
  - destruct (closest_labels _ _ _ P) as (A & B & M). rewrite Forall_forall in FC. rewrite <- (proj2 (spread_inertia X c0 FX FC labels BL)).
    eapply Rle_trans; [exact D|]. apply M; [now rewrite map_length|auto].
Qed.

(** ** C68: with several initialisations, fit gives what it would give with the best of them, the first one on ties. *)
Theorem C68_best_initialisation : forall K d max_iter tol X inits f, kmeans_fit K d max_iter tol X None inits = Ok f ->
  exists i c0, nth_error inits i = Some c0 /\ kmeans_fit K d max_iter tol X (Some c0) [] = Ok f /\
    forall j cj, nth_error inits j = Some cj -> exists fj, kmeans_fit K d max_iter tol X (Some cj) [] = Ok fj /\ (f_inertia f <= f_inertia fj)%R /\ (j < i -> (f_inertia f < f_inertia fj)%R).
Proof.
  intros K d max_iter tol X inits f H. apply C68_best_run in H as (runs & i & c & n & M & N & -> & En & B). destruct (mapM_nth _ _ _ M) as [L P].
  assert (G : forall j cj, nth_error inits j = Some cj -> exists ij cc nj, nth_error runs j = Some (ij, cc, nj) /\ kmeans_fit K d max_iter tol X (Some cj) [] = Ok (mkFit ij cc (nj + 1))).
  { intros j cj Hj. destruct (P j cj Hj) as ([[ij cc] nj] & E & Nj). exists ij, cc, nj. split; [auto|]. unfold kmeans_fit. rewrite E. reflexivity. }
  destruct (nth_error inits i) as [c0|] eqn:I.
  - exists i, c0. split; [auto|]. destruct (G i c0 I) as (ij & cc & nj & E & F). rewrite N in E. injection E as <- <- <-. split.
    + rewrite F. f_equal. destruct f as [fi fc fn]. cbn in *. now rewrite En.
    + intros j cj Hj. destruct (G j cj Hj) as (i' & c' & n' & E' & F'). eexists. split; [exact F'|]. cbn [f_inertia]. exact (B j _ _ _ E').
  - apply nth_error_None in I. assert (i < length runs) by (apply nth_error_Some; congruence). lia.
Qed.

(** Two samples and one centre. *)
Example C107_angles_ex : far [3; 4]%R /\ cos_angle [3; 4]%R [1; 0]%R = (3 / 5)%R /\
  exists labels, kmeans_predict (mkFit 0 [[0; 2]; [1; 0]]%R 1) [[3; 4]]%R = Ok labels /\ labels = [0].
Proof.
  assert (L : len [3; 4]%R = 5%R). { unfold len. cbn. replace (3 * 3 + (4 * 4 + 0))%R with (5 * 5)%R by ring. apply sqrt_square. lra. }
  assert (L1 : len [1; 0]%R = 1%R). { unfold len. cbn. replace (1 * 1 + (0 * 0 + 0))%R with 1%R by ring. apply sqrt_1. }
  assert (L2 : len [0; 2]%R = 2%R). { unfold len. cbn. replace (0 * 0 + (2 * 2 + 0))%R with (2 * 2)%R by ring. apply sqrt_square. lra. }
  assert (F : far [3; 4]%R) by (unfold far; rewrite L; lra).
  split; [exact F|]. split; [unfold cos_angle; rewrite L, L1; unfold dot; cbn; field|]. exists [0]. split; [|reflexivity].
  unfold kmeans_predict. cbn [f_centers mapM]. unfold closest. cbn [map]. rewrite argmin2; [reflexivity|]. unfold dissim.
  rewrite !cosine_angle by (auto; unfold far; rewrite ?L1, ?L2; lra). unfold cos_angle. rewrite L, L1, L2. unfold dot. cbn. lra.
Qed.
Example C107_never_worse_ex : rect 2 [[3; 4]]%R /\ Forall far [[3; 4]]%R /\ Forall far [[0; 2]; [1; 0]]%R /\ clear_groups 2 [[3; 4]]%R /\
  spread [[3; 4]]%R [[0; 2]; [1; 0]]%R [0] = (1 / 10)%R.
Proof.
  assert (L : len [3; 4]%R = 5%R). { unfold len. cbn. replace (3 * 3 + (4 * 4 + 0))%R with (5 * 5)%R by ring. apply sqrt_square. lra. }
  assert (L1 : len [1; 0]%R = 1%R). { unfold len. cbn. replace (1 * 1 + (0 * 0 + 0))%R with 1%R by ring. apply sqrt_1. }
  assert (L2 : len [0; 2]%R = 2%R). { unfold len. cbn. replace (0 * 0 + (2 * 2 + 0))%R with (2 * 2)%R by ring. apply sqrt_square. lra. }
  split; [intros r [<-|[]]; reflexivity|]. split; [repeat constructor; unfold far; rewrite L; lra|]. split; [repeat constructor; unfold far; rewrite ?L1, ?L2; lra|]. split.
  - intros mask LM. destruct mask as [|b [|]]; try discriminate LM. cbn zeta. destruct b; cbn [map combine filter fst snd].
    + right. unfold far, direction. rewrite L. unfold sum_of, len. cbn. replace ((3 / 5 + 0) * (3 / 5 + 0) + ((4 / 5 + 0) * (4 / 5 + 0) + 0))%R with 1%R by field. rewrite sqrt_1. lra.
    + left. unfold sum_of, len. cbn. replace (0 * 0 + (0 * 0 + 0))%R with 0%R by ring. apply sqrt_0.
  - unfold spread. cbn [map2 vsum nth]. unfold cos_angle. rewrite L, L2. unfold dot. cbn. field.
Qed.
