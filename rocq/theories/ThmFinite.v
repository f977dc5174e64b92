(** C204, C205: when weights and scores are numbers, and when they overflow to infinity and nan. *)
From Coq Require Import List ZArith Bool Arith Lia Reals Lra Psatz.
From Flocq Require Import Core.
From Verif Require Import Np NpFacts RVec RVecFacts FloatModel ThmFloat FiniteModel.
Import ListNotations.
Local Open Scope nat_scope.
Local Notation b2 := (bpow radix2).
#[local] Existing Instance v64.
#[local] Existing Instance p53.

(** ** Specification *)
(** A finite number in a range. *)
Definition between (lo hi : R) (a : xf) : Prop := exists x, a = Fin x /\ (lo <= x <= hi)%R.
Definition size {A} (l : list A) : R := IZR (Z.of_nat (length l)).
(** A kernel largest, with value [M], where the two arguments agree: all kernels of sklearn's KernelDensity. *)
Definition peaked {Row} (M : R) (k : Row -> Row -> R) : Prop := (forall x, k x x = M) /\ forall x z, (0 <= k x z <= M)%R.
(** The Gaussian kernel of bandwidth 1 on the line. *)
Definition gauss (x z : R) : R := (exp (- (x - z) ^ 2 / 2) / sqrt (2 * PI))%R.

(** ** Powers of two and the exponential *)
Lemma ln2_hi : (ln 2 <= 1)%R.
Proof. rewrite <- (ln_exp 1). destruct (Req_dec (exp 1) 2) as [->|N]; [lra|]. left. apply ln_increasing; [lra|]. pose proof (exp_ineq1 1). lra. Qed.
Lemma b2_exp e : b2 e = exp (IZR e * ln 2). Proof. rewrite bpow_exp. reflexivity. Qed.
Lemma exp_mono x y : (x <= y)%R -> (exp x <= exp y)%R. Proof. intros [H| ->]; [left; now apply exp_increasing|lra]. Qed.
Lemma exp_hi x k : (0 <= k)%Z -> (x <= IZR k)%R -> (exp x <= b2 (2 * k))%R.
Proof. intros K H. rewrite b2_exp. apply exp_mono. rewrite mult_IZR. pose proof ln_lt_2. apply IZR_le in K. nra. Qed.
Lemma exp_lo x k : (0 <= k)%Z -> (- IZR k <= x)%R -> (b2 (- (2 * k)) <= exp x)%R.
Proof. intros K H. rewrite b2_exp. apply exp_mono. rewrite opp_IZR, mult_IZR. pose proof ln_lt_2. apply IZR_le in K. nra. Qed.
Lemma exp_big x k : (0 <= k)%Z -> (IZR k <= x)%R -> (b2 k <= exp x)%R.
Proof. intros K H. rewrite b2_exp. apply exp_mono. pose proof ln2_hi. apply IZR_le in K. nra. Qed.
Lemma exp_small x k : (0 <= k)%Z -> (x <= - IZR k)%R -> (exp x <= b2 (- k))%R.
Proof. intros K H. rewrite b2_exp. apply exp_mono. rewrite opp_IZR. pose proof ln2_hi. apply IZR_le in K. nra. Qed.

(** ** Rounding *)
Lemma f64_scaled m e : (Z.abs m < 2 ^ 53)%Z -> (-1074 <= e)%Z -> f64 (IZR m * b2 e) = (IZR m * b2 e)%R.
Proof. intros H He. apply f64_id. apply generic_format_FLT. exists (Float radix2 m e); [reflexivity|exact H|exact He]. Qed.
Lemma f64_b2 e : (-1074 <= e)%Z -> f64 (b2 e) = b2 e.
Proof. intros H. rewrite <- (Rmult_1_l (b2 e)). now apply (f64_scaled 1). Qed.
Lemma f64_0 : f64 0 = 0%R. Proof. apply (f64_int 0). lia. Qed.
Lemma f64_pos x : (0 <= x)%R -> (0 <= f64 x)%R. Proof. intros. rewrite <- f64_0. now apply f64_le. Qed.
Lemma f64_opp x : f64 (- x) = (- f64 x)%R. Proof. unfold f64. apply round_NE_opp. Qed.
Lemma f64_up x y : is_f64 y -> (x <= y)%R -> (f64 x <= y)%R. Proof. intros F H. rewrite <- (f64_id y F). now apply f64_le. Qed.
Lemma f64_dn x y : is_f64 y -> (y <= x)%R -> (y <= f64 x)%R. Proof. intros F H. rewrite <- (f64_id y F). now apply f64_le. Qed.
Lemma b2_is e : (-1074 <= e)%Z -> is_f64 (b2 e). Proof. intros. rewrite <- f64_b2 by auto. apply f64_is. Qed.
Lemma scaled_is m e : (Z.abs m < 2 ^ 53)%Z -> (-1074 <= e)%Z -> is_f64 (IZR m * b2 e). Proof. intros. rewrite <- f64_scaled by auto. apply f64_is. Qed.
(** A rounded positive number is at least half the number. *)
Lemma f64_half x : (0 < f64 x)%R -> (x <= 2 * f64 x)%R.
Proof.
  intros P. destruct (Rle_lt_dec x (2 * f64 x)) as [H|H]; auto. exfalso. assert (F : is_f64 (2 * f64 x)).
  { pose proof (f64_is x) as F. apply FLT_format_generic in F; [|exact p53]. destruct F as [[m e] E Hm He]. cbn in Hm, He. rewrite E.
    apply generic_format_FLT. exists (Float radix2 m (e + 1)); [|exact Hm|cbn; lia]. unfold F2R. cbn [Fnum Fexp]. rewrite bpow_plus. cbn. ring. }
  assert (2 * f64 x <= f64 x)%R by (apply f64_dn; auto; lra). lra.
Qed.
Lemma f64_tiny x : (0 <= x <= b2 (-1076))%R -> f64 x = 0%R.
Proof.
  intros H. destruct (Req_dec (f64 x) 0) as [E|E]; auto. exfalso. assert (P : (0 < f64 x)%R) by (pose proof (f64_pos x); lra).
  assert (L : (b2 (-1074) <= f64 x)%R).
  { pose proof (f64_is x) as F. apply FLT_format_generic in F; [|exact p53]. destruct F as [[m e] Ex Hm He]. rewrite Ex in *. unfold F2R in *. cbn [Fnum Fexp] in *.
    assert (M : (0 < IZR m)%R) by (pose proof (bpow_gt_0 radix2 e); nra). apply lt_IZR in M. assert (M1 : (1 <= IZR m)%R) by (apply IZR_le; lia).
    assert (B : (b2 (-1074) <= b2 e)%R) by now apply bpow_le. pose proof (bpow_gt_0 radix2 e). nra. }
  assert (U : (Rabs (f64 x - x) <= Rabs (0 - x))%R). { pose proof (round_N_pt radix2 (FLT_exp (-1074) 53) (fun z => negb (Z.even z)) x) as (_ & N). apply (N 0%R). apply generic_format_0. }
  assert (T : (b2 (-1074) = 4 * b2 (-1076))%R) by (rewrite (bpow_plus radix2 2 (-1076) : b2 (-1074) = _); cbn; ring).
  pose proof (bpow_gt_0 radix2 (-1076)). rewrite (Rabs_left1 (0 - x)) in U by lra. rewrite Rabs_pos_eq in U by lra. lra.
Qed.
Lemma b2_pos e : (0 < b2 e)%R. Proof. apply bpow_gt_0. Qed.
Lemma b2_lt e e' : (e < e')%Z -> (b2 e < b2 e')%R. Proof. apply bpow_lt. Qed.
Lemma b2_le e e' : (e <= e')%Z -> (b2 e <= b2 e')%R. Proof. apply bpow_le. Qed.
Lemma xround_fin x : (Rabs (f64 x) < b2 1024)%R -> xround x = Fin (f64 x).
Proof.
  intros H. apply Rabs_def2 in H. unfold xround. destruct (Rleb (b2 1024) (f64 x)) eqn:A; [apply Rleb_iff in A; lra|].
  destruct (Rleb (f64 x) (- b2 1024)) eqn:B; [apply Rleb_iff in B; lra|reflexivity].
Qed.
Lemma xround_in lo hi x : is_f64 lo -> is_f64 hi -> (- b2 1000 <= lo)%R -> (hi <= b2 1000)%R -> (lo <= x <= hi)%R ->
  xround x = Fin (f64 x) /\ (lo <= f64 x <= hi)%R /\ is_f64 (f64 x).
Proof.
  intros Fl Fh L U H. assert (G : (lo <= f64 x <= hi)%R) by (split; [apply f64_dn|apply f64_up]; tauto). split; [|split; [exact G|apply f64_is]].
  apply xround_fin. pose proof (b2_lt 1000 1024). apply Rabs_def1; lra || (assert (b2 1000 < b2 1024)%R by (apply b2_lt; lia); lra).
Qed.
Lemma is0 : is_f64 0. Proof. apply generic_format_0. Qed.

(** ** Sums *)
Definition fbetween (lo hi : R) (a : xf) : Prop := exists x, a = Fin x /\ (lo <= x <= hi)%R /\ is_f64 x.
Lemma leaves_ne t : xleaves t <> []. Proof. induction t as [w|a IHa b IHb]; cbn; [discriminate|]. destruct (xleaves a); [contradiction|discriminate]. Qed.
Lemma add_up_bound e t : (-1074 <= e <= 900)%Z -> (Z.of_nat (length (xleaves t)) < 2 ^ 53)%Z -> Forall (fbetween 0 (b2 e)) (xleaves t) ->
  exists s, xadd_up t = Fin s /\ is_f64 s /\ (0 <= s <= size (xleaves t) * b2 e)%R /\ Forall (fun a => exists x, a = Fin x /\ (x <= s)%R) (xleaves t).
Proof.
  intros He. unfold size. induction t as [w|a IHa b IHb]; cbn [xleaves xadd_up]; intros Hn F.
  - inversion F as [|? ? (x & -> & H & Fx) _]; subst. exists x. split; [reflexivity|]. split; [exact Fx|]. split; [cbn; lra|]. constructor; [eexists; split; [reflexivity|lra]|constructor].
  - rewrite app_length in *. rewrite Nat2Z.inj_add in *. apply Forall_app in F as (Fa & Fb).
    destruct IHa as (s & -> & Is & Hs & As); [lia|exact Fa|]. destruct IHb as (r & -> & Ir & Hr & Ar); [lia|exact Fb|]. cbn [xadd].
    set (m := Z.of_nat (length (xleaves a))) in *. set (n := Z.of_nat (length (xleaves b))) in *. assert (0 <= m)%Z by lia. assert (0 <= n)%Z by lia.
    assert (P : (0 <= s + r <= IZR (m + n) * b2 e)%R) by (rewrite plus_IZR; lra).
    assert (U : (IZR (m + n) * b2 e <= b2 1000)%R).
    { replace 1000%Z with (100 + 900)%Z by reflexivity. rewrite bpow_plus. apply Rmult_le_compat; [apply IZR_le; lia|left; apply b2_pos| |apply b2_le; lia].
      rewrite <- (IZR_Zpower radix2) by lia. apply IZR_le. transitivity (2 ^ 53)%Z; [lia|]. apply (Z.pow_le_mono_r 2); lia. }
    destruct (xround_in 0 (IZR (m + n) * b2 e) (s + r)) as (E & G & I); auto using is0.
    { apply scaled_is; lia. } { pose proof (b2_pos 1000). lra. }
    exists (f64 (s + r)). split; [exact E|]. split; [exact I|]. split; [exact G|].
    assert (S1 : (s <= f64 (s + r))%R) by (apply f64_dn; auto; lra). assert (S2 : (r <= f64 (s + r))%R) by (apply f64_dn; auto; lra).
    apply Forall_app; split; (eapply Forall_impl; [|eassumption]); intros z (x & -> & Hx); exists x; (split; [reflexivity|lra]).
Qed.
Lemma sum_bound sum e l : adds_up sum -> l <> [] -> (-1074 <= e <= 900)%Z -> (Z.of_nat (length l) < 2 ^ 53)%Z -> Forall (fbetween 0 (b2 e)) l ->
  exists s, sum l = Fin s /\ is_f64 s /\ (0 <= s <= size l * b2 e)%R /\ Forall (fun a => exists x, a = Fin x /\ (x <= s)%R) l.
Proof. intros A N He Hn F. destruct (A l N) as (t & <- & ->). now apply add_up_bound. Qed.
Lemma size_pos {A} (l : list A) : l <> [] -> (1 <= size l)%R.
Proof. intros H. unfold size. apply IZR_le. destruct l; [contradiction|cbn [length]; lia]. Qed.
Lemma uniform_ok l : l <> [] -> (Z.of_nat (length l) < 2 ^ 53)%Z -> Forall (between 0 1) (uniform l).
Proof.
  intros N H. unfold uniform, count, xdiv. fold (size l). pose proof (size_pos l N) as S. destruct (Reqb (size l) 0) eqn:E; [apply Reqb_iff in E; lra|].
  assert (I : (0 < / size l <= 1)%R). { split; [apply Rinv_0_lt_compat; lra|]. rewrite <- Rinv_1. apply Rinv_le_contravar; lra. }
  destruct (xround_in 0 1 (1 / size l)) as (R1 & R2 & _); [apply is0|apply (b2_is 0); lia| | |unfold Rdiv; lra|].
  { pose proof (b2_pos 1000). lra. } { apply (b2_le 0 1000). lia. }
  apply Forall_forall. intros z Hz. apply in_map_iff in Hz as (y & <- & _). rewrite R1. exists (f64 (1 / size l)). split; auto.
Qed.

(** ** C204: density weights. *)
(** The logarithm of the ratio of the densities is not huge; it may be minus infinity, where the target density vanishes. *)
Definition moderate (d : xf) : Prop := d = NInf \/ exists x, d = Fin x /\ (x <= 300)%R.
Lemma exp_moderate d : moderate d -> fbetween 0 (b2 600) (xexp d).
Proof.
  intros [-> |(x & -> & H)]; cbn [xexp].
  - exists 0%R. split; [reflexivity|]. split; [pose proof (b2_pos 600); lra|apply is0].
  - pose proof (exp_pos x). pose proof (exp_hi x 300 ltac:(lia) H) as U. destruct (xround_in 0 (b2 600) (exp x)) as (E & G & I); auto using is0.
    { apply b2_is. lia. } { pose proof (b2_pos 1000). lra. } { apply b2_le. lia. } { change (2 * 300)%Z with 600%Z in U. lra. }
    exists (f64 (exp x)). auto.
Qed.
Lemma quotient n s w : (1 <= n < b2 53)%R -> is_f64 w -> (0 <= w <= s)%R -> (0 < f64 (s / n))%R -> (0 <= w / f64 (s / n) <= 2 * n)%R.
Proof.
  intros Hn Fw Hw P. pose proof (f64_half _ P) as H. assert (I : (0 < / f64 (s / n))%R) by now apply Rinv_0_lt_compat. split; [apply Rmult_le_pos; lra|].
  apply (Rmult_le_reg_r (f64 (s / n))); auto. unfold Rdiv at 1. rewrite Rmult_assoc, Rinv_l, Rmult_1_r by lra.
  assert (s <= 2 * n * f64 (s / n))%R; [|lra]. replace s with (s / n * n)%R at 1 by (field; lra). nra.
Qed.

Theorem C204_density : forall sum ws wt, adds_up sum -> map2 xsub wt ws <> [] -> (Z.of_nat (length (map2 xsub wt ws)) <= 2 ^ 50)%Z ->
  Forall moderate (map2 xsub wt ws) -> Forall (between 0 (2 * size (map2 xsub wt ws))) (density_x sum ws wt).
Proof.
  intros sum ws wt A N Hn F. unfold density_x. set (d := map2 xsub wt ws) in *. set (w := map xexp d).
  assert (Lw : length w = length d) by apply map_length. assert (Nw : w <> []) by (destruct d; [contradiction|discriminate]).
  assert (Sz : size w = size d) by (unfold size; now rewrite Lw). pose proof (size_pos w Nw) as S1.
  assert (S2 : (size w <= b2 50)%R). { rewrite Sz. unfold size. rewrite <- (IZR_Zpower radix2) by lia. now apply IZR_le. }
  assert (Fw : Forall (fbetween 0 (b2 600)) w). { apply Forall_forall. intros z Hz. apply in_map_iff in Hz as (y & <- & Hy). apply exp_moderate. rewrite Forall_forall in F. auto. }
  destruct (sum_bound sum 600 w A Nw) as (s & Es & Is & Hs & Le); [lia|rewrite Lw; cbn in *; lia|exact Fw|].
  assert (Em : xmean sum w = Fin (f64 (s / size w)) /\ (0 <= f64 (s / size w))%R).
  { unfold xmean, count. fold (size w). rewrite Es. cbn [xdiv]. destruct (Reqb (size w) 0) eqn:E; [apply Reqb_iff in E; lra|].
    assert (Q : (0 <= s / size w <= b2 600)%R). { split; [apply Rmult_le_pos; [lra|left; apply Rinv_0_lt_compat; lra]|].
      apply (Rmult_le_reg_r (size w)); [lra|]. unfold Rdiv. rewrite Rmult_assoc, Rinv_l, Rmult_1_r by lra. lra. }
    destruct (xround_in 0 (b2 600) (s / size w)) as (E1 & G & _); auto using is0; [apply b2_is; lia|pose proof (b2_pos 1000); lra|apply b2_le; lia|]. split; [exact E1|lra]. }
  destruct Em as (-> & M0). cbn [xnonzero]. destruct (Reqb (f64 (s / size w)) 0) eqn:E0; cbn [negb].
  - eapply Forall_impl; [|apply uniform_ok; [exact Nw|rewrite Lw; cbn in *; lia]]. intros a (x & -> & H). exists x. split; auto. rewrite <- Sz. lra.
  - apply Reqb_false in E0. apply Forall_forall. intros z Hz. apply in_map_iff in Hz as (y & <- & Hy).
    rewrite Forall_forall in Fw, Le. destruct (Fw y Hy) as (x & -> & Hx & Ix). destruct (Le _ Hy) as (x' & Ex & Hxs). injection Ex as <-.
    cbn [xdiv]. destruct (Reqb (f64 (s / size w)) 0) eqn:E; [apply Reqb_iff in E; contradiction|].
    assert (Q : (0 <= x / f64 (s / size w) <= 2 * size w)%R). { apply quotient; auto; [|lra|lra]. split; [lra|]. pose proof (b2_lt 50 53 ltac:(lia)). lra. }
    destruct (xround_in 0 (2 * size w) (x / f64 (s / size w))) as (E1 & G & _); auto using is0.
    { rewrite Rmult_comm. rewrite Sz. apply (scaled_is (Z.of_nat (length d)) 1); cbn in *; lia. } { pose proof (b2_pos 1000). lra. }
    { apply Rle_trans with (2 * b2 50)%R; [lra|]. change 2%R with (b2 1). rewrite <- bpow_plus. apply b2_le. lia. }
    rewrite E1, <- Sz. eexists. split; [reflexivity|exact G].
Qed.
Theorem C204_scorer : forall sum ws wt, adds_up sum -> map2 xsub wt ws <> [] -> (Z.of_nat (length (map2 xsub wt ws)) <= 2 ^ 50)%Z ->
  Forall moderate (map2 xsub wt ws) -> Forall (between 0 1) (importance_x sum ws wt).
Proof.
  intros sum ws wt A N Hn F. unfold importance_x. set (d := map2 xsub wt ws) in *. set (w := map xexp d).
  assert (Lw : length w = length d) by apply map_length. assert (Nw : w <> []) by (destruct d; [contradiction|discriminate]).
  assert (Fw : Forall (fbetween 0 (b2 600)) w). { apply Forall_forall. intros z Hz. apply in_map_iff in Hz as (y & <- & Hy). apply exp_moderate. rewrite Forall_forall in F. auto. }
  destruct (sum_bound sum 600 w A Nw) as (s & Es & Is & Hs & Le); [lia|rewrite Lw; cbn in *; lia|exact Fw|].
  rewrite Es. cbn [xnonzero]. destruct (Reqb s 0) eqn:E0; cbn [negb].
  - apply uniform_ok; [exact Nw|rewrite Lw; cbn in *; lia].
  - apply Reqb_false in E0. apply Forall_forall. intros z Hz. apply in_map_iff in Hz as (y & <- & Hy).
    rewrite Forall_forall in Fw, Le. destruct (Fw y Hy) as (x & -> & Hx & Ix). destruct (Le _ Hy) as (x' & Ex & Hxs). injection Ex as <-.
    cbn [xdiv]. destruct (Reqb s 0) eqn:E; [apply Reqb_iff in E; contradiction|]. assert (P : (0 < s)%R) by lra. assert (I := Rinv_0_lt_compat _ P).
    assert (Q : (0 <= x / s <= 1)%R). { split; [apply Rmult_le_pos; lra|]. apply (Rmult_le_reg_r s); auto. unfold Rdiv. rewrite Rmult_assoc, Rinv_l by lra. lra. }
    destruct (xround_in 0 1 (x / s)) as (E1 & G & _); auto using is0; [apply (b2_is 0); lia|pose proof (b2_pos 1000); lra|apply (b2_le 0 1000); lia|].
    rewrite E1. eexists. split; [reflexivity|exact G].
Qed.

(** Kernel density estimates at the samples the source estimate was fitted on: the ratio is at most the number of source samples. *)
Lemma f64_near x : (Rabs x <= IZR (2 ^ 51))%R -> (x - 1 <= f64 x <= x + 1)%R.
Proof.
  intros H. assert (H' := H). assert (D : (- IZR (2 ^ 51) <= x <= IZR (2 ^ 51))%R) by (split; [pose proof (Rle_abs (- x)) as K; rewrite Rabs_Ropp in K; lra|pose proof (Rle_abs x); lra]).
  pose proof (Zfloor_lb x) as L. pose proof (Zfloor_ub x) as U. assert (B : (- 2 ^ 51 - 1 <= Zfloor x <= 2 ^ 51)%Z).
  { split; [apply Zfloor_lub; rewrite minus_IZR, opp_IZR; lra|]. apply le_IZR. lra. }
  split.
  - apply Rle_trans with (IZR (Zfloor x)); [lra|]. apply f64_dn; auto. apply int_f64. cbn in *. lia.
  - apply Rle_trans with (IZR (Zfloor x + 1)); [|rewrite plus_IZR; lra]. apply f64_up; [apply int_f64; cbn in *; lia|rewrite plus_IZR; lra].
Qed.
Lemma vsum_member {Row} (k : Row -> Row -> R) x l : (forall z, (0 <= k x z)%R) -> In x l -> (k x x <= vsum (map (k x) l))%R.
Proof.
  intros P. induction l as [|y l IH]; [intros []|]. cbn [map vsum]. assert (0 <= vsum (map (k x) l))%R by (apply vsum_nonneg, Forall_forall; intros z Hz; apply in_map_iff in Hz as (u & <- & _); auto).
  intros [->|H0]; [lra|]. specialize (IH H0). pose proof (P y). lra.
Qed.
Lemma vsum_at_most {Row} (f : Row -> R) M l : (forall z, (f z <= M)%R) -> (vsum (map f l) <= INR (length l) * M)%R.
Proof. intros H. induction l as [|y l IH]; [cbn; lra|]. cbn [map vsum length]. rewrite S_INR. pose proof (H y). lra. Qed.
Lemma ln_le x y : (0 < x)%R -> (x <= y)%R -> (ln x <= ln y)%R. Proof. intros P [H| ->]; [left; now apply ln_increasing|lra]. Qed.
Lemma INR_IZR l : INR l = IZR (Z.of_nat l). Proof. apply INR_IZR_INZ. Qed.

Lemma kde_moderate {Row} (k : Row -> Row -> R) M sources targets x : peaked M k -> (0 < M)%R -> (Rabs (ln M) <= IZR (2 ^ 50))%R ->
  (Z.of_nat (length sources) <= 2 ^ 50)%Z -> targets <> [] -> In x sources -> moderate (xsub (kde_x k targets x) (kde_x k sources x)).
Proof.
  intros (P1 & P2) M0 HM Hn Ht Hx. assert (Ns : 0 < length sources) by (destruct sources; [destruct Hx|cbn; lia]). assert (Nt : 0 < length targets) by (destruct targets; [contradiction|cbn; lia]).
  apply lt_INR in Ns, Nt. cbn [INR] in Ns, Nt. set (n := INR (length sources)) in *. set (m := INR (length targets)) in *.
  assert (N1 : (1 <= n <= IZR (2 ^ 50))%R). { assert (1 <= Z.of_nat (length sources))%Z by (destruct sources; [destruct Hx|cbn [length]; lia]). unfold n. rewrite INR_IZR. split; apply IZR_le; lia. }
  assert (Ds : (M / n <= kde_density k sources x <= M)%R).
  { unfold kde_density. fold n. pose proof (vsum_member k x sources (fun z => proj1 (P2 x z)) Hx) as L. rewrite P1 in L. pose proof (vsum_at_most (k x) M sources (fun z => proj2 (P2 x z))) as U. fold n in U.
    assert (I : (0 < / n)%R) by (apply Rinv_0_lt_compat; lra). split; [unfold Rdiv; apply Rmult_le_compat_r; lra|]. apply (Rmult_le_reg_r n); [lra|]. unfold Rdiv. rewrite Rmult_assoc, Rinv_l by lra. lra. }
  assert (Dt : (kde_density k targets x <= M)%R).
  { unfold kde_density. fold m. pose proof (vsum_at_most (k x) M targets (fun z => proj2 (P2 x z))) as U. fold m in U. apply (Rmult_le_reg_r m); [lra|]. unfold Rdiv. rewrite Rmult_assoc, Rinv_l by lra. lra. }
  assert (Mn : (0 < M / n)%R) by (apply Rmult_lt_0_compat; [lra|apply Rinv_0_lt_compat; lra]).
  assert (LN : (0 <= ln n <= 50)%R).
  { split; [rewrite <- ln_1; apply ln_le; lra|]. apply Rle_trans with (ln (IZR (2 ^ 50))); [apply ln_le; lra|]. change (IZR (2 ^ 50)) with (IZR (Zpower radix2 50)). rewrite IZR_Zpower by lia. rewrite b2_exp, ln_exp. pose proof ln2_hi. lra. }
  assert (Ls : (ln M - ln n <= ln (kde_density k sources x) <= ln M)%R).
  { split; [|apply ln_le; lra]. apply Rle_trans with (ln (M / n)); [|apply ln_le; lra]. unfold Rdiv. rewrite ln_mult by (try apply Rinv_0_lt_compat; lra). rewrite ln_Rinv by lra. lra. }
  assert (AM : (- IZR (2 ^ 50) <= ln M <= IZR (2 ^ 50))%R) by (split; [pose proof (Rle_abs (- ln M)) as K; rewrite Rabs_Ropp in K; lra|pose proof (Rle_abs (ln M)); lra]).
  assert (C51 : (IZR (2 ^ 51) = 2 * IZR (2 ^ 50))%R) by (rewrite <- mult_IZR; reflexivity). assert (C50 : (50 <= IZR (2 ^ 50))%R) by (apply IZR_le; cbn; lia).
  assert (Ns1 := f64_near (ln (kde_density k sources x))). assert (A1 : (Rabs (ln (kde_density k sources x)) <= IZR (2 ^ 51))%R) by (apply Rabs_le; lra). specialize (Ns1 A1).
  assert (NM := f64_near (ln M)). assert (A2 : (Rabs (ln M) <= IZR (2 ^ 51))%R) by lra. specialize (NM A2).
  assert (Big : (IZR (2 ^ 51) + 1 <= b2 1000)%R). { rewrite <- plus_IZR. rewrite <- (IZR_Zpower radix2) by lia. apply IZR_le. apply Z.leb_le. vm_compute. reflexivity. }
  assert (B12 : (b2 1000 < b2 1024)%R) by (apply b2_lt; lia).
  unfold kde_x at 2. destruct (Rltb 0 (kde_density k sources x)) eqn:E1; [|apply Rltb_false in E1; lra]. rewrite xround_fin by (apply Rabs_def1; lra).
  unfold kde_x. destruct (Rltb 0 (kde_density k targets x)) eqn:E2; [|left; reflexivity]. apply Rltb_iff in E2.
  assert (Lt : (f64 (ln (kde_density k targets x)) <= f64 (ln M))%R) by (apply f64_le, ln_le; lra).
  unfold xround. destruct (Rleb (b2 1024) _) eqn:E3; [apply Rleb_iff in E3; lra|]. destruct (Rleb _ (- b2 1024)) eqn:E4; [left; reflexivity|].
  cbn [xsub xopp xadd]. set (a := f64 (ln (kde_density k targets x))) in *. set (b := f64 (ln (kde_density k sources x))) in *.
  assert (Le : (a + - b <= 52)%R) by lra. assert (Fe : (f64 (a + - b) <= 52)%R) by (apply f64_up; [apply int_f64; cbn; lia|lra]).
  unfold xsub, xopp, xadd, xround. destruct (Rleb (b2 1024) (f64 (a + - b))) eqn:E5; [apply Rleb_iff in E5; pose proof (IZR_le 52 (2 ^ 51) ltac:(cbn; lia)); lra|].
  destruct (Rleb (f64 (a + - b)) (- b2 1024)); [left; reflexivity|]. right. eexists. split; [reflexivity|lra].
Qed.
Lemma map2_map {A B C D} (f : B -> C -> D) (g : A -> B) (h : A -> C) l : map2 f (map g l) (map h l) = map (fun x => f (g x) (h x)) l.
Proof. induction l as [|x l IH]; cbn; [reflexivity|]. f_equal. exact IH. Qed.

Theorem C204_kde : forall Row (k : Row -> Row -> R) M sources targets sum, adds_up sum -> peaked M k -> (0 < M)%R -> (Rabs (ln M) <= IZR (2 ^ 50))%R ->
  sources <> [] -> targets <> [] -> (Z.of_nat (length sources) <= 2 ^ 50)%Z ->
  Forall (between 0 (2 * size sources)) (density_x sum (map (kde_x k sources) sources) (map (kde_x k targets) sources)) /\
  Forall (between 0 1) (importance_x sum (map (kde_x k sources) sources) (map (kde_x k targets) sources)).
Proof.
  intros Row k M sources targets sum A P M0 HM Ns Nt Hn.
  assert (E : map2 xsub (map (kde_x k targets) sources) (map (kde_x k sources) sources) = map (fun x => xsub (kde_x k targets x) (kde_x k sources x)) sources) by apply map2_map.
  assert (F : Forall moderate (map2 xsub (map (kde_x k targets) sources) (map (kde_x k sources) sources))).
  { rewrite E. apply Forall_forall. intros z Hz. apply in_map_iff in Hz as (x & <- & Hx). now apply (kde_moderate k M). }
  assert (L : length (map2 xsub (map (kde_x k targets) sources) (map (kde_x k sources) sources)) = length sources) by (rewrite E; apply map_length).
  assert (N : map2 xsub (map (kde_x k targets) sources) (map (kde_x k sources) sources) <> []) by (intros K; rewrite K in L; destruct sources; [contradiction|discriminate]).
  split; [|now apply C204_scorer; try rewrite L].
  assert (S : size sources = size (map2 xsub (map (kde_x k targets) sources) (map (kde_x k sources) sources))) by (unfold size; now rewrite L).
  rewrite S. apply C204_density; auto. now rewrite L.
Qed.

(** One log ratio beyond the range of exp spoils all the weights: that sample's becomes nan and the others vanish. *)
Lemma add_up_inf t : Forall (fun a => a = PInf \/ exists x, a = Fin x /\ (0 <= x)%R) (xleaves t) ->
  (xadd_up t = PInf \/ exists x, xadd_up t = Fin x /\ (0 <= x)%R) /\ (In PInf (xleaves t) -> xadd_up t = PInf).
Proof.
  induction t as [w|a IHa b IHb]; cbn [xleaves xadd_up]; intros F.
  - inversion F; subst. split; auto. intros [->|[]]. reflexivity.
  - apply Forall_app in F as (Fa & Fb). destruct (IHa Fa) as (Ha & Ia). destruct (IHb Fb) as (Hb & Ib). split.
    + destruct Ha as [->|(x & -> & Hx)], Hb as [->|(y & -> & Hy)]; cbn [xadd]; auto. unfold xround. pose proof (f64_pos (x + y) ltac:(lra)) as G.
      destruct (Rleb (b2 1024) (f64 (x + y))); auto. destruct (Rleb (f64 (x + y)) (- b2 1024)) eqn:E; [apply Rleb_iff in E; pose proof (b2_pos 1024); lra|]. right. eexists. eauto.
    + intros H. apply in_app_iff in H as [H|H].
      * rewrite (Ia H). destruct Hb as [->|(y & -> & Hy)]; reflexivity.
      * rewrite (Ib H). destruct Ha as [->|(y & -> & Hy)]; reflexivity.
Qed.
Lemma exp_kind x : xexp (Fin x) = PInf \/ exists y, xexp (Fin x) = Fin y /\ (0 <= y)%R.
Proof.
  cbn [xexp]. unfold xround. pose proof (f64_pos (exp x) ltac:(left; apply exp_pos)) as G. destruct (Rleb (b2 1024) (f64 (exp x))); auto.
  destruct (Rleb (f64 (exp x)) (- b2 1024)) eqn:E; [apply Rleb_iff in E; pose proof (b2_pos 1024); lra|]. right. eexists. eauto.
Qed.
Lemma exp_over x : (1024 <= x)%R -> xexp (Fin x) = PInf.
Proof.
  intros H. cbn [xexp]. unfold xround. assert (G : (b2 1024 <= f64 (exp x))%R). { apply f64_dn; [apply b2_is; lia|]. apply exp_big; [lia|exact H]. }
  apply Rleb_iff in G. now rewrite G.
Qed.
Theorem C204_overflow : forall sum ws wt, adds_up sum -> Forall (fun d => exists x, d = Fin x) (map2 xsub wt ws) ->
  (exists x, In (Fin x) (map2 xsub wt ws) /\ (1024 <= x)%R) ->
  density_x sum ws wt = map (fun d => match xexp d with PInf => XNan | _ => Fin 0 end) (map2 xsub wt ws) /\ In XNan (density_x sum ws wt) /\
  importance_x sum ws wt = density_x sum ws wt.
Proof.
  intros sum ws wt A F (x & Hx & Bx). set (d := map2 xsub wt ws) in *. set (w := map xexp d).
  assert (Fw : Forall (fun a => a = PInf \/ exists x, a = Fin x /\ (0 <= x)%R) w).
  { apply Forall_forall. intros z Hz. apply in_map_iff in Hz as (y & <- & Hy). rewrite Forall_forall in F. destruct (F y Hy) as (v & ->). apply exp_kind. }
  assert (Iw : In PInf w) by (apply in_map_iff; exists (Fin x); split; auto; now apply exp_over).
  assert (Es : sum w = PInf). { destruct (A w) as (t & <- & ->); [intros K; now rewrite K in Iw|]. now apply add_up_inf. }
  assert (Em : xmean sum w = PInf). { unfold xmean, count. rewrite Es. cbn [xdiv]. destruct (Rleb 0 _) eqn:E; auto. apply Rleb_false in E. pose proof (IZR_le 0 (Z.of_nat (length w)) ltac:(lia)). lra. }
  assert (G : map (fun a => xdiv a PInf) w = map (fun d => match xexp d with PInf => XNan | _ => Fin 0 end) d).
  { unfold w. rewrite map_map. apply map_ext_in. intros a Ha. rewrite Forall_forall in F. destruct (F a Ha) as (v & ->). destruct (exp_kind v) as [->|(y & -> & _)]; reflexivity. }
  assert (D : density_x sum ws wt = map (fun d => match xexp d with PInf => XNan | _ => Fin 0 end) d) by (unfold density_x; fold d; fold w; rewrite Em; exact G).
  split; [exact D|]. split; [|rewrite D; unfold importance_x; fold d; fold w; rewrite Es; exact G].
  rewrite D. apply in_map_iff. exists (Fin x). split; auto. now rewrite (exp_over x Bx).
Qed.

(** The Gaussian kernel. *)
Lemma root_pi : (2 < sqrt (2 * PI) < 3)%R.
Proof.
  pose proof PI2_3_2 as L. pose proof PI_4 as U. assert (L' : (3 < PI)%R) by lra. clear L. split.
  - assert (K : (sqrt (Rsqr 2) < sqrt (2 * PI))%R) by (apply sqrt_lt_1; unfold Rsqr; lra). now rewrite sqrt_Rsqr in K by lra.
  - assert (K : (sqrt (2 * PI) < sqrt (Rsqr 3))%R) by (apply sqrt_lt_1; unfold Rsqr; lra). now rewrite sqrt_Rsqr in K by lra.
Qed.
Lemma gauss_peaked : peaked (/ sqrt (2 * PI)) gauss.
Proof.
  pose proof root_pi. assert (I : (0 < / sqrt (2 * PI))%R) by (apply Rinv_0_lt_compat; lra). split.
  - intros x. unfold gauss. replace (- (x - x) ^ 2 / 2)%R with 0%R by field. rewrite exp_0. unfold Rdiv. ring.
  - intros x z. unfold gauss, Rdiv. pose proof (exp_pos (- (x - z) ^ 2 * / 2)). assert (exp (- (x - z) ^ 2 * / 2) <= 1)%R by (rewrite <- exp_0; apply exp_mono; pose proof (pow2_ge_0 (x - z)); lra). split; [apply Rmult_le_pos; lra|]. nra.
Qed.
Lemma ln_root : (0 < ln (sqrt (2 * PI)) < 2)%R.
Proof.
  pose proof root_pi. split; [rewrite <- ln_1; apply ln_increasing; lra|]. apply Rlt_le_trans with (ln (2 * 2)); [apply ln_increasing; lra|]. rewrite ln_mult by lra. pose proof ln2_hi. lra.
Qed.
Lemma kde_gauss z x : (Rabs (- (x - z) ^ 2 / 2) <= 10000)%R -> exists v, kde_x gauss [z] x = Fin v /\ (- (x - z) ^ 2 / 2 - 3 <= v <= - (x - z) ^ 2 / 2 + 1)%R.
Proof.
  intros H. pose proof ln_root as Lr. pose proof root_pi as Rp. unfold kde_x, kde_density. cbn [map vsum length INR]. unfold gauss.
  set (q := (- (x - z) ^ 2 / 2)%R) in *. clearbody q. unfold Rdiv. rewrite Rplus_0_r, Rinv_1, Rmult_1_r. pose proof (exp_pos q) as Pe. assert (I : (0 < / sqrt (2 * PI))%R) by (apply Rinv_0_lt_compat; lra).
  assert (P : (0 < exp q * / sqrt (2 * PI))%R) by nra. apply Rltb_iff in P. rewrite P. apply Rltb_iff in P.
  rewrite ln_mult, ln_exp, ln_Rinv by lra. set (y := (q + - ln (sqrt (2 * PI)))%R).
  assert (Q : (- 10000 <= q <= 10000)%R) by (split; [pose proof (Rle_abs (- q)) as K; rewrite Rabs_Ropp in K; lra|pose proof (Rle_abs q); lra]).
  assert (C : (20000 <= IZR (2 ^ 51))%R) by (apply IZR_le; cbn; lia). assert (N : (y - 1 <= f64 y <= y + 1)%R) by (apply f64_near, Rabs_le; unfold y; lra).
  assert (Big : (IZR (2 ^ 51) <= b2 1024)%R). { rewrite <- (IZR_Zpower radix2) by lia. apply IZR_le. apply Z.leb_le. vm_compute. reflexivity. }
  exists (f64 y). split; [apply xround_fin, Rabs_def1; unfold y in *; lra|]. unfold y in *. lra.
Qed.
(** Source samples the adapter has not been fitted on: fitted on the source {0} and the target {100}, the weights of the source samples 0 and 70
    are 0 and nan. *)
Theorem C204_new_sample_refuted : forall sum, adds_up sum ->
  density_x sum (map (kde_x gauss [0%R]) [0; 70]%R) (map (kde_x gauss [100%R]) [0; 70]%R) = [Fin 0; XNan].
Proof.
  intros sum A. cbn [map].
  destruct (kde_gauss 0 0) as (a & Ea & Ha); [rewrite Rabs_left1; lra|]. destruct (kde_gauss 0 70) as (b & Eb & Hb); [rewrite Rabs_left1; lra|].
  destruct (kde_gauss 100 0) as (c & Ec & Hc); [rewrite Rabs_left1; lra|]. destruct (kde_gauss 100 70) as (d & Ed & Hd); [rewrite Rabs_left1; lra|].
  rewrite Ea, Eb, Ec, Ed.
  assert (Big : (IZR (2 ^ 51) <= b2 1024)%R). { rewrite <- (IZR_Zpower radix2) by lia. apply IZR_le. apply Z.leb_le. vm_compute. reflexivity. }
  assert (C : (20000 <= IZR (2 ^ 51))%R) by (apply IZR_le; cbn; lia).
  assert (N1 : (c + - a - 1 <= f64 (c + - a) <= c + - a + 1)%R) by (apply f64_near, Rabs_le; lra).
  assert (N2 : (d + - b - 1 <= f64 (d + - b) <= d + - b + 1)%R) by (apply f64_near, Rabs_le; lra).
  assert (E : map2 xsub [Fin c; Fin d] [Fin a; Fin b] = [Fin (f64 (c + - a)); Fin (f64 (d + - b))]).
  { cbn [map2 xsub xopp xadd]. unfold xsub, xopp, xadd. rewrite !xround_fin by (apply Rabs_def1; lra). reflexivity. }
  destruct (C204_overflow sum [Fin a; Fin b] [Fin c; Fin d] A) as (D & _ & _).
  - rewrite E. repeat constructor; eauto.
  - rewrite E. exists (f64 (d + - b)). split; [right; now left|lra].
  - rewrite D, E. cbn [map]. rewrite (exp_over (f64 (d + - b))) by lra. destruct (exp_moderate (Fin (f64 (c + - a)))) as (v & -> & _); [right; eexists; split; [reflexivity|lra]|reflexivity].
Qed.

(** Left to right is an order of additions. *)
Definition left_to_right (l : list xf) : xf := match l with [] => Fin 0 | a :: l' => fold_left xadd l' a end.
Lemma left_adds_up : adds_up left_to_right.
Proof.
  intros l N. destruct l as [|a l]; [contradiction|]. cbn [left_to_right]. clear N.
  assert (G : forall l t, exists t', xleaves t' = xleaves t ++ l /\ fold_left xadd l (xadd_up t) = xadd_up t').
  { clear. induction l as [|b l IH]; intros t; [exists t; now rewrite app_nil_r|]. destruct (IH (XNode t (XLeaf b))) as (t' & E & H). exists t'. split; [rewrite E; cbn [xleaves]; now rewrite <- app_assoc|exact H]. }
  apply (G l (XLeaf a)).
Qed.
(** Three source and two target samples on the line, with the default kernel. *)
Example C204_ex : Forall (between 0 6) (density_x left_to_right (map (kde_x gauss [0; 1; 5]%R) [0; 1; 5]%R) (map (kde_x gauss [4; 100]%R) [0; 1; 5]%R)).
Proof.
  pose proof root_pi. pose proof ln_root. destruct (C204_kde R gauss (/ sqrt (2 * PI)) [0; 1; 5]%R [4; 100]%R left_to_right) as (H1 & _); try discriminate; auto using left_adds_up, gauss_peaked.
  - apply Rinv_0_lt_compat. lra.
  - rewrite ln_Rinv by lra. rewrite Rabs_Ropp, Rabs_pos_eq by lra. pose proof (IZR_le 2 (2 ^ 50) ltac:(cbn; lia)). lra.
Qed.

(** ** C205: the soft neighbourhood density. *)
(** A square matrix of [n] rows. *)
Definition square {A} (n : nat) (P : list (list A)) : Prop := length P = n /\ Forall (fun r => length r = n) P.

Lemma map2_seq_Forall {A B} (f : nat -> A -> B) (Q : B -> Prop) l : forall k, Forall (fun a => forall i, Q (f i a)) l -> Forall Q (map2 f (seq k (length l)) l).
Proof. induction l as [|a l IH]; intros k F; cbn; constructor; inversion F; subst; auto. Qed.
Lemma map2_seq_length {A B} (f : nat -> A -> B) l : forall k, length (map2 f (seq k (length l)) l) = length l.
Proof. induction l as [|a l IH]; intros k; cbn; auto. Qed.
Lemma neg_all (Q : xf -> Prop) A : (forall a, Q a -> Q (xopp a)) -> Forall (Forall Q) A -> Forall (Forall Q) (negate_diagonal A).
Proof.
  intros O F. unfold negate_diagonal. apply map2_seq_Forall. eapply Forall_impl; [|exact F]. intros r Fr i. apply map2_seq_Forall. eapply Forall_impl; [|exact Fr].
  intros a Qa j. cbn beta. destruct (i =? j); auto.
Qed.
Lemma neg_square n (A : list (list xf)) : square n A -> square n (negate_diagonal A).
Proof.
  intros (L & F). split; unfold negate_diagonal; [now rewrite map2_seq_length|]. apply map2_seq_Forall. eapply Forall_impl; [|exact F]. intros r Lr i. now rewrite map2_seq_length.
Qed.
Lemma map_square {A B} n (f : A -> B) P : square n P -> square n (map (map f) P).
Proof. intros (L & F). split; [now rewrite map_length|]. apply Forall_forall. intros r Hr. apply in_map_iff in Hr as (q & <- & Hq). rewrite map_length. rewrite Forall_forall in F. auto. Qed.
Lemma map_map_Forall {A B} (f : A -> B) (Q : A -> Prop) (Q' : B -> Prop) P : (forall a, Q a -> Q' (f a)) -> Forall (Forall Q) P -> Forall (Forall Q') (map (map f) P).
Proof. intros H F. apply Forall_map. eapply Forall_impl; [|exact F]. intros r Fr. apply Forall_map. eapply Forall_impl; [|exact Fr]. exact H. Qed.
Lemma concat_Forall {A} (Q : A -> Prop) (P : list (list A)) : Forall (Forall Q) P -> Forall Q (concat P).
Proof. induction 1; cbn; auto. apply Forall_app. auto. Qed.
Lemma concat_square {A} n (P : list (list A)) : square n P -> length (concat P) = n * n.
Proof. intros (L & F). rewrite <- L at 1. clear L. induction F as [|r P Hr _ IH]; cbn; [reflexivity|]. rewrite app_length, IH, Hr. reflexivity. Qed.

Lemma fold_max l : forall x, (x <= fold_left Rmax l x)%R /\ Forall (fun y => (y <= fold_left Rmax l x)%R) l /\ (fold_left Rmax l x = x \/ In (fold_left Rmax l x) l).
Proof.
  induction l as [|y l IH]; intros x; cbn [fold_left]; [split; [lra|split; auto]|]. destruct (IH (Rmax x y)) as (H1 & H2 & H3). pose proof (Rmax_l x y). pose proof (Rmax_r x y).
  split; [lra|]. split; [constructor; [lra|exact H2]|]. destruct H3 as [->|H3]; [|right; now right]. unfold Rmax. destruct (Rle_dec x y); [right; now left|now left].
Qed.
Lemma largest_spec l : l <> [] -> In (largest l) l /\ Forall (fun y => (y <= largest l)%R) l.
Proof. destruct l as [|x l]; [contradiction|]. intros _. cbn [largest]. destruct (fold_max l x) as (H1 & H2 & H3). split; [destruct H3 as [->|H3]; [now left|now right]|constructor; auto]. Qed.
Lemma xmax_spec B A : concat A <> [] -> Forall (Forall (fbetween (- B) B)) A ->
  exists M, xmax A = Fin M /\ In (Fin M) (concat A) /\ Forall (Forall (fun a => exists x, a = Fin x /\ (- B <= x <= M)%R /\ is_f64 x)) A.
Proof.
  intros N F. apply concat_Forall in F as Fc. set (l := flat_map finite_part (concat A)). assert (In1 : forall x, In x l <-> In (Fin x) (concat A)).
  { intros x. unfold l. rewrite in_flat_map. split.
    - intros (a & Ha & Hx). rewrite Forall_forall in Fc. destruct (Fc a Ha) as (y & -> & _). destruct Hx as [<-|[]]. exact Ha.
    - intros H. exists (Fin x). split; auto. now left. }
  assert (Nl : l <> []). { destruct (concat A) as [|a c] eqn:E; [contradiction|]. inversion Fc as [|? ? (x & -> & _) _]; subst. unfold l. discriminate. }
  destruct (largest_spec l Nl) as (L1 & L2). exists (largest l). split; [reflexivity|]. split; [now apply In1|].
  rewrite Forall_forall in L2. apply Forall_forall. intros r Hr. apply Forall_forall. intros a Ha. assert (Hc : In a (concat A)) by (apply in_concat; eauto).
  rewrite Forall_forall in Fc. destruct (Fc a Hc) as (x & -> & Hx & Ix). exists x. split; [reflexivity|]. split; [|exact Ix]. split; [lra|]. apply L2. now apply In1.
Qed.
Lemma fb_opp B a : fbetween (- B) B a -> fbetween (- B) B (xopp a).
Proof. intros (x & -> & H & I). exists (- x)%R. split; [reflexivity|]. split; [lra|]. now apply generic_format_opp. Qed.

(** The numerators of the softmax: all in [0, 1], the largest one 1. *)
Lemma softmax_top lo k A : (0 <= k <= 900)%Z -> is_f64 lo -> (0 <= lo <= exp (- b2 (k + 1)))%R -> concat A <> [] -> Forall (Forall (fbetween (- b2 k) (b2 k))) A ->
  let E := map (map (fun a => xexp (xsub a (xmax A)))) A in
  exists M, xmax A = Fin M /\ In (Fin M) (concat A) /\ Forall (Forall (fbetween lo 1)) E /\ In (Fin 1) (concat E).
Proof.
  intros Hk Il Hlo N F E. destruct (xmax_spec (b2 k) A N F) as (M & EM & IM & FM). exists M. split; [exact EM|]. split; [exact IM|].
  assert (HM : (- b2 k <= M <= b2 k)%R). { apply concat_Forall in F. rewrite Forall_forall in F. destruct (F _ IM) as (x & Ex & Hx & _). injection Ex as ->. exact Hx. }
  unfold E. rewrite EM. split.
  - eapply map_map_Forall; [|exact FM]. intros a (x & -> & Hx & Ix). cbn [xsub xopp xadd]. unfold xsub, xopp, xadd.
    assert (B1 : (b2 (k + 1) = 2 * b2 k)%R) by (rewrite bpow_plus; cbn; ring). destruct (xround_in (- b2 (k + 1)) 0 (x + - M)) as (-> & G & _).
    { apply generic_format_opp, b2_is. lia. } { apply is0. } { apply Ropp_le_contravar, b2_le. lia. } { left; apply b2_pos. } { lra. }
    cbn [xexp]. pose proof (exp_pos (f64 (x + - M))). destruct (xround_in lo 1 (exp (f64 (x + - M)))) as (-> & G2 & I2).
    { exact Il. } { apply (b2_is 0). lia. } { pose proof (b2_pos 1000). lra. } { apply (b2_le 0 1000). lia. } { split; [apply Rle_trans with (1 := proj2 Hlo), exp_mono; lra|]. rewrite <- exp_0. apply exp_mono. lra. }
    eexists. split; [reflexivity|]. auto.
  - rewrite <- concat_map. apply in_map_iff. exists (Fin M). split; [|exact IM]. unfold xsub, xopp, xadd. rewrite Rplus_opp_r. rewrite xround_fin, f64_0 by (rewrite f64_0, Rabs_R0; apply b2_pos).
    cbn [xexp]. rewrite exp_0. assert (F1 : f64 1 = 1%R) by (apply (f64_int 1); cbn; lia). rewrite xround_fin, F1; [reflexivity|]. rewrite F1, Rabs_R1. apply (b2_lt 0 1024). lia.
Qed.
Lemma small_sum sum n E : adds_up sum -> square n E -> 0 < n -> (Z.of_nat n <= 2 ^ 20)%Z -> Forall (Forall (fbetween 0 1)) E -> In (Fin 1) (concat E) ->
  exists s, sum (concat E) = Fin s /\ (1 <= s <= b2 40)%R.
Proof.
  intros A Sq P Hn F I. pose proof (concat_square n E Sq) as L. assert (Ln : (Z.of_nat (n * n) <= 2 ^ 40)%Z) by (rewrite Nat2Z.inj_mul; replace (2 ^ 40)%Z with (2 ^ 20 * 2 ^ 20)%Z by reflexivity; nia).
  destruct (sum_bound sum 0 (concat E)) as (s & Es & _ & Hs & Le); auto; [intros K; now rewrite K in I|lia|rewrite L; cbn in *; lia|now apply concat_Forall|].
  exists s. split; [exact Es|]. rewrite Forall_forall in Le. destruct (Le _ I) as (x & Ex & Hx). injection Ex as <-. split; [exact Hx|].
  apply Rle_trans with (1 := proj2 Hs). unfold size. rewrite L. change (b2 0) with 1%R. rewrite Rmult_1_r. rewrite <- (IZR_Zpower radix2) by lia. apply IZR_le. exact Ln.
Qed.

Lemma fb_sum_rows sum n e R : adds_up sum -> (Z.of_nat n <= 2 ^ 20)%Z -> 0 < n -> (0 <= e <= 800)%Z -> length R = n -> Forall (fbetween 0 (b2 e)) R -> fbetween 0 (b2 (e + 20)) (sum R).
Proof.
  intros A Hn P He L F. destruct (sum_bound sum e R) as (s & Es & Is & Hs & _); auto; [intros ->; cbn in L; lia|lia|rewrite L; cbn in *; lia|]. exists s. split; [exact Es|]. split; [|exact Is]. split; [lra|].
  apply Rle_trans with (1 := proj2 Hs). rewrite bpow_plus, Rmult_comm. apply Rmult_le_compat_l; [left; apply b2_pos|]. unfold size. rewrite L. rewrite <- (IZR_Zpower radix2) by lia. now apply IZR_le.
Qed.

Theorem C205_number : forall sum sign T n P, adds_up sum -> (sign = 1 \/ sign = -1)%R -> (1 / 100 <= T)%R -> 0 < n -> (Z.of_nat n <= 2 ^ 20)%Z -> square n P ->
  Forall (Forall (fun s => (-2 <= s <= 2)%R)) P -> exists v, snd_score_x sum sign T P = Fin v /\ (0 <= sign * v)%R.
Proof.
  intros sum sign T n P A Hsg HT P0 Hn Sq F. unfold snd_score_x.
  set (D := negate_diagonal (map (map (fun s => xdiv (Fin s) (Fin T))) P)).
  assert (SD : square n D) by now apply neg_square, map_square.
  assert (FD : Forall (Forall (fbetween (- b2 8) (b2 8))) D).
  { apply neg_all; [apply fb_opp|].
    eapply map_map_Forall; [|exact F]. intros s Hs. cbn [xdiv]. destruct (Reqb T 0) eqn:E; [apply Reqb_iff in E; lra|].
    assert (I : (0 < / T <= 100)%R). { split; [apply Rinv_0_lt_compat; lra|]. replace 100%R with (/ (1 / 100))%R by field. apply Rinv_le_contravar; lra. }
    destruct (xround_in (- b2 8) (b2 8) (s / T)) as (-> & G & I2); [apply generic_format_opp, b2_is; lia|apply b2_is; lia| | | |].
    { apply Ropp_le_contravar, b2_le; lia. } { apply b2_le; lia. }
    { cbn. unfold Rdiv. nra. } eexists. split; [reflexivity|]. auto. }
  assert (ND : concat D <> []). { pose proof (concat_square n D SD) as L. intros K. rewrite K in L. cbn [length] in L. nia. }
  destruct (softmax_top (b2 (- 1024)) 8 D) as (M & EM & IM & FE & IE); auto; [lia|apply b2_is; lia| |].
  { split; [left; apply b2_pos|]. apply (exp_lo _ 512); [lia|]. cbn. lra. }
  set (E := map (map (fun a => xexp (xsub a (xmax D)))) D) in *.
  assert (FE0 : Forall (Forall (fbetween 0 1)) E). { eapply Forall_impl; [|exact FE]. intros r Fr. eapply Forall_impl; [|exact Fr]. intros a (x & -> & H & I). exists x. split; [reflexivity|]. split; [pose proof (b2_pos (-1024)); lra|exact I]. }
  assert (SE : square n E) by now apply map_square. destruct (small_sum sum n E A SE P0 Hn FE0 IE) as (s & Es & Hs).
  unfold softmax_x. fold E. set (S := map (map (fun e => xdiv e (sum (concat E)))) E). assert (SS : square n S) by now apply map_square.
  assert (FS : Forall (Forall (fbetween (b2 (-1064)) 1)) S).
  { unfold S. rewrite Es. eapply map_map_Forall; [|exact FE]. intros a (x & -> & Hx & _). cbn [xdiv]. destruct (Reqb s 0) eqn:E1; [apply Reqb_iff in E1; lra|].
    assert (I : (b2 (-40) <= / s <= 1)%R). { split; [|rewrite <- Rinv_1; apply Rinv_le_contravar; lra]. change (b2 (-40)) with (/ b2 40)%R. apply Rinv_le_contravar; [lra|apply Hs]. }
    pose proof (b2_pos (-40)). pose proof (b2_pos (-1024)).
    destruct (xround_in (b2 (-1064)) 1 (x / s)) as (-> & G & I2); [apply b2_is; lia|apply (b2_is 0); lia| | | |].
    { pose proof (b2_pos 1000). pose proof (b2_pos (-1064)). lra. } { apply (b2_le 0 1000). lia. }
    { unfold Rdiv. split; [|nra]. change (-1064)%Z with (-1024 + -40)%Z. rewrite bpow_plus. apply Rmult_le_compat; lra. } eexists. split; [reflexivity|]. auto. }
  assert (FT : Forall (Forall (fbetween 0 (b2 11))) (map (map (fun a => xmul (xopp a) (xlog a))) S)).
  { eapply map_map_Forall; [|exact FS]. intros a (x & -> & Hx & _). pose proof (b2_pos (-1064)). cbn [xlog]. destruct (Rltb 0 x) eqn:E1; [|apply Rltb_false in E1; lra].
    assert (L : (-1064 <= ln x <= 0)%R). { split; [|rewrite <- ln_1; apply ln_le; lra]. apply Rle_trans with (ln (b2 (-1064))); [|apply ln_le; lra]. rewrite b2_exp, ln_exp. pose proof ln2_hi. lra. }
    assert (B1 : (1064 < b2 1000)%R) by (apply Rlt_le_trans with (b2 11); [cbn; lra|apply b2_le; lia]).
    destruct (xround_in (-1064) 0 (ln x)) as (-> & G & _); [apply (int_f64 (-1064)); cbn; lia|apply is0|lra|lra|exact L|]. cbn [xopp xmul].
    destruct (xround_in 0 (b2 11) (- x * f64 (ln x))) as (-> & G2 & I2); [apply is0|apply b2_is; lia|lra|apply b2_le; lia|cbn; nra|]. eexists. split; [reflexivity|]. auto. }
  set (R := map (fun r => sum (map (fun s => xmul (xopp s) (xlog s)) r)) S).
  assert (FR : Forall (fbetween 0 (b2 31)) R).
  { unfold R. apply Forall_map. apply Forall_forall. intros r Hr. apply (fb_sum_rows sum n 11); auto; [lia| |].
    - rewrite map_length. destruct SS as (_ & SS). rewrite Forall_forall in SS. auto.
    - rewrite Forall_forall in FT. apply FT. apply in_map_iff. eauto. }
  assert (LR : length R = n) by (unfold R; rewrite map_length; apply SS).
  destruct (sum_bound sum 31 R) as (t & Et & It & Ht & _); auto; [intros K; rewrite K in LR; cbn in LR; lia|lia|rewrite LR; cbn in *; lia|].
  assert (Z1 : (1 <= size R)%R) by (apply size_pos; intros K; rewrite K in LR; cbn in LR; lia).
  unfold xmean, count. fold (size R). rewrite Et. cbn [xdiv]. destruct (Reqb (size R) 0) eqn:E1; [apply Reqb_iff in E1; lra|].
  assert (Q : (0 <= t / size R <= b2 31)%R). { assert (I : (0 < / size R)%R) by (apply Rinv_0_lt_compat; lra). split; [apply Rmult_le_pos; lra|]. apply (Rmult_le_reg_r (size R)); [lra|]. unfold Rdiv. rewrite Rmult_assoc, Rinv_l by lra. lra. }
  destruct (xround_in 0 (b2 31) (t / size R)) as (-> & G & _); auto using is0; [apply b2_is; lia|pose proof (b2_pos 1000); lra|apply b2_le; lia|].
  cbn [xmul]. pose proof (b2_pos 31). destruct (xround_in (- b2 31) (b2 31) (sign * f64 (t / size R))) as (-> & _ & _); [apply generic_format_opp, b2_is; lia|apply b2_is; lia|apply Ropp_le_contravar, b2_le; lia|apply b2_le; lia|destruct Hsg as [-> | ->]; lra|].
  eexists. split; [reflexivity|]. destruct Hsg as [-> | ->].
  - rewrite !Rmult_1_l. apply f64_pos. lra.
  - replace (-1 * f64 (t / size R))%R with (- f64 (t / size R))%R by ring. rewrite f64_opp. pose proof (f64_pos (f64 (t / size R)) ltac:(lra)). lra.
Qed.

(** A small temperature: the diagonal of the softmax underflows to zero, and zero times the logarithm of zero is nan. *)
Lemma add_up_nan t : In XNan (xleaves t) -> xadd_up t = XNan.
Proof.
  induction t as [w|a IHa b IHb]; cbn [xleaves xadd_up]; [intros [->|[]]; reflexivity|]. intros H. apply in_app_iff in H as [H|H].
  - rewrite (IHa H). reflexivity.
  - rewrite (IHb H). destruct (xadd_up a); reflexivity.
Qed.
Lemma sum_nan sum l : adds_up sum -> In XNan l -> sum l = XNan.
Proof. intros A H. destruct (A l) as (t & <- & ->); [now intros ->|now apply add_up_nan]. Qed.

Theorem C205_nan : forall sum sign T n P, adds_up sum -> (b2 (-800) <= T <= / 1120)%R -> 2 <= n -> (Z.of_nat n <= 2 ^ 20)%Z -> square n P ->
  Forall (Forall (fun s => (0 <= s <= 2)%R)) P -> (99 / 100 <= nth 0 (nth 0 P []) 0)%R -> snd_score_x sum sign T P = XNan.
Proof.
  intros sum sign T n P A HT Hn2 Hn Sq F H0. unfold snd_score_x. pose proof (b2_pos (-800)) as B8.
  set (Q := map (map (fun s => xdiv (Fin s) (Fin T))) P). set (D := negate_diagonal Q).
  assert (SD : square n D) by now apply neg_square, map_square.
  assert (T0 : Reqb T 0 = false) by (apply Reqb_false; lra). assert (IT : (1120 <= / T <= b2 800)%R).
  { split; [rewrite <- (Rinv_inv 1120); apply Rinv_le_contravar; lra|]. rewrite <- (Rinv_inv (b2 800)). apply Rinv_le_contravar; [apply Rinv_0_lt_compat, b2_pos|]. rewrite <- bpow_opp. apply HT. }
  assert (B801 : (b2 801 = 2 * b2 800)%R) by (change 801%Z with (1 + 800)%Z; rewrite bpow_plus; cbn; ring).
  assert (Fq : forall s, (0 <= s <= 2)%R -> xdiv (Fin s) (Fin T) = Fin (f64 (s / T)) /\ (0 <= f64 (s / T) <= b2 801)%R /\ is_f64 (f64 (s / T))).
  { intros s Hs. cbn [xdiv]. rewrite T0. apply xround_in; [apply is0|apply b2_is; lia|pose proof (b2_pos 1000); lra|apply b2_le; lia|]. unfold Rdiv. split; [nra|]. rewrite B801. apply Rmult_le_compat; lra. }
  assert (FD : Forall (Forall (fbetween (- b2 801) (b2 801))) D).
  { apply neg_all; [apply fb_opp|]. eapply map_map_Forall; [|exact F]. intros s Hs. destruct (Fq s Hs) as (-> & G & I). eexists. split; [reflexivity|]. split; [lra|exact I]. }
  assert (ND : concat D <> []). { pose proof (concat_square n D SD) as L. intros K. rewrite K in L. cbn [length] in L. nia. }
  destruct (softmax_top 0 801 D) as (M & EM & IM & FE & IE); auto using is0; [lia|split; [lra|left; apply exp_pos]|].
  set (E := map (map (fun a => xexp (xsub a (xmax D)))) D) in *.
  assert (SE : square n E) by now apply map_square. destruct (small_sum sum n E A SE ltac:(lia) Hn FE IE) as (s & Es & Hs).
  (* the first row *)
  destruct P as [|row P']; [destruct Sq as (L & _); cbn in L; lia|]. destruct Sq as (_ & Lr). inversion Lr as [|? ? Lr0 _]; subst. destruct row as [|a0 [|a1 row]]; cbn [length] in Hn2; try lia.
  cbn [nth] in H0. inversion F as [|? ? Fr _]; subst. inversion Fr as [|? ? Ha0 Fr1]; subst. inversion Fr1 as [|? ? Ha1 _]; subst.
  destruct (Fq a0 Ha0) as (E0 & G0 & I0). destruct (Fq a1 Ha1) as (E1 & G1 & I1).
  assert (HD : exists r0 D', D = (Fin (- f64 (a0 / T)) :: Fin (f64 (a1 / T)) :: r0) :: D').
  { unfold D, Q, negate_diagonal. cbn [map length seq map2]. rewrite E0, E1. cbn [Nat.eqb xopp]. eauto. }
  destruct HD as (r0 & D' & HD).
  assert (M0 : (0 <= M <= b2 801)%R).
  { destruct (xmax_spec (b2 801) D ND FD) as (M' & EM' & IM' & FM). rewrite EM in EM'. injection EM' as <-. rewrite HD in FM. inversion FM as [|? ? Fm _]; subst. inversion Fm as [|? ? _ Fm1]; subst. inversion Fm1 as [|? ? (x & Ex & Hx & _) _]; subst. injection Ex as <-.
    split; [lra|]. apply concat_Forall in FD. rewrite Forall_forall in FD. destruct (FD _ IM) as (x & Ex & Hx' & _). injection Ex as ->. lra. }
  assert (A0 : (1100 <= f64 (a0 / T))%R). { apply f64_dn; [apply (int_f64 1100); cbn; lia|]. unfold Rdiv. nra. }
  assert (X0 : xexp (xsub (Fin (- f64 (a0 / T))) (Fin M)) = Fin 0).
  { unfold xsub, xopp, xadd. destruct (xround_in (- b2 802) (-1100) (- f64 (a0 / T) + - M)) as (-> & G & _).
    { apply generic_format_opp, b2_is. lia. } { apply (int_f64 (-1100)). cbn. lia. } { apply Ropp_le_contravar, b2_le. lia. } { pose proof (b2_pos 1000). lra. }
    { assert (B802 : (b2 802 = 2 * b2 801)%R) by (change 802%Z with (1 + 801)%Z; rewrite bpow_plus; cbn; ring). lra. }
    cbn [xexp]. set (y := f64 (- f64 (a0 / T) + - M)) in *. assert (Ze : f64 (exp y) = 0%R).
    { apply f64_tiny. split; [left; apply exp_pos|]. apply Rle_trans with (b2 (-1100)); [apply (exp_small y 1100); [lia|lra]|apply b2_le; lia]. }
    rewrite xround_fin; rewrite Ze; [reflexivity|]. rewrite Rabs_R0. apply b2_pos. }
  assert (HE : exists r1 E', E = (Fin 0 :: r1) :: E'). { unfold E. rewrite EM. rewrite HD. cbn [map]. rewrite X0. eauto. }
  destruct HE as (r1 & E' & HE). unfold softmax_x. fold E. rewrite Es. rewrite HE. cbn [map].
  assert (Q0 : xdiv (Fin 0) (Fin s) = Fin 0). { cbn [xdiv]. destruct (Reqb s 0) eqn:K; [apply Reqb_iff in K; lra|]. unfold Rdiv. rewrite Rmult_0_l. rewrite xround_fin; rewrite f64_0; [reflexivity|]. rewrite Rabs_R0. apply b2_pos. }
  rewrite Q0. assert (N0 : xmul (xopp (Fin 0)) (xlog (Fin 0)) = XNan).
  { cbn [xlog xopp]. assert (K1 : Rltb 0 0 = false) by (apply Rltb_false; lra). assert (K2 : Reqb 0 0 = true) by now apply Reqb_iff. rewrite K1, K2. cbn [xmul]. unfold inf_times. assert (K3 : Reqb (- 0) 0 = true) by (apply Reqb_iff; ring). now rewrite K3. }
  rewrite N0. rewrite (sum_nan sum (XNan :: _) A) by now left. unfold xmean. rewrite (sum_nan sum (XNan :: _) A) by now left. reflexivity.
Qed.
(** So the score is not a number for every positive temperature. *)
Theorem C205_temperature_refuted : forall sum, adds_up sum -> snd_score_x sum 1 (1 / 2000) [[1; 1]; [1; 1]]%R = XNan.
Proof.
  intros sum A. apply (C205_nan sum 1 (1 / 2000) 2); auto; [|cbn; lia| | |cbn; lra].
  - split; [|lra]. apply Rle_trans with (b2 (-11)); [apply b2_le; lia|cbn; lra].
  - split; [reflexivity|repeat constructor].
  - repeat constructor; lra.
Qed.
(** Two similar and one different prediction at the default temperature. *)
Example C205_ex : exists v, snd_score_x left_to_right 1 (5 / 100) [[1; 9 / 10; 0]; [9 / 10; 1; 0]; [0; 0; 1]]%R = Fin v /\ (0 <= 1 * v)%R.
Proof.
  apply (C205_number left_to_right 1 (5 / 100) 3); auto using left_adds_up; try lra; [cbn; lia| |].
  - split; [reflexivity|repeat constructor].
  - repeat constructor; lra.
Qed.
