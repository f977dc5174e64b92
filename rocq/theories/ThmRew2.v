(** Theorems C153 and C154. *)
From Coq Require Import List ZArith Bool Arith Lia Reals Lra Permutation.
From Verif Require Import Np NpFacts Labels Spec SpecFacts UtilsModel UtilsSpec UtilsProofs UtilsProofs2 SelectModel
  RVec RVecFacts FWModel FWSpec FWProofs ThmFW ReweightModel ReweightSpec ReweightProofs ReweightProofs2 ThmReweight Rew2Model Rew2Spec.
Import ListNotations.
Local Open Scope nat_scope.

(** ** C153 *)
Lemma sizes_sum r q k : list_sum (map (fun i => if i <? r then S q else q) (seq 0 k)) = k * q + Nat.min r k.
Proof.
  induction k as [|k IH]; [simpl; lia|]. rewrite seq_S, map_app, list_sum_app, IH. cbn [map list_sum fold_right plus].
  destruct (Nat.ltb_spec k r); lia.
Qed.

Lemma fold_from_tests n sizes : forall start, start + list_sum sizes = n -> concat (map snd (fold_from n start sizes)) = seq start (n - start).
Proof.
  induction sizes as [|s sizes IH]; intros start H; cbn [fold_from map concat snd].
  - cbn in H. replace (n - start) with 0 by lia. reflexivity.
  - cbn [list_sum fold_right] in H. fold (list_sum sizes) in H. rewrite IH by lia.
    replace (n - start) with (s + (n - (start + s))) by lia. now rewrite seq_app.
Qed.

Lemma fold_from_train n sizes : forall start, start + list_sum sizes = n ->
  Forall (fun f => Permutation (fst f ++ snd f) (seq 0 n)) (fold_from n start sizes).
Proof.
  induction sizes as [|s sizes IH]; intros start H; cbn [fold_from]; constructor.
  - cbn [list_sum fold_right] in H. fold (list_sum sizes) in H. cbn [fst snd].
    replace (seq 0 n) with (seq 0 (start + (s + (n - (start + s))))) by (f_equal; lia).
    rewrite !seq_app. cbn [plus]. rewrite <- app_assoc. apply Permutation_app_head. apply Permutation_app_comm.
  - apply IH. cbn [list_sum fold_right] in H. fold (list_sum sizes) in H. lia.
Qed.

Lemma fold_from_sizes n sizes : forall start, map (fun f => length (snd f)) (fold_from n start sizes) = sizes.
Proof. induction sizes as [|s sizes IH]; intros start; cbn [fold_from map snd]; [reflexivity|]. now rewrite seq_length, IH. Qed.

Lemma fold_from_length n sizes start : length (fold_from n start sizes) = length sizes.
Proof. rewrite <- (fold_from_sizes n sizes start) at 2. now rewrite map_length. Qed.

Theorem C153_folds : forall n k,
  (2 <= k <= n -> exists folds, kfold n k = Ok folds /\ k_fold_split n k folds) /\
  (~ 2 <= k <= n -> kfold n k = Err ValueError).
Proof.
  intros n k. split; intros H; unfold kfold.
  - destruct (Nat.leb_spec k 1); [lia|]. destruct (Nat.ltb_spec n k); [lia|].
    eexists. split; [reflexivity|].
    set (sizes := map _ _).
    assert (S : 0 + list_sum sizes = n).
    { unfold sizes. rewrite sizes_sum. pose proof (Nat.mod_upper_bound n k). pose proof (Nat.div_mod n k).
      rewrite Nat.min_l by lia. lia. }
    split; [rewrite fold_from_length; unfold sizes; now rewrite map_length, seq_length|].
    split; [rewrite fold_from_tests by assumption; now rewrite Nat.sub_0_r|].
    split; [now apply fold_from_train|].
    apply Forall_forall. intros f Hf. apply (in_map (fun f => length (snd f))) in Hf. rewrite fold_from_sizes in Hf.
    unfold sizes in Hf. apply in_map_iff in Hf as (i & E & _). rewrite <- E. destruct (i <? n mod k); auto.
  - destruct (Nat.leb_spec k 1); [reflexivity|]. destruct (Nat.ltb_spec n k); [reflexivity|]. lia.
Qed.

(** The likelihood of one fold: the centres are training samples, the mean is over the samples held out. *)
Definition fold_score {Row} kern choose nc mi tol (g : R) (Xs Xt : list Row) (j : nat) (fold : list nat * list nat) (v : R) : Prop :=
  exists train test alpha centers, rows_at (fst fold) Xt train /\ rows_at (snd fold) Xt test /\
    kliep_optim Row (kern g) (choose g j) nc tol mi Xs train = Ok (alpha, centers) /\ incl centers train /\
    v = mean_over (fun x => ln (kernel_sum (kern g) alpha centers x + EPS)) test.

Lemma np_take_incl {A} idx (X Y : list A) : np_take idx X = Ok Y -> incl Y X.
Proof.
  intros H y Hy. apply np_take_ok_iff in H. induction H as [|i z idx ys Hz F IH]; [easy|].
  destruct Hy as [<-|Hy]; [now apply nth_error_In in Hz|auto].
Qed.

Lemma kliep_centres {Row} kern choice nc tol mi (Xs Xt : list Row) a c :
  kliep_optim Row kern choice nc tol mi Xs Xt = Ok (a, c) -> incl c Xt.
Proof.
  intros H. unfold kliep_optim in H. apply bind_ok in H as [cs [Hc H]]. apply bind_ok in H as [m [_ H]].
  apply bind_ok in H as [al [_ H]]. injection H as _ <-. now apply np_take_incl in Hc.
Qed.

Lemma mean_mean_over {A} (f : A -> R) l : mean (map f l) = mean_over f l.
Proof.
  unfold mean, mean_over. rewrite map_length. f_equal. induction l as [|a l IH]; [reflexivity|]. cbn. now rewrite <- IH.
Qed.

Lemma dot_kernel_sum {Row} (kern : Row -> Row -> R) alpha : forall centers x, dot (map (kern x) centers) alpha = kernel_sum kern alpha centers x.
Proof.
  induction alpha as [|a al IH]; intros [|c cs] x; try reflexivity.
  cbn [map]. rewrite dot_cons, IH. reflexivity.
Qed.

Lemma fold_lik_spec {Row} kern choose nc mi tol g (Xs Xt : list Row) j fold v :
  fold_lik kern choose nc mi tol g Xs Xt j fold = Ok v -> fold_score kern choose nc mi tol g Xs Xt j fold v.
Proof.
  intros H. unfold fold_lik in H. apply bind_ok in H as [tr [Htr H]]. apply bind_ok in H as [[al cs] [Ho H]].
  apply bind_ok in H as [te [Hte H]]. apply bind_ok in H as [w [Hw H]]. injection H as <-. cbn [fst snd] in *.
  exists tr, te, al, cs. apply np_take_ok_iff in Htr, Hte. split; [exact Htr|]. split; [exact Hte|]. split; [exact Ho|].
  split; [now apply kliep_centres in Ho|]. apply np_matvec_ok in Hw as [_ Hw].
  rewrite Hw. unfold matvec, kernel_matrix. rewrite map_map, map_map, mean_mean_over. unfold mean_over. f_equal.
  induction te as [|x te IH] using list_ind; [reflexivity|].
  cbn. f_equal; [now rewrite dot_kernel_sum|]. clear -te. induction te as [|x te IH]; [reflexivity|]. cbn. now rewrite dot_kernel_sum, IH.
Qed.

(** The selected bandwidth is the first of those with the largest mean likelihood of held-out samples. *)
Theorem C153_selected : forall Row kern choose nc mi tol cv gammas (Xs Xt : list Row) g,
  cross_validation kern choose nc mi tol cv gammas Xs Xt = Ok g ->
  exists folds scores i, k_fold_split (length Xt) cv folds /\
    Forall2 (fun g s => exists vs, Forall2 (fun jf v => fold_score kern choose nc mi tol g Xs Xt (fst jf) (snd jf) v) (combine (seq 0 cv) folds) vs /\
                                   s = mean_over (fun v => v) vs) gammas scores /\
    first_largest scores i /\ nth_error gammas i = Some g.
Proof.
  intros Row kern choose nc mi tol cv gammas Xs Xt g H. unfold cross_validation in H.
  apply bind_ok in H as [liks [Hl H]]. apply bind_ok in H as [i [Hi H]]. injection H as <-.
  apply mapM_ok_iff in Hl. pose proof (np_argmax_spec _ _ Hi) as HM.
  assert (LL : length gammas = length liks) by (clear -Hl; induction Hl; simpl; congruence).
  destruct (C153_folds (length Xt) cv) as [F1 F2].
  assert (G : 2 <= cv <= length Xt).
  { destruct gammas as [|g0 gs]; [destruct liks; [discriminate|discriminate]|].
    inversion Hl as [|? ? ? ? B _]; subst. destruct (le_dec 2 cv) as [A1|A1]; [destruct (le_dec cv (length Xt)) as [A2|A2]; [auto|]|];
    rewrite F2 in B by lia; discriminate. }
  destruct (F1 G) as (folds & Ek & SP). exists folds, liks, i. split; [exact SP|]. split; [|split; [exact HM|]].
  - assert (Lf : length folds = cv) by apply SP.
    clear -Hl Ek Lf. induction Hl as [|g0 s gs ss B F IH]; constructor; [|exact IH].
    rewrite Ek in B. cbn [bind] in B. apply bind_ok in B as [vs [Hv B]]. injection B as <-. exists vs. split.
    + apply mapM_ok_iff in Hv. rewrite Lf in Hv. clear -Hv. induction Hv as [|p v ps vs A F IH]; constructor; [|exact IH]. now apply fold_lik_spec.
    + rewrite <- mean_mean_over, map_id. reflexivity.
  - apply nth_error_nth'. rewrite LL. apply HM.
Qed.

(** Distinct targets: no held-out sample is a centre. *)
Theorem C153_held_out : forall Row (kern : R -> Row -> Row -> R) (choose : R -> nat -> list nat) nc mi tol g (Xs Xt : list Row) j fold,
  NoDup Xt -> Permutation (fst fold ++ snd fold) (seq 0 (length Xt)) ->
  forall alpha centers train, rows_at (fst fold) Xt train -> kliep_optim Row (kern g) (choose g j) nc tol mi Xs train = Ok (alpha, centers) ->
  forall p x, In p (snd fold) -> nth_error Xt p = Some x -> ~ In x centers.
Proof.
  intros Row kern choose nc mi tol g Xs Xt j fold ND PM al cs tr Htr Ho p x Hp Hx Hin.
  apply kliep_centres in Ho. apply Ho in Hin.
  assert (exists q, In q (fst fold) /\ nth_error Xt q = Some x) as (q & Hq & Hqx).
  { clear -Htr Hin. induction Htr as [|i y idx ys E F IH]; [easy|]. destruct Hin as [<-|Hin]; [exists i; split; [now left|auto]|].
    destruct (IH Hin) as (q & ? & ?). exists q. split; [now right|auto]. }
  assert (p = q). { apply (proj1 (NoDup_nth_error Xt) ND); [|congruence]. apply nth_error_Some. congruence. }
  subst q. assert (N : NoDup (fst fold ++ snd fold)) by (eapply Permutation_NoDup; [symmetry; exact PM|apply seq_NoDup]).
  clear -N Hp Hq. induction (fst fold) as [|a l IH]; [easy|]. cbn in N. inversion N as [|? ? A B]; subst. destruct Hq as [->|Hq]; [|auto].
  apply A. apply in_or_app. now right.
Qed.

(** Too few targets for the number of folds, or less than two folds: ValueError; no candidate: ValueError. *)
Theorem C153_refuses : forall Row kern choose nc mi tol cv gammas (Xs Xt : list Row),
  ~ 2 <= cv <= length Xt \/ gammas = [] -> cross_validation kern choose nc mi tol cv gammas Xs Xt = Err ValueError.
Proof.
  intros Row kern choose nc mi tol cv gammas Xs Xt H. unfold cross_validation. destruct gammas as [|g gs]; [reflexivity|].
  destruct H as [H|H]; [|discriminate]. cbn [mapM]. rewrite (proj2 (C153_folds _ _) H). reflexivity.
Qed.

(** The fitted adapter: optimised with the selected bandwidth on all the data. *)
Theorem C153_fit : forall Row kern choose nc mi tol final cv gammas (X : list Row) sda g p,
  kliep_cv_fit kern choose nc mi tol final cv gammas X sda = Ok (g, p) ->
  let sd := eff_domain (length X) sda in
  cross_validation kern choose nc mi tol cv gammas (rows_of is_source sd X) (rows_of is_target sd X) = Ok g /\
  kliep_optim Row (kern g) final nc tol mi (rows_of is_source sd X) (rows_of is_target sd X) = Ok p.
Proof.
  intros Row kern choose nc mi tol final cv gammas X sda g p H sd. unfold kliep_cv_fit in H.
  apply bind_ok in H as [[a b] [Hs H]]. unfold rw_split in Hs. apply bind_ok in Hs as [sd' [Hc Hs]].
  apply rw_check_ok in Hc as (-> & L & N). fold sd in Hs, L, N.
  apply bind_ok in Hs as [p1 [Hp1 Hs]]. rewrite split_ok in Hp1; auto; [|easy|intros xs [[= <-]|[]]; auto]. injection Hp1 as <-.
  cbn in Hs. injection Hs as <- <-. cbn [fst snd] in H.
  apply bind_ok in H as [g' [Hg H]]. apply bind_ok in H as [p' [Hp H]]. injection H as <- <-. auto.
Qed.

Example C153_ex : kfold 5 2 = Ok [([3; 4], [0; 1; 2]); ([0; 1; 2], [3; 4])] /\ kfold 3 5 = Err ValueError.
Proof. split; reflexivity. Qed.

(** A kernel that is constant, equal to the bandwidth: the larger bandwidth is selected. *)
Example C153_select_ex :
  cross_validation (fun g (_ _ : R) => g) (fun _ _ => [0]) 1 0 0%R 2 [1; 2]%R [7; 8]%R [1; 2; 3; 4]%R = Ok 2%R.
Proof.
  unfold cross_validation. cbn -[ln EPS Rplus Rmult Rltb mean np_argmax].
  set (u := ln (1 * 1 + 0 + EPS)). set (v := ln (2 * 1 + 0 + EPS)).
  assert (L : (u < v)%R).
  { unfold u, v. assert (0 < EPS)%R by (unfold EPS; lra). apply ln_increasing; lra. }
  assert (M : forall t, mean [t; t] = t) by (intros t; unfold mean; cbn; field).
  rewrite !M. clearbody u v. unfold np_argmax. cbn -[Rltb].
  destruct (Rltb (- v) (- u)) eqn:E; [reflexivity|]. apply Rltb_false in E. lra.
Qed.

(** ** C154 *)
Lemma smoother_rows lk G ys : Forall (fun r => length r = length ys) (smoother lk G ys).
Proof. unfold smoother. apply Forall_map, Forall_forall. intros y _. unfold mat_t_vec. now rewrite map_length, seq_length. Qed.
Lemma smoother_length lk G ys : length (smoother lk G ys) = length ys.
Proof. unfold smoother. now rewrite map_length. Qed.

Lemma tars_feasible M k alpha : Forall (fun r => length r = k) M -> length alpha = k -> meets_problem (tars_problem M k) alpha ->
  let m := INR (length M) in
  Forall (fun t => 0 <= t <= 10)%R (matvec M alpha) /\
  (m * (1 - 10 / (4 * sqrt m)) <= vsum (matvec M alpha) <= m * (1 + 10 / (4 * sqrt m)))%R.
Proof.
  intros Hr La Ha m. unfold tars_problem in Ha.
  match type of Ha with meets_problem (scipy_build (Some ?A) (Some ?b) _ _ _ _) _ =>
    apply (C79_scipy_problem (Some (A, b)) None None None) in Ha; [|intros; discriminate] end.
  destruct Ha as (Ha & _). specialize (Ha _ _ eq_refl). unfold satisfies_le in Ha.
  apply Forall2_app_inv_l in Ha as (b1 & b2 & F1 & F2 & E).
  assert (E' : b1 = repeat 0%R (length M) /\
     b2 = [(- (INR (length M) * (1 - 10 / (4 * sqrt (INR (length M))))))%R] ++
       map (fun t => (10 * t)%R) (repeat 1%R (length M)) ++ [(INR (length M) * (1 + 10 / (4 * sqrt (INR (length M)))))%R]).
  { apply F2_length in F1. rewrite map_length in F1. apply app_eq_len; auto. rewrite repeat_length. auto. }
  destruct E' as [-> ->]. clear E. cbn [app] in F2. inversion F2 as [|r v l1 l2 S1 F3]; subst r v l1 l2.
  apply Forall2_app_inv_l in F3 as (b3 & b4 & F3 & F4 & E).
  assert (E' : b3 = map (fun t => (10 * t)%R) (repeat 1%R (length M)) /\
     b4 = [(INR (length M) * (1 + 10 / (4 * sqrt (INR (length M)))))%R]).
  { apply F2_length in F3. apply app_eq_len; auto. rewrite map_length, repeat_length. auto. }
  destruct E' as [-> ->]. inversion F4 as [|r v l1 l2 S2 _]; subst r v l1 l2. clear E F2 F4.
  rewrite dot_col_sums in S2 by auto.
  assert (Eo : forall (a x : list R), dot (map Ropp a) x = (- dot a x)%R).
  { induction a as [|t a IH]; intros [|u x]; try (unfold dot; simpl; lra). cbn [map]. rewrite !dot_cons, IH. lra. }
  rewrite Eo, dot_col_sums in S1 by auto.
  split; [|unfold m; lra].
  clear -F1 F3 Eo. revert F1 F3. induction M as [|r M IH]; intros F1 F3; [constructor|]. cbn in F1, F3. inversion F1; inversion F3; subst. constructor; auto.
  rewrite Eo in *. lra.
Qed.

(** What is fitted. *)
Theorem C154_fit : forall Row lk G solve (X : list Row) y sda st,
  tarsc_fit lk G solve X y sda = Ok st ->
  let sd := eff_domain (length X) sda in
  let ys := rows_of is_source sd y in
  tc_X st = rows_of is_source sd X /\ length (tc_weights st) = length (tc_X st) /\
  (forall i j u v, nth_error ys i = Some u -> nth_error ys j = Some v -> u = v -> nth_error (tc_weights st) i = nth_error (tc_weights st) j) /\
  ((forall Xs Xt l p a, solve Xs Xt l p = Ok a -> meets_problem p a) ->
   let m := INR (length ys) in
   Forall (fun t => 0 <= t <= 10)%R (tc_weights st) /\
   (m * (1 - 10 / (4 * sqrt m)) <= vsum (tc_weights st) <= m * (1 + 10 / (4 * sqrt m)))%R).
Proof.
  intros Row lk G solve X y sda st H sd ys. unfold tarsc_fit in H. apply bind_ok in H as [sd' [Hc H]].
  apply rw_check_ok in Hc as (-> & L & N). fold sd in H, L, N.
  apply bind_ok in H as [p1 [Hp1 H]]. rewrite split_ok in Hp1; auto; [|easy|intros xs [[= <-]|[]]; auto]. injection Hp1 as <-.
  apply bind_ok in H as [p2 [Hp2 H]].
  assert (Ly : length sd = length y).
  { destruct (Nat.eq_dec (length y) (length sd)) as [|Hne]; auto. exfalso.
    pose proof (split_bad_length [] y [] sd N Hne) as Q. cbn [app] in Q. rewrite Q in Hp2. discriminate. }
  rewrite split_ok in Hp2; auto; [|easy|intros xs [[= <-]|[]]; auto]. injection Hp2 as <-. cbn in H.
  fold ys in H. apply bind_ok in H as [al [Ha H]]. apply bind_ok in H as [w [Hw H]]. injection H as <-. cbn [tc_X tc_weights].
  apply np_matvec_ok in Hw as [Hrows Hw].
  assert (Lw : length w = length ys) by (rewrite Hw; unfold matvec; now rewrite map_length, smoother_length).
  split; [reflexivity|]. split.
  { rewrite Lw. unfold ys. rewrite !rows_of_length by auto. reflexivity. }
  split.
  { intros i j u v Hi Hj <-. rewrite Hw. unfold matvec, smoother. rewrite map_map, !nth_error_map, Hi, Hj. reflexivity. }
  intros Hsol. set (m := INR (length ys)). apply Hsol in Ha.
  destruct ys as [|y0 ys'] eqn:Ey.
  - unfold m. rewrite Hw. cbn. split; [constructor|]. rewrite !Rmult_0_l. lra.
  - assert (La : length al = length (y0 :: ys')).
    { pose proof (smoother_rows lk G (y0 :: ys')) as SR. pose proof (smoother_length lk G (y0 :: ys')) as SL.
      destruct (smoother lk G (y0 :: ys')) as [|r0 M]; [discriminate|].
      apply Forall_cons_iff in SR as [SR _]. apply Forall_cons_iff in Hrows as [Hr _]. congruence. }
    pose proof (tars_feasible _ _ al (smoother_rows lk G (y0 :: ys')) La Ha) as Q. cbn zeta in Q.
    rewrite smoother_length in Q. rewrite Hw. exact Q.
Qed.

(** The problem solved is about the source samples with their labels and the target samples. *)
Theorem C154_problem : forall Row lk G solve (X : list Row) y sda st, tarsc_fit lk G solve X y sda = Ok st ->
  let sd := eff_domain (length X) sda in
  exists p, solve (rows_of is_source sd X) (rows_of is_target sd X) (rows_of is_source sd y) p = Ok (tc_alpha st).
Proof.
  intros Row lk G solve X y sda st H sd. unfold tarsc_fit in H. apply bind_ok in H as [sd' [Hc H]].
  apply rw_check_ok in Hc as (-> & L & N). fold sd in H, L, N.
  apply bind_ok in H as [p1 [Hp1 H]]. rewrite split_ok in Hp1; auto; [|easy|intros xs [[= <-]|[]]; auto]. injection Hp1 as <-.
  apply bind_ok in H as [p2 [Hp2 H]].
  assert (Ly : length sd = length y).
  { destruct (Nat.eq_dec (length y) (length sd)) as [|Hne]; auto. exfalso.
    pose proof (split_bad_length [] y [] sd N Hne) as Q. cbn [app] in Q. rewrite Q in Hp2. discriminate. }
  rewrite split_ok in Hp2; auto; [|easy|intros xs [[= <-]|[]]; auto]. injection Hp2 as <-. cbn in H.
  apply bind_ok in H as [al [Ha H]]. apply bind_ok in H as [w [Hw H]]. injection H as <-. cbn [tc_alpha]. eexists. exact Ha.
Qed.
(** Labels that are not one per sample are refused when weights are computed, though they are not used. *)
Theorem C154_lengths : forall Row dist rows_eqb st (X : list Row) y sd, length y <> length X ->
  tarsc_weights dist rows_eqb st X y sd = Err ValueError.
Proof. intros Row dist reb st X y sd H. unfold tarsc_weights. destruct (Nat.eqb_spec (length y) (length X)); [contradiction|reflexivity]. Qed.

(** On the data of fit the fitted weights, on other data those of the nearest fitted source sample, plus 1e-13 everywhere. *)
Theorem C154_weights : forall Row dist rows_eqb st (X : list Row) y sd w,
  (forall A B : list Row, rows_eqb A B = true <-> A = B) -> length (tc_weights st) = length (tc_X st) -> 0 < how_many is_source sd ->
  tarsc_weights dist rows_eqb st X y sd = Ok w ->
  length w = length sd /\
  Forall (fun t => t = (/ 10000000000000)%R) (rows_of is_target sd w) /\
  (rows_of is_source sd X = tc_X st -> rows_of is_source sd w = map (fun t => t + / 10000000000000)%R (tc_weights st)) /\
  (rows_of is_source sd X <> tc_X st ->
     Forall2 (fun x t => exists i v, first_nearest dist (tc_X st) x i /\ nth_error (tc_weights st) i = Some v /\ t = (v + / 10000000000000)%R)
             (rows_of is_source sd X) (rows_of is_source sd w)).
Proof.
  intros Row dist reb st X y sd w Heq Hlw Hs H. unfold tarsc_weights in H. apply bind_ok in H as [[] [_ H]]. apply bind_ok in H as [m [Hm H]].
  assert (Hne : sd <> []) by (intros ->; cbv in Hs; lia).
  rewrite extract_source_ok in Hm by auto. injection Hm as <-.
  apply bind_ok in H as [Xs [HX H]].
  assert (L : length sd = length X). { unfold np_select in HX. rewrite map_length in HX. destruct (Nat.eqb_spec (length sd) (length X)); [auto|discriminate]. }
  rewrite np_select_ok in HX by (rewrite map_length; auto). injection HX as HX. rewrite <- rows_of_select in HX. subst Xs.
  apply bind_ok in H as [sw [Hsw H]]. apply bind_ok in H as [w' [Hw H]]. injection H as <-. rewrite <- L in Hw.
  assert (Rm : forall p (f : R -> R), rows_of p sd (map f w') = map f (rows_of p sd w')).
  { intros p f. unfold rows_of. clear. revert w'. induction sd as [|d sd IH]; intros [|x w']; simpl; auto.
    destruct (p d); simpl; now rewrite IH. }
  assert (G : length sw = how_many is_source sd -> length (map (fun t => (t + / 10000000000000)%R) w') = length sd /\
     Forall (fun t => t = (/ 10000000000000)%R) (rows_of is_target sd (map (fun t => (t + / 10000000000000)%R) w')) /\
     rows_of is_source sd (map (fun t => (t + / 10000000000000)%R) w') = map (fun t => (t + / 10000000000000)%R) sw).
  { intros Hl. apply place_weights_spec in Hw as (L1 & L2 & L3); auto. rewrite map_length, !Rm, L2. split; [auto|]. split; [|auto].
    apply Forall_map. eapply Forall_impl; [|exact L3]. simpl. intros t ->. lra. }
  destruct (reb (tc_X st) (rows_of is_source sd X)) eqn:E.
  - injection Hsw as <-. apply Heq in E. destruct G as (G1 & G2 & G3).
    { rewrite Hlw, E. now apply rows_of_length. }
    split; [auto|]. split; [auto|]. split; [auto|]. intros D. exfalso. now apply D.
  - apply bind_ok in Hsw as [idx [Hi Hsw]]. apply mapM_ok_iff in Hi. apply np_take_ok_iff in Hsw.
    destruct G as (G1 & G2 & G3).
    { rewrite <- (F2_length _ _ _ Hsw), <- (F2_length _ _ _ Hi). now apply rows_of_length. }
    split; [auto|]. split; [auto|]. split. { intros D. rewrite D in E. rewrite (proj2 (Heq _ _) eq_refl) in E. discriminate. }
    intros _. rewrite G3. clear -Hi Hsw. revert sw Hsw. induction Hi as [|x i xs is A F IH]; intros sw Hsw; inversion Hsw as [|? v ? sw' B C]; subst; constructor; [|now apply IH].
    exists i, v. split; [|split; [exact B|reflexivity]]. apply np_argmin_spec in A as (A1 & A2 & A3). rewrite map_length in A1, A2.
    assert (N : forall j b, nth_error (tc_X st) j = Some b -> nth j (map (dist x) (tc_X st)) 0%R = dist x b).
    { intros j b Hb. apply nth_error_nth. rewrite nth_error_map, Hb. reflexivity. }
    destruct (nth_error (tc_X st) i) as [a|] eqn:Ea; [|apply nth_error_None in Ea; lia].
    exists a. split; [exact Ea|]. split.
    + intros j b Hb. rewrite <- (N i a Ea), <- (N j b Hb). apply A2. apply nth_error_Some. congruence.
    + intros j b Hj Hb. rewrite <- (N i a Ea), <- (N j b Hb). apply A3. exact Hj.
Qed.

(** On other data the weight is not a function of the label: two new samples with the same label 7, different weights. The solver returns
    a point meeting its constraints. *)
Definition same_label (u v : R) : R := if Req_EM_T u v then 1%R else 0%R.
Theorem C154_label_function_refuted : exists st w,
  tarsc_fit same_label (fun _ => [[1; 0]; [0; 1]]%R) (fun _ _ _ _ => Ok [1/2; 3/2]%R) [10; 20; 30]%R [5; 6; 0]%R (SDArr [1; 1; -2]%Z) = Ok st /\
  meets_problem (tars_problem (smoother same_label (fun _ => [[1; 0]; [0; 1]]%R) [5; 6]%R) 2) [1/2; 3/2]%R /\
  tarsc_weights (fun a b => (a - b) * (a - b))%R (fun _ _ => false) st [11; 19; 30]%R [7; 7; 0]%R [1; 1; -2]%Z = Ok w /\
  nth 0 w 0%R <> nth 1 w 0%R.
Proof.
  assert (SM : smoother same_label (fun _ => [[1; 0]; [0; 1]]%R) [5; 6]%R = [[1; 0]; [0; 1]]%R).
  { unfold smoother, same_label. cbn. repeat match goal with |- context [Req_EM_T ?a ?b] => destruct (Req_EM_T a b); try lra end.
    unfold mat_t_vec, dot. cbn. repeat (apply f_equal2; [|try reflexivity]); try (repeat (apply f_equal2; [|try reflexivity])); lra. }
  do 2 eexists. split; [|split; [|split]].
  - unfold tarsc_fit. cbn -[smoother]. rewrite SM. cbn. reflexivity.
  - rewrite SM. unfold tars_problem. match goal with |- meets_problem (scipy_build (Some ?A) (Some ?b) _ _ _ _) _ =>
      apply (C79_scipy_problem (Some (A, b)) None None None); [intros; discriminate|] end.
    split; [|split; [|split]]; try (intros; discriminate). intros A b [= <- <-]. cbn.
    assert (Q : (0 < 10 / (4 * sqrt (1 + 1)))%R).
    { assert (0 < sqrt (1 + 1))%R by (apply sqrt_lt_R0; lra). apply Rdiv_lt_0_compat; lra. }
    set (e := (10 / (4 * sqrt (1 + 1)))%R) in *. clearbody e.
    repeat constructor; unfold dot; cbn; lra.
  - unfold tarsc_weights. cbn -[np_argmin]. 
    assert (A : np_argmin [(11 - 10) * (11 - 10); (11 - 20) * (11 - 20)]%R = Ok 0).
    { unfold np_argmin. cbn -[Rltb]. decide_R. reflexivity. }
    assert (B : np_argmin [(19 - 10) * (19 - 10); (19 - 20) * (19 - 20)]%R = Ok 1).
    { unfold np_argmin. cbn -[Rltb]. decide_R. reflexivity. }
    rewrite A, B. cbn. reflexivity.
  - cbn. unfold dot. cbn. lra.
Qed.
