(** C186: when the domains already agree there is nothing to adapt, and nothing changes. *)
From Coq Require Import String List ZArith Bool Arith Lia Reals Lra Permutation FinFun.
From Verif Require Import Np NpFacts Labels Spec SpecFacts UtilsModel UtilsSpec SelectModel RVec RVecFacts FWModel ReweightModel ReweightSpec ReweightProofs ThmReweight
  MapModel MapSpec MapProofs2 RMat CovSpec CovProofs OTModel OTSpec OTProofs ThmOT ThmJdot ThmMmd MongeModel MongeProofs ThmMonge.
Import ListNotations.
Local Open Scope nat_scope.
Local Open Scope list_scope.

(** ** CORAL *)
Lemma sqrtm_psd eigh n C : pos_semidef n (sqrtm eigh n C).
Proof.
  intros v. unfold sqrtm. destruct (eigh C) as [w V]. rewrite qf_sigma.
  assert (E1 : qf n (mmul n (fun i k => V i k * sqrt (w k))%R (mT V)) v = msum n (fun k => sqrt (w k) * (msum n (fun i => v i * V i k) * msum n (fun i => v i * V i k)))%R).
  { unfold qf. rewrite (msum_ext n _ (fun i => msum n (fun k => sqrt (w k) * (v i * V i k) * msum n (fun j => v j * V j k)))%R).
    2:{ intros i _. rewrite (msum_ext n _ (fun j => msum n (fun k => (sqrt (w k) * (v i * V i k)) * (v j * V j k)))%R).
        2:{ intros j _. unfold mmul, mT. rewrite <- msum_scal, <- msum_scal_r. apply msum_ext. intros; ring. }
        rewrite msum_swap. apply msum_ext. intros k _. apply msum_scal. }
    rewrite msum_swap. apply msum_ext. intros k _. rewrite msum_scal_r, msum_scal. ring. }
  rewrite E1. apply msum_nonneg. intros k _. apply Rmult_le_pos; [apply sqrt_pos|apply Rle_0_sqr].
Qed.
Lemma pd_psd n C : pos_def n C -> pos_semidef n C.
Proof. intros P v. destruct (classic_zero n v) as [Z|Z]; [rewrite Z; lra|]. apply Rlt_le. now apply P. Qed.
Lemma psd_ext n C C' : meq n n C C' -> pos_semidef n C -> pos_semidef n C'.
Proof. intros E P v. specialize (P v). rewrite qf_sigma in *. replace (qf n C' v) with (qf n C v); auto. apply msum_ext. intros i Hi. apply msum_ext. intros j Hj. now rewrite E. Qed.
Lemma whiten_same eigh n Cs Ct : eigensolver n eigh -> (forall i j, Cs i j = Cs j i) -> (forall i j, Ct i j = Ct j i) -> pos_def n Cs -> meq n n Cs Ct ->
  meq n n (mmul n (invsqrtm eigh n Cs) (sqrtm eigh n Ct)) delta.
Proof.
  intros HE S1 S2 P E. destruct (roots_inverse eigh n HE Cs S1 P) as (I1 & _).
  assert (R : meq n n (sqrtm eigh n Ct) (sqrtm eigh n Cs)).
  { apply (root_unique eigh n HE); try apply sqrtm_psd; try (intros; apply sqrtm_sym).
    intros i j Hi Hj. rewrite (sqrtm_sq eigh n HE Ct S2 (psd_ext n Cs Ct E (pd_psd n Cs P)) i j Hi Hj).
    rewrite (sqrtm_sq eigh n HE Cs S1 (pd_psd n Cs P) i j Hi Hj). symmetry. now apply E. }
  intros i j Hi Hj. rewrite <- (I1 i j Hi Hj). apply mmul_ext; auto.
Qed.
(** Sources and targets with the same covariance: CORAL only centres the sources (as it does the targets), row by row, seen in fit or not. *)
Theorem C186_coral : forall eigh n ms mt Xs Xt, eigensolver n eigh -> 0 < ms -> 0 < mt -> pos_def n (cov_of ms Xs) ->
  (forall j l, j < n -> l < n -> cov_of ms Xs j l = cov_of mt Xt j l) ->
  forall Z i j, j < n -> coral_map_source eigh false n ms mt Xs Xt Z i j = (Z i j - mean_of ms Xs j)%R.
Proof.
  intros eigh n ms mt Xs Xt HE Hs Ht P E Z i j Hj. unfold coral_map_source. rewrite mmul_assoc.
  assert (W := whiten_same eigh n (emp_cov false ms Xs) (emp_cov false mt Xt) HE (emp_cov_sym false ms Xs) (emp_cov_sym false mt Xt) P E).
  rewrite (mmul_ext n _ (fun i j => Z i j - col_mean ms Xs j)%R _ delta i j); auto. now rewrite mmul_delta_r.
Qed.
(** assume_centered=True, the same second moments: the sources are returned as they came. *)
Theorem C186_coral_centred : forall eigh n ms mt Xs Xt, eigensolver n eigh -> 0 < ms -> 0 < mt -> pos_def n (moment_of ms Xs) ->
  (forall j l, j < n -> l < n -> moment_of ms Xs j l = moment_of mt Xt j l) ->
  forall Z i j, j < n -> coral_map_source eigh true n ms mt Xs Xt Z i j = Z i j.
Proof.
  intros eigh n ms mt Xs Xt HE Hs Ht P E Z i j Hj. unfold coral_map_source. rewrite mmul_assoc.
  assert (EM : forall m X a b, emp_cov true m X a b = moment_of m X a b).
  { intros. unfold emp_cov, moment_of. change (sigma m) with (msum m). f_equal. apply msum_ext. intros; ring. }
  assert (W : meq n n (mmul n (invsqrtm eigh n (emp_cov true ms Xs)) (sqrtm eigh n (emp_cov true mt Xt))) delta).
  { apply whiten_same; auto; try (intros; apply emp_cov_sym).
    - intros v Hv. erewrite sigma_ext2; [apply (P v Hv)|]. intros; now rewrite EM.
    - intros a b Ha Hb. rewrite !EM. auto. }
  rewrite (mmul_ext n _ Z _ delta i j); auto. now rewrite mmul_delta_r.
Qed.

(** ** Multi-domain Monge alignment *)
(** The barycentre of equal Gaussians is that Gaussian. *)
Definition equal_to_itself (n : nat) (bary : list (nat -> R) -> list mat -> (nat -> R) * mat) : Prop :=
  forall mu C ms Cs, ms <> [] -> length ms = length Cs -> Forall (fun m : nat -> R => forall j, j < n -> m j = mu j) ms -> Forall (fun D : mat => forall j l, j < n -> l < n -> D j l = C j l) Cs ->
    (forall j, j < n -> fst (bary ms Cs) j = mu j) /\ (forall j l, j < n -> l < n -> snd (bary ms Cs) j l = C j l).
Theorem C186_monge : forall eigh bary n sources targets mu C,
  eigensolver n eigh -> gives_covariance n bary -> equal_to_itself n bary -> sources <> [] ->
  NoDup (map fst (sources ++ targets)) -> pos_def n C ->
  (forall k m X, In (k, (m, X)) (sources ++ targets) -> 0 < m /\ (forall j, j < n -> mean_of m X j = mu j) /\ (forall j l, j < n -> l < n -> cov_of m X j l = C j l)) ->
  forall k m X, In (k, (m, X)) (sources ++ targets) ->
  forall Z, exists Y, mlm_transform_num n (mlm_fit_num eigh bary n true sources targets) k Z = Ok Y /\ forall i j, j < n -> Y i j = Z i j.
Proof.
  intros eigh bary n sources targets mu C HE HB H1 NE ND HP HA k m X I Z.
  unfold mlm_transform_num. rewrite (lookup eigh bary n true sources targets k m X ND I). cbn [bind]. eexists. split; [reflexivity|].
  destruct (centre_cov bary n HB true sources) as (CS & CP).
  { apply Forall_forall. intros [k' [m' X']] Hd. apply (HA k' m' X'). apply in_app_iff. now left. }
  set (p := get_cov_mean true None m X). set (b := centre bary true sources) in *.
  destruct (HA _ _ _ I) as (Hm & Mx & Cx).
  assert (B : (forall j, j < n -> fst b j = mu j) /\ (forall j l, j < n -> l < n -> snd b j l = C j l)).
  { apply H1.
    - now destruct sources. - now rewrite !map_length.
    - apply Forall_forall. intros q Hq. apply in_map_iff in Hq as ([k' [m' X']] & <- & Hd). intros j Hj. rewrite param_mean. apply (HA k' m' X'); auto. apply in_app_iff. now left.
    - apply Forall_forall. intros q Hq. apply in_map_iff in Hq as ([k' [m' X']] & <- & Hd). intros j l Hj Hl. rewrite param_cov. apply (HA k' m' X'); auto. apply in_app_iff. now left. }
  destruct B as (Bm & Bc).
  destruct (bw_identity eigh n HE (snd p) (fst b) (fst p) (snd b)) as (GA & Gb).
  - intros; apply param_sym.
  - intros v Hv. specialize (HP v Hv). rewrite qf_sigma in *. replace (qf n (fst p) v) with (qf n C v); auto.
    apply msum_ext. intros i Hi. apply msum_ext. intros j Hj. unfold p. rewrite param_cov. now rewrite Cx.
  - exact CS.
  - intros j l Hj Hl. unfold p. rewrite param_cov, Cx, Bc; auto.
  - intros j Hj. unfold p. rewrite param_mean, Mx, Bm; auto.
  - intros i j Hj. rewrite Gb by auto. rewrite (mmul_ext n _ Z _ delta i j); auto. rewrite mmul_delta_r by auto. ring.
Qed.

(** ** Weights *)
(** Targets that are the sources in another order: density weights are one. [kde] does not look at the order of the rows. *)
Theorem C186_density : forall Row kde (Xf : list Row) sdf es et X sda w,
  (forall A B, Permutation A B -> kde A = kde B) ->
  let sd' := eff_domain (length Xf) sdf in Permutation (rows_of is_source sd' Xf) (rows_of is_target sd' Xf) ->
  density_fit Row kde Xf sdf = Ok (es, et) -> row_wise es -> density_weights Row exp (es, et) X sda = Ok w ->
  let sd := eff_domain (length X) sda in weights_at sd w (map (fun _ => 1%R) (rows_of is_source sd X)).
Proof.
  intros Row kde Xf sdf es et X sda w HK sd' HPm Hf Hr Hw sd.
  destruct (C34_density _ _ _ _ _ _ _ _ _ _ Hf Hr Hw) as (K1 & K2 & ls & lt & E1 & E2 & _ & W).
  pose proof (HK _ _ HPm) as HK'. unfold sd' in HK'. rewrite HK', K2 in K1. injection K1 as ->. fold sd in E1, E2, W. rewrite E1 in E2. injection E2 as <-.
  pose proof (Hr _ _ E1) as L. cbn zeta in W.
  assert (ER : map2 (fun t s => exp (t - s)) ls ls = repeat 1%R (length ls)).
  { clear. induction ls as [|a ls IH]; cbn; auto. rewrite IH. f_equal. rewrite Rminus_diag_eq by auto. apply exp_0. }
  rewrite ER in W. replace (map (fun _ => 1%R) (rows_of is_source sd X)) with (map (fun r => if Req_EM_T (mean (repeat 1%R (length ls))) 0 then 1 / INR (length (repeat 1%R (length ls))) else r / mean (repeat 1%R (length ls)))%R (repeat 1%R (length ls))); auto.
  destruct ls as [|a ls].
  - cbn in L. destruct (rows_of is_source sd X); [reflexivity|discriminate].
  - assert (M : mean (repeat 1%R (length (a :: ls))) = 1%R).
    { unfold mean. rewrite vsum_const, repeat_length. field. apply not_0_INR. cbn. lia. }
    rewrite M. destruct (Req_EM_T 1 0) as [C|_]; [lra|]. rewrite L. clear. induction (rows_of is_source sd X) as [|x l IH]; cbn; auto. rewrite IH. f_equal. field.
Qed.
(** A domain classifier that gives all sources the same probability p < 1: discriminator weights are one. *)
Theorem C186_discriminator : forall Row (proba1 : list Row -> res (list R)) X sda w p, row_wise proba1 -> disc_weights Row proba1 X sda = Ok w ->
  let sd := eff_domain (length X) sda in proba1 (rows_of is_source sd X) = Ok (map (fun _ => p) (rows_of is_source sd X)) -> (p < 1)%R ->
  weights_at sd w (map (fun _ => 1%R) (rows_of is_source sd X)).
Proof.
  intros Row pr X sda w p Hr Hw sd Hp P1. destruct (C34_discriminator _ _ _ _ _ Hr Hw) as (q & Hq & W). fold sd in Hq, W. rewrite Hp in Hq. injection Hq as <-.
  cbn zeta in W. rewrite !map_map in W. set (r := ((1 - Rmin (Rmax p EPS) 1) / Rmin (Rmax p EPS) 1)%R) in *.
  assert (E0 : (0 < EPS < 1)%R) by (unfold EPS; lra).
  assert (R0 : (0 < r)%R).
  { unfold r. assert (0 < Rmin (Rmax p EPS) 1 < 1)%R.
    { unfold Rmin, Rmax. destruct (Rle_dec p EPS); [destruct (Rle_dec EPS 1)|destruct (Rle_dec p 1)]; lra. }
    apply Rdiv_lt_0_compat; lra. }
  replace (map (fun _ => 1%R) (rows_of is_source sd X)) with (map (fun _ : Row => r / mean (map (fun _ : Row => r) (rows_of is_source sd X)))%R (rows_of is_source sd X)); auto.
  set (l := rows_of is_source sd X) in *. destruct l as [|x l']; [reflexivity|]. apply map_ext. intros _.
  assert (M : mean (map (fun _ : Row => r) (x :: l')) = r).
  { unfold mean. assert (V : forall m : list Row, vsum (map (fun _ => r) m) = (INR (length m) * r)%R).
    { induction m as [|y m IH]; cbn [map vsum length]; [cbn; ring|]. rewrite IH, S_INR. ring. }
    rewrite V, map_length. field. apply not_0_INR. cbn. lia. }
  rewrite M. field. lra.
Qed.
(** KMM with targets that are the sources in another order matches the mean of the targets exactly (B >= 1). *)
Theorem C186_kmm : forall Row D phi kern slsqp B eps max_iter (X : list Row) sda w Xs, kernel_of D phi kern -> minimises slsqp -> (1 <= B)%R -> (forall e, eps = Some e -> 0 <= e)%R ->
  kmm_fit Row slsqp kern B eps max_iter "scipy" X sda = Ok (w, Xs) ->
  let sd := eff_domain (length X) sda in Permutation (rows_of is_source sd X) (rows_of is_target sd X) -> rows_of is_source sd X <> [] ->
  mmd2 D phi w Xs (rows_of is_target sd X) = 0%R.
Proof.
  intros Row D phi kern slsqp B eps mi X sda w Xs Hk Hm HB He H sd HP NE.
  destruct (C177_kmm_scipy Row D phi kern slsqp B eps mi X sda w Xs Hk Hm H) as (-> & G). fold sd in G. set (S := rows_of is_source sd X) in *. set (T := rows_of is_target sd X) in *.
  assert (NT : T <> []). { intros E. rewrite E in HP. apply Permutation_sym, Permutation_nil in HP. auto. }
  destruct (G NE NT) as (_ & Best). assert (L : length S = length T) by now apply Permutation_length.
  assert (N0 : (0 < INR (length S))%R) by (apply lt_0_INR; destruct S; [easy|cbn; lia]).
  assert (SL : (0 <= kmm_slack eps (length S))%R).
  { unfold kmm_slack. destruct eps as [e|]; [now apply He|]. assert (1 <= INR (length S))%R by (apply (le_INR 1); destruct S; [easy|cbn; lia]).
    assert (1 <= sqrt (INR (length S)))%R by (rewrite <- sqrt_1; apply sqrt_le_1; lra). apply Rmult_le_pos; [lra|]. left. apply Rinv_0_lt_compat. lra. }
  specialize (Best (repeat 1%R (length S))).
  assert (Al : kmm_allowed B (kmm_slack eps (length S)) (length S) (repeat 1%R (length S))).
  { split; [apply repeat_length|]. split; [apply Forall_forall; intros x Hx; apply repeat_spec in Hx; lra|]. rewrite vsum_const. nra. }
  specialize (Best Al).
  assert (Z : mmd2 D phi (repeat 1%R (length S)) S T = 0%R).
  { unfold mmd2. rewrite (msum_ext D _ (fun _ => 0%R)); [apply msum_zero|]. intros l _. rewrite L. 
    assert (W : forall A A' : list Row, Permutation A A' -> weighted phi (repeat 1%R (length A)) A l = weighted phi (repeat 1%R (length A')) A' l).
    { assert (WE : forall A : list Row, weighted phi (repeat 1%R (length A)) A l = vsum (map (fun x => phi x l) A)).
      { induction A as [|x A IH]; unfold weighted in *; cbn; [reflexivity|]. rewrite IH. ring. }
      intros A A' PA. rewrite !WE. induction PA; cbn; lra. }
    rewrite <- L at 1. rewrite (W S T HP). rewrite Rminus_diag_eq by auto. apply Rsqr_0. }
  rewrite Z in Best. apply Rle_antisym; auto. unfold mmd2. apply msum_nonneg. intros; apply Rle_0_sqr.
Qed.

(** ** Label propagation *)
(** An exact plan for the costs [cost] between rows. *)
Definition exact_plan {Xrow} (cost : Xrow -> Xrow -> R) (plan : list Xrow -> list Xrow -> list R -> list R -> res (list (list R))) : Prop :=
  forall Xs Xt a b G d, length a = length Xs -> length b = length Xt -> plan Xs Xt a b = Ok G -> coupling a b G /\
    forall G', coupling a b G' -> let c := fun i j => cost (nth i Xs d) (nth j Xt d) in (spent (length a) (length b) c G <= spent (length a) (length b) c G')%R.
(** A cost that tells rows apart: zero on equal rows only. *)
Definition tells_apart {Xrow} (cost : Xrow -> Xrow -> R) : Prop := forall x y, (0 <= cost x y)%R /\ (cost x y = 0%R <-> x = y).

Lemma msum_one k (f : nat -> R) i : i < k -> msum k (fun j => if j =? i then f j else 0%R) = f i.
Proof. intros H. rewrite (msum_ext k _ (fun j => f j * (if (j =? i)%nat then 1 else 0))%R); [now apply msum_delta|]. intros j _. destruct (j =? i); ring. Qed.
Lemma msum_zero_terms k (f : nat -> R) : (forall i, i < k -> (0 <= f i)%R) -> (msum k f <= 0)%R -> forall i, i < k -> f i = 0%R.
Proof.
  induction k as [|k IH]; intros P H i Hi; [lia|]. cbn in H. assert (0 <= msum k f)%R by (apply msum_nonneg; intros; apply P; lia). assert (0 <= f k)%R by (apply P; lia).
  destruct (Nat.eq_dec i k) as [->|]; [lra|]. apply IH; [intros; apply P; lia|lra|lia].
Qed.
Lemma vsum_nth {A} (f : A -> R) (d : A) l : vsum (map f l) = msum (length l) (fun i => f (nth i l d)).
Proof.
  induction l as [|x l IH] using rev_ind; [reflexivity|]. rewrite map_app, vsum_app, app_length, IH. cbn [map vsum length]. rewrite Nat.add_1_r. cbn [msum].
  rewrite nth_middle. f_equal; [|ring]. apply msum_ext. intros i Hi. now rewrite app_nth1.
Qed.

Lemma nth_rep {A} (x d : A) n i : i < n -> nth i (repeat x n) d = x.
Proof. intros H. apply (repeat_spec n x). apply nth_In. now rewrite repeat_length. Qed.

Section Copies.
  Context {Xrow : Type}.
  Variables (cost : Xrow -> Xrow -> R) (plan : list Xrow -> list Xrow -> list R -> list R -> res (list (list R))).
  Hypothesis HP : exact_plan cost plan.
  Hypothesis HC : tells_apart cost.
  Lemma mass_stays Xs Xt G d : Permutation Xs Xt -> Xs <> [] ->
    plan Xs Xt (repeat (/ INR (length Xs))%R (length Xs)) (repeat (/ INR (length Xt))%R (length Xt)) = Ok G ->
    coupling (repeat (/ INR (length Xs))%R (length Xs)) (repeat (/ INR (length Xt))%R (length Xt)) G /\
    forall i j, i < length Xs -> j < length Xt -> nth i Xs d <> nth j Xt d -> at2 G i j = 0%R.
  Proof.
    intros PM NE E. set (a := repeat (/ INR (length Xs))%R (length Xs)) in *. set (b := repeat (/ INR (length Xt))%R (length Xt)) in *.
    assert (L : length Xt = length Xs) by (symmetry; now apply Permutation_length). set (n := length Xs) in *.
    assert (La : length a = n) by apply repeat_length. assert (Lb : length b = n) by (unfold b; now rewrite repeat_length).
    assert (Na : forall i, i < n -> nth i a 0%R = (/ INR n)%R) by (intros; now apply nth_rep).
    assert (Nb : forall i, i < n -> nth i b 0%R = (/ INR n)%R) by (intros; unfold b; rewrite L; now apply nth_rep).
    assert (Pn : (0 < / INR n)%R) by (apply Rinv_0_lt_compat, lt_0_INR; unfold n; destruct Xs; [easy|cbn; lia]).
    destruct (HP Xs Xt a b G d La ltac:(congruence) E) as (HG & Best). split; auto. rewrite La, Lb in Best.
    destruct (proj1 (Permutation_nth Xs Xt d) PM) as (_ & f & Bf & If & Nf). fold n in Bf, If, Nf.
    pose proof (proj1 (bInjective_bSurjective Bf) If) as Sf. destruct (bSurjective_bBijective Bf Sf) as (g & Bg & Gg).
    set (G' := map (fun i => map (fun j => if f j =? i then (/ INR n)%R else 0%R) (seq 0 n)) (seq 0 n)).
    assert (AT : forall i j, i < n -> j < n -> at2 G' i j = if f j =? i then (/ INR n)%R else 0%R).
    { intros i j Hi Hj. unfold at2, G'. rewrite nth_indep with (d' := map (fun j => if f j =? 0 then (/ INR n)%R else 0%R) (seq 0 n)) by (now rewrite map_length, seq_length).
      rewrite (map_nth (fun i => map (fun j => if f j =? i then (/ INR n)%R else 0%R) (seq 0 n)) (seq 0 n) 0 i). rewrite seq_nth by auto. cbn [plus].
      rewrite nth_indep with (d' := if f 0 =? i then (/ INR n)%R else 0%R) by (now rewrite map_length, seq_length).
      rewrite (map_nth (fun j => if f j =? i then (/ INR n)%R else 0%R) (seq 0 n) 0 j). now rewrite seq_nth. }
    assert (C' : coupling a b G').
    { unfold coupling. rewrite La, Lb. split; [|split; [|split]].
      - split; [unfold G'; now rewrite map_length, seq_length|]. apply Forall_forall. intros r Hr. apply in_map_iff in Hr as (i & <- & _). now rewrite map_length, seq_length.
      - intros i j Hi Hj. rewrite AT by auto. destruct (f j =? i); lra.
      - intros i Hi. rewrite Na by auto. destruct (Gg i Hi) as (G1 & G2). pose proof (Bg i Hi).
        rewrite (msum_ext n _ (fun j => if j =? g i then (/ INR n)%R else 0%R)); [now rewrite (msum_one n (fun _ => / INR n)%R)|].
        intros j Hj. rewrite AT by auto. destruct (Nat.eqb_spec (f j) i) as [Ej|Ej], (Nat.eqb_spec j (g i)) as [Eg|Eg]; auto; exfalso.
        + apply Eg. rewrite <- Ej. symmetry. apply (Gg j Hj). + apply Ej. rewrite Eg. exact G2.
      - intros j Hj. rewrite Nb by auto. rewrite (msum_ext n _ (fun i => if i =? f j then (/ INR n)%R else 0%R)); [rewrite (msum_one n (fun _ => / INR n)%R); auto|].
        intros i Hi. rewrite AT by auto. now rewrite Nat.eqb_sym. }
    specialize (Best G' C'). cbv zeta in Best.
    assert (Z' : spent n n (fun i j => cost (nth i Xs d) (nth j Xt d)) G' = 0%R).
    { unfold spent. rewrite (msum_ext n _ (fun _ => 0%R)); [apply msum_zero|]. intros i Hi. rewrite (msum_ext n _ (fun _ => 0%R)); [apply msum_zero|]. intros j Hj. rewrite AT by auto.
      destruct (Nat.eqb_spec (f j) i) as [<-|]; [|ring]. rewrite (Nf j Hj). rewrite (proj2 (proj2 (HC _ _)) eq_refl). ring. }
    rewrite Z' in Best. destruct HG as (_ & GN & _). rewrite La, Lb in GN. intros i j Hi Hj Ne.
    assert (I1 := msum_zero_terms n (fun i => msum n (fun j => cost (nth i Xs d) (nth j Xt d) * at2 G i j)%R)).
    assert (P1 : forall i j, i < n -> j < n -> (0 <= cost (nth i Xs d) (nth j Xt d) * at2 G i j)%R) by (intros; apply Rmult_le_pos; [apply HC|now apply GN]).
    assert (P0 : forall k, k < n -> (0 <= msum n (fun j => cost (nth k Xs d) (nth j Xt d) * at2 G k j))%R) by (intros k Hk; apply msum_nonneg; intros; now apply P1).
    specialize (I1 P0 Best i Hi). cbn beta in I1. assert (Hj' : j < n) by lia. assert (I1' : (msum n (fun j => cost (nth i Xs d) (nth j Xt d) * at2 G i j) <= 0)%R) by lra.
    assert (I2 := msum_zero_terms n (fun j => cost (nth i Xs d) (nth j Xt d) * at2 G i j)%R (fun j Hj => P1 i j Hi Hj) I1' j Hj'). cbn beta in I2.
    apply Rmult_integral in I2 as [I2|]; auto. exfalso. apply Ne. now apply (HC _ _).
  Qed.

  (** Masses and labels at a target whose mass comes from sources of one label. *)
  Lemma mass_msum G ys c j : length G = length ys -> mass_of G ys c j = msum (length ys) (fun i => if (nth i ys 0 =? c)%Z then at2 G i j else 0%R).
  Proof.
    unfold mass_of, at2. revert G. induction ys as [|y ys IH] using rev_ind; intros G LG; [destruct G; [reflexivity|discriminate]|].
    destruct (exists_last (l := G)) as (G0 & r & ->); [intros ->; rewrite app_length in LG; cbn in LG; lia|]. rewrite !app_length in LG. cbn in LG. assert (L0 : length G0 = length ys) by lia.
    assert (CM : combine (ys ++ [y]) (G0 ++ [r]) = combine ys G0 ++ [(y, r)]).
    { clear IH LG. revert G0 L0. induction ys as [|a ys IH]; intros [|g G0] L0; try discriminate; cbn; auto. f_equal. apply IH. cbn in L0. lia. }
    rewrite CM, filter_app, map_app, vsum_app, (IH G0 L0), app_length. cbn [length]. rewrite Nat.add_1_r. cbn [msum]. rewrite nth_middle. assert (NR : nth (length ys) (G0 ++ [r]) [] = r) by (rewrite <- L0; apply nth_middle). rewrite NR. f_equal.
    - apply msum_ext. intros i Hi. rewrite app_nth1 by auto. rewrite app_nth1 by lia. reflexivity.
    - cbn [filter fst]. destruct (y =? c)%Z; cbn; ring.
  Qed.
  Lemma moved_msum G ys b j : length G = length ys -> moved_label G ys b j = (msum (length ys) (fun i => nth i ys 0 * at2 G i j) / nth j b 0)%R.
  Proof.
    unfold moved_label, at2. intros LG. f_equal. revert G LG. induction ys as [|y ys IH] using rev_ind; intros G LG; [destruct G; [reflexivity|discriminate]|].
    destruct (exists_last (l := G)) as (G0 & r & ->); [intros ->; rewrite app_length in LG; cbn in LG; lia|]. rewrite !app_length in LG. cbn in LG. assert (L0 : length G0 = length ys) by lia.
    assert (CM : combine (ys ++ [y]) (G0 ++ [r]) = combine ys G0 ++ [(y, r)]).
    { clear IH LG. revert G0 L0. induction ys as [|a ys IH]; intros [|g G0] L0; try discriminate; cbn; auto. f_equal. apply IH. cbn in L0. lia. }
    rewrite CM, map_app, vsum_app, (IH G0 L0), app_length. cbn [length]. rewrite Nat.add_1_r. cbn [msum]. rewrite nth_middle. assert (NR : nth (length ys) (G0 ++ [r]) [] = r) by (rewrite <- L0; apply nth_middle). rewrite NR. f_equal.
    - apply msum_ext. intros i Hi. rewrite app_nth1 by auto. rewrite app_nth1 by lia. reflexivity.
    - cbn. ring.
  Qed.
End Copies.

(** Targets that are copies of the sources, in any order, and sources of which equal ones have equal labels: every target gets the label of its copies. *)
Theorem C186_label_propagation : forall Xrow cost (plan : list Xrow -> list Xrow -> list R -> list R -> res (list (list R))) X y sd out,
  exact_plan cost plan -> tells_apart cost -> length X = length sd -> length y = length sd -> 0 < how_many is_source sd ->
  let Xs := rows_of is_source sd X in let Xt := rows_of is_target sd X in let ys := rows_of is_source sd y in
  Permutation Xs Xt -> (forall i i' d, i < length Xs -> i' < length Xs -> nth i Xs d = nth i' Xs d -> nth i ys 0%Z = nth i' ys 0%Z) ->
  otlp_discrete plan X y None sd = Ok out ->
  forall i j d, i < length Xs -> j < length Xt -> nth j Xt d = nth i Xs d -> nth j (rows_of is_target sd out) 0%Z = nth i ys 0%Z.
Proof.
  intros Xrow cost plan X y sd out HP HC LX Ly Hs Xs Xt ys PM Con E i j d Hi Hj Same.
  assert (Hsd : sd <> []) by (intros ->; cbn in Hs; lia).
  assert (LXs : length Xs = how_many is_source sd) by now apply rows_of_length. assert (LXt : length Xt = how_many is_target sd) by now apply rows_of_length.
  assert (Lys : length ys = how_many is_source sd) by now apply rows_of_length.
  assert (PE := E). unfold otlp_discrete in PE. rewrite otlp_parts_ok in PE by (auto; easy). cbn [bind] in PE. apply bind_ok in PE as [G [HG _]].
  cbn [opt_rows proportions] in HG. fold Xs Xt in HG.
  assert (NE : Xs <> []) by (intros Z; rewrite Z in Hi; cbn in Hi; lia).
  assert (HG' := HG). rewrite <- LXs, <- LXt in HG'. destruct (mass_stays cost plan HP HC Xs Xt G d PM NE HG') as (CG & Z). rewrite LXs, LXt in CG.
  destruct CG as ((LG & FG) & GN & RS & CS). rewrite !repeat_length in *.
  destruct (C52_discrete_labels plan X y None sd G) as (labels & out' & E' & (Lo & _ & To) & LL & Hv); auto; try easy.
  rewrite E in E'. injection E' as <-. rewrite To. specialize (Hv j ltac:(lia)). fold ys in Hv. destruct Hv as (Hin & Hmax & _).
  set (c := nth j labels 0%Z) in *. set (l := nth i ys 0%Z) in *.
  assert (LGy : length G = length ys) by congruence.
  destruct (Z.eq_dec c l) as [|Ne]; auto. exfalso.
  assert (M0 : mass_of G ys c j = 0%R).
  { rewrite mass_msum by auto. rewrite (msum_ext _ _ (fun _ => 0%R)); [apply msum_zero|]. intros a Ha. destruct (Z.eqb_spec (nth a ys 0%Z) c) as [Ea|]; auto. apply Z; try lia.
    intros Eq. apply Ne. rewrite <- Ea. apply (Con a i d); try lia. congruence. }
  assert (M1 : mass_of G ys l j = (/ INR (how_many is_target sd))%R).
  { rewrite mass_msum by auto. rewrite <- (nth_rep (/ INR (how_many is_target sd))%R 0%R (how_many is_target sd) j) by lia. rewrite <- CS by lia. rewrite Lys. apply msum_ext. intros a Ha.
    destruct (Z.eqb_spec (nth a ys 0%Z) l) as [|Na]; auto. symmetry. apply Z; try lia. intros Eq. apply Na. apply (Con a i d); try lia. congruence. }
  assert (In l ys) by (apply nth_In; lia). specialize (Hmax l H). rewrite M0, M1 in Hmax.
  assert (0 < / INR (how_many is_target sd))%R by (apply Rinv_0_lt_compat, lt_0_INR; lia). lra.
Qed.
Theorem C186_label_propagation_regression : forall Xrow cost (plan : list Xrow -> list Xrow -> list R -> list R -> res (list (list R))) X y sd out,
  exact_plan cost plan -> tells_apart cost -> length X = length sd -> length y = length sd -> 0 < how_many is_source sd ->
  let Xs := rows_of is_source sd X in let Xt := rows_of is_target sd X in let ys := rows_of is_source sd y in
  Permutation Xs Xt -> (forall i i' d, i < length Xs -> i' < length Xs -> nth i Xs d = nth i' Xs d -> nth i ys 0%R = nth i' ys 0%R) ->
  otlp_regression plan X y None sd = Ok out ->
  forall i j d, i < length Xs -> j < length Xt -> nth j Xt d = nth i Xs d -> nth j (rows_of is_target sd out) None = Some (nth i ys 0%R).
Proof.
  intros Xrow cost plan X y sd out HP HC LX Ly Hs Xs Xt ys PM Con E i j d Hi Hj Same.
  assert (Hsd : sd <> []) by (intros ->; cbn in Hs; lia).
  assert (LXs : length Xs = how_many is_source sd) by now apply rows_of_length. assert (LXt : length Xt = how_many is_target sd) by now apply rows_of_length.
  assert (Lys : length ys = how_many is_source sd) by now apply rows_of_length.
  assert (PE := E). unfold otlp_regression in PE. rewrite otlp_parts_ok in PE by (auto; easy). cbn [bind] in PE. apply bind_ok in PE as [G [HG _]].
  cbn [opt_rows proportions] in HG. fold Xs Xt in HG.
  assert (NE : Xs <> []) by (intros Z; rewrite Z in Hi; cbn in Hi; lia).
  assert (HG' := HG). rewrite <- LXs, <- LXt in HG'. destruct (mass_stays cost plan HP HC Xs Xt G d PM NE HG') as (CG & Z). rewrite LXs, LXt in CG.
  destruct CG as ((LG & FG) & GN & RS & CS). rewrite !repeat_length in *.
  destruct (C52_regression_labels plan X y None sd G) as (out' & E' & (Lo & _ & To)); auto; try easy.
  rewrite E in E'. injection E' as <-. rewrite To. cbn [opt_rows proportions].
  rewrite nth_indep with (d' := Some (moved_label G ys (repeat (/ INR (how_many is_target sd))%R (how_many is_target sd)) 0)) by (rewrite map_length, seq_length; lia).
  fold ys. rewrite (map_nth (fun j => Some (moved_label G ys (repeat (/ INR (how_many is_target sd))%R (how_many is_target sd)) j))). rewrite seq_nth by lia. cbn [plus]. f_equal.
  rewrite moved_msum by congruence. rewrite (msum_ext _ _ (fun a => nth i ys 0 * at2 G a j)%R).
  - rewrite msum_scal. rewrite Lys, CS by lia. rewrite nth_rep by lia. field. assert (0 < INR (how_many is_target sd))%R by (apply lt_0_INR; lia).
    assert (0 < / INR (how_many is_target sd))%R by now apply Rinv_0_lt_compat. lra.
  - intros a Ha. destruct (Req_EM_T (nth a ys 0%R) (nth i ys 0%R)) as [->|Na]; auto. rewrite Z; [ring|lia|lia|]. intros Eq. apply Na. apply (Con a i d); try lia. congruence.
Qed.

(** Two sources 0 and 1 with labels 5 and 7, targets 1 and 0. *)
Definition gap (x y : nat) : R := Rabs (INR x - INR y).
Definition swap_plan (Xs Xt : list nat) (a b : list R) : res (list (list R)) :=
  match Xs, Xt, a, b with
  | [0;1], [1;0], [a0;a1], [b0;b1] => if Req_EM_T a0 (/ 2) then if Req_EM_T a1 (/ 2) then if Req_EM_T b0 (/ 2) then if Req_EM_T b1 (/ 2) then Ok [[0;/2];[/2;0]]%R
     else Err ValueError else Err ValueError else Err ValueError else Err ValueError
  | _, _, _, _ => Err ValueError
  end.
Example C186_ex : exact_plan gap swap_plan /\ tells_apart gap /\ otlp_discrete swap_plan [0;1;1;0] [5;7;-1;-1]%Z None [1;1;-2;-2]%Z = Ok [-1;-1;7;5]%Z.
Proof.
  assert (T : tells_apart gap).
  { intros x y. unfold gap. split; [apply Rabs_pos|]. split; [|intros ->; rewrite Rminus_diag_eq, Rabs_R0; auto].
    intros H. destruct (Nat.eq_dec x y) as [|N]; auto. exfalso. apply N, INR_eq. destruct (Req_EM_T (INR x - INR y) 0) as [E|E]; [lra|]. now apply Rabs_no_R0 in E. }
  split; [|split]; auto.
  - intros Xs Xt a b G d La Lb E. unfold swap_plan in E.
    destruct Xs as [|[|x] [|[|[|y]] [|z Xs]]]; try discriminate; destruct Xt as [|[|[|x]] [|[|y] [|z Xt]]]; try discriminate.
    destruct a as [|a0 [|a1 [|? ?]]]; try discriminate; destruct b as [|b0 [|b1 [|? ?]]]; try discriminate.
    destruct (Req_EM_T a0 _) as [->|]; try discriminate. destruct (Req_EM_T a1 _) as [->|]; try discriminate. destruct (Req_EM_T b0 _) as [->|]; try discriminate. destruct (Req_EM_T b1 _) as [->|]; try discriminate.
    injection E as <-. split.
    + split; [split; [reflexivity|repeat constructor]|]. cbn [length]. unfold at2. split; [|split].
      * intros [|[|i]] [|[|j]] Hi Hj; try lia; cbn; lra.
      * intros [|[|i]] Hi; try lia; cbn; lra.
      * intros [|[|j]] Hj; try lia; cbn; lra.
    + intros G' (_ & P & _) c. cbn [length] in *. replace (spent 2 2 c _) with 0%R.
      * unfold spent. apply msum_nonneg. intros i Hi. apply msum_nonneg. intros j Hj. apply Rmult_le_pos; [apply T|now apply P].
      * unfold spent, c, at2, gap. cbn. rewrite (Rminus_diag_eq 0 0), (Rminus_diag_eq 1 1), Rabs_R0 by auto. ring.
  - unfold otlp_discrete. rewrite otlp_parts_ok by (easy || reflexivity). cbn [bind opt_rows proportions].
    change (rows_of is_source [1;1;-2;-2]%Z [0;1;1;0]) with [0;1]. change (rows_of is_target [1;1;-2;-2]%Z [0;1;1;0]) with [1;0].
    change (how_many is_source [1;1;-2;-2]%Z) with 2. change (how_many is_target [1;1;-2;-2]%Z) with 2. cbn [repeat swap_plan].
    replace (/ INR 2)%R with (/ 2)%R by (cbn; field). destruct (Req_EM_T _ _) as [_|N]; [|now destruct N]. cbn [bind].
    unfold class_mass. cbn. unfold np_argmax. cbn.
    replace (Rltb (- (0 * 0 + (/ 2 * 1 + 0))) (- (0 * 1 + (/ 2 * 0 + 0)))) with true by (symmetry; apply Rltb_iff; lra).
    replace (Rltb (- (/ 2 * 0 + (0 * 1 + 0))) (- (/ 2 * 1 + (0 * 0 + 0)))) with false by (symmetry; apply Rltb_false; lra). reflexivity.
Qed.
(** Sources 0 and 2, targets 5 and 7: the same variance, other means. *)
Example C186_coral_ex : eigensolver 1 eigh1 /\ pos_def 1 (cov_of 2 (two 0 2)) /\ (forall j l, j < 1 -> l < 1 -> cov_of 2 (two 0 2) j l = cov_of 2 (two 5 7) j l) /\
  mean_of 2 (two 0 2) 0 <> mean_of 2 (two 5 7) 0.
Proof.
  split; [apply C185_ex|]. split; [|split].
  - intros v (i & Hi & Hv). assert (i = 0) as -> by lia. change (0 < 0 + (0 + v 0%nat * cov_of 2 (two 0 2) 0 0 * v 0%nat))%R.
    assert (EC : cov_of 2 (two 0 2) 0 0 = 1%R) by (unfold cov_of, mean_of; cbn; field). rewrite EC. assert (0 < v 0%nat * v 0%nat)%R by now apply Rsqr_pos_lt. lra.
  - intros j l _ _. unfold cov_of, mean_of. cbn. field.
  - unfold mean_of. cbn. intros E. lra.
Qed.
