(** * C245: transport and alignment do not turn the difference of two samples by more than a right angle *)
From Coq Require Import String List ZArith QArith Bool Arith Lia Reals Lra Qreals.
From Verif Require Import Np NpFacts Labels Spec SpecFacts UtilsModel UtilsSpec SelectModel RVec RVecFacts
  MapModel RMat OTModel OTSpec ThmJdot MapSpec MapProofs MapProofs2 ThmMap CovModel CovSpec CovProofs MongeModel MongeProofs.
From Verif Require ThmRecal ThmHull SubProofs ThmMonge TurnProofs ThmBack ThmSpectral ThmSame ThmGroups.
Import ListNotations.
Local Open Scope nat_scope.
Local Open Scope list_scope.
Notation reals := ThmRecal.reals.

(** ** Specification *)
(** The difference of [x'] and [x] and that of [y'] and [y] (rows of D features) make an angle of at most 90 degrees. *)
Definition along (D : nat) (x x' y y' : nat -> R) : Prop := (0 <= sigma D (fun k => (x' k - x k) * (y' k - y k)))%R.
Definition entries (r : list R) : nat -> R := fun k => nth k r 0%R.

(** ** An optimal plan does not gain by exchanging two destinations. *)
Definition at_ (i a : nat) : R := if a =? i then 1%R else 0%R.
Lemma msum_at n f i : i < n -> msum n (fun a => f a * at_ i a)%R = f i.
Proof. intros H. exact (msum_delta n f i H). Qed.
Lemma msum_ats n f i i' : i < n -> i' < n -> msum n (fun a => f a * (at_ i a - at_ i' a))%R = (f i - f i')%R.
Proof.
  intros H H'. rewrite (msum_ext n _ (fun a => f a * at_ i a + -1 * (f a * at_ i' a))%R) by (intros; ring). rewrite msum_plus, msum_scal, !msum_at by auto. ring.
Qed.
Lemma exchange a b cost G i i' j j' : coupling a b G -> (forall G', coupling a b G' -> (spent (length a) (length b) cost G <= spent (length a) (length b) cost G')%R) ->
  i < length a -> i' < length a -> j < length b -> j' < length b -> (0 < at2 G i j)%R -> (0 < at2 G i' j')%R ->
  (cost i j + cost i' j' <= cost i j' + cost i' j)%R.
Proof.
  intros (MG & NG & RG & CG) Best Hi Hi' Hj Hj' P P'. set (n := length a) in *. set (m := length b) in *. set (e := Rmin (at2 G i j) (at2 G i' j')).
  assert (He : (0 < e)%R) by (apply Rmin_glb_lt; auto). assert (E1 : (e <= at2 G i j)%R) by apply Rmin_l. assert (E2 : (e <= at2 G i' j')%R) by apply Rmin_r.
  set (g := fun k l => (at2 G k l + e * ((at_ i' k - at_ i k) * (at_ j l - at_ j' l)))%R).
  set (G' := map (fun k => map (g k) (seq 0 m)) (seq 0 n)).
  assert (AT : forall k l, k < n -> l < m -> at2 G' k l = g k l).
  { intros k l Hk Hl. unfold at2, G'. rewrite (nth_indep _ [] (map (g 0) (seq 0 m))) by (now rewrite map_length, seq_length).
    rewrite (map_nth (fun k => map (g k) (seq 0 m)) (seq 0 n) 0 k), seq_nth by auto. cbn [plus].
    rewrite (nth_indep _ 0%R (g k 0)) by (now rewrite map_length, seq_length). now rewrite (map_nth (g k) (seq 0 m) 0 l), seq_nth by auto. }
  assert (C' : coupling a b G').
  { unfold coupling. fold n. fold m. split; [|split; [|split]].
    - split; [unfold G'; now rewrite map_length, seq_length|]. apply Forall_forall. intros r Hr. apply in_map_iff in Hr as (k & <- & _). now rewrite map_length, seq_length.
    - intros k l Hk Hl. rewrite AT by auto. unfold g, at_. pose proof (NG k l Hk Hl) as N.
      destruct (Nat.eqb_spec k i') as [K'|K'], (Nat.eqb_spec k i) as [K|K], (Nat.eqb_spec l j) as [L|L], (Nat.eqb_spec l j') as [L'|L']; try rewrite K in *; try rewrite L in *; try rewrite <- K' in *; try rewrite <- L' in *; lra.
    - intros k Hk. rewrite (msum_ext m _ (fun l => at2 G k l + e * ((at_ i' k - at_ i k) * (1 * (at_ j l - at_ j' l))))%R) by (intros; rewrite AT by auto; unfold g; ring).
      rewrite msum_plus, RG by auto. rewrite msum_scal, msum_scal, (msum_ats m (fun _ => 1%R)) by auto. ring.
    - intros l Hl. rewrite (msum_ext n _ (fun k => at2 G k l + e * ((at_ j l - at_ j' l) * (1 * (at_ i' k - at_ i k))))%R) by (intros; rewrite AT by auto; unfold g; ring).
      rewrite msum_plus, CG by auto. rewrite msum_scal, msum_scal, (msum_ats n (fun _ => 1%R)) by auto. ring. }
  specialize (Best G' C'). unfold spent in Best.
  rewrite (msum_ext n (fun k => msum m (fun l => cost k l * at2 G' k l))%R (fun k => msum m (fun l => cost k l * at2 G k l) + e * ((cost k j - cost k j') * (at_ i' k - at_ i k)))%R) in Best.
  - rewrite msum_plus, msum_scal, (msum_ats n (fun k => cost k j - cost k j')%R) in Best by auto. nra.
  - intros k Hk. rewrite (msum_ext m _ (fun l => cost k l * at2 G k l + e * ((at_ i' k - at_ i k) * (cost k l * (at_ j l - at_ j' l))))%R) by (intros; rewrite AT by auto; unfold g; ring).
    rewrite msum_plus, !msum_scal, (msum_ats m (fun l => cost k l)) by auto. ring.
Qed.

Section Monotone.
  Variables (D n m : nat) (G : list (list R)) (S T U : list (list R)).
  Hypotheses (LS : length S = n) (LT : length T = m) (Hn : 0 < n).
  Hypothesis OP : ThmRecal.optimal_plan (ThmRecal.sq_euclid D) S T (repeat (/ INR n)%R n) (repeat (/ INR m)%R m) G.
  Hypothesis HU : forall i, i < n -> nth i U [] = map (fun k => msum m (fun j => at2 G i j * nth k (nth j T []) 0) / msum m (fun j => at2 G i j))%R (seq 0 D).
  Lemma rows_G i : i < n -> msum m (fun j => at2 G i j) = (/ INR n)%R.
  Proof. intros H. destruct OP as ((_ & _ & RS & _) & _). rewrite !repeat_length in RS. rewrite (RS i H). now apply ThmSame.nth_rep. Qed.
  Lemma G_nonneg i j : i < n -> j < m -> (0 <= at2 G i j)%R.
  Proof. intros Hi Hj. destruct OP as ((_ & N & _) & _). rewrite !repeat_length in N. now apply N. Qed.
  Definition x_ i k : R := nth k (nth i S []) 0%R.
  Definition y_ j k : R := nth k (nth j T []) 0%R.
  Lemma support i i' j j' : i < n -> i' < n -> j < m -> j' < m -> (0 < at2 G i j)%R -> (0 < at2 G i' j')%R ->
    (0 <= msum D (fun k => (x_ i' k - x_ i k) * (y_ j' k - y_ j k)))%R.
  Proof.
    intros Hi Hi' Hj Hj' P P'. destruct OP as (CP & Best). specialize (Best []).
    pose proof (exchange _ _ _ G i i' j j' CP Best) as X. rewrite !repeat_length in X. specialize (X Hi Hi' Hj Hj' P P'). unfold ThmRecal.sq_euclid in X. cbv beta in X. fold (x_ i) in X.
    assert (Q : (2 * msum D (fun k => (x_ i' k - x_ i k) * (y_ j' k - y_ j k)) =
      (msum D (fun k => (x_ i k - y_ j' k) * (x_ i k - y_ j' k)) + msum D (fun k => (x_ i' k - y_ j k) * (x_ i' k - y_ j k))) -
      (msum D (fun k => (x_ i k - y_ j k) * (x_ i k - y_ j k)) + msum D (fun k => (x_ i' k - y_ j' k) * (x_ i' k - y_ j' k))))%R).
    { rewrite <- !msum_plus. rewrite <- msum_scal. match goal with |- msum D ?f = (msum D ?g - msum D ?h)%R => assert (Z : (msum D f + msum D h = msum D g)%R) end.
      { rewrite <- msum_plus. apply msum_ext. intros; ring. } lra. }
    unfold x_, y_ in Q |- *. lra.
  Qed.
  Lemma monotone i i' : i < n -> i' < n -> along D (entries (nth i S [])) (entries (nth i' S [])) (entries (nth i U [])) (entries (nth i' U [])).
  Proof.
    intros Hi Hi'. unfold along. change (sigma D) with (msum D). set (r := (/ INR n)%R).
    assert (Pn : (0 < INR n)%R) by (apply lt_0_INR; exact Hn). assert (Pr : (0 < r)%R) by now apply Rinv_0_lt_compat.
    assert (EU : forall a k, a < n -> k < D -> entries (nth a U []) k = (INR n * msum m (fun j => at2 G a j * y_ j k))%R).
    { intros a k Ha Hk. unfold entries. rewrite HU by auto. set (f := fun k : nat => (msum m (fun j => at2 G a j * nth k (nth j T []) 0) / msum m (fun j => at2 G a j))%R).
      rewrite (nth_indep _ 0%R (f 0)) by (now rewrite map_length, seq_length). rewrite map_nth, seq_nth by auto. cbn [plus]. unfold f. rewrite rows_G by auto. unfold y_. field. lra. }
    assert (DS : (0 <= msum m (fun j => msum m (fun j' => at2 G i j * at2 G i' j' * msum D (fun k => (x_ i' k - x_ i k) * (y_ j' k - y_ j k)))))%R).
    { apply msum_nonneg. intros j Hj. apply msum_nonneg. intros j' Hj'. pose proof (G_nonneg i j Hi Hj) as N1. pose proof (G_nonneg i' j' Hi' Hj') as N2.
      destruct N1 as [N1|N1]; [|rewrite <- N1; lra]. destruct N2 as [N2|N2]; [|rewrite <- N2; lra]. apply Rmult_le_pos; [apply Rmult_le_pos; lra|]. now apply support. }
    assert (E : msum m (fun j => msum m (fun j' => at2 G i j * at2 G i' j' * msum D (fun k => (x_ i' k - x_ i k) * (y_ j' k - y_ j k))))%R =
      (r * r * msum D (fun k => (x_ i' k - x_ i k) * (entries (nth i' U []) k - entries (nth i U []) k)))%R).
    { rewrite (msum_ext m _ (fun j => msum D (fun k => (x_ i' k - x_ i k) * (at2 G i j * msum m (fun j' => at2 G i' j' * y_ j' k) + - r * (at2 G i j * y_ j k))))%R).
      - rewrite msum_swap. rewrite <- msum_scal. apply msum_ext. intros k Hk. rewrite msum_scal, msum_plus, msum_scal, msum_scal_r, rows_G by auto. rewrite !EU by auto. unfold r. field. lra.
      - intros j Hj. rewrite (msum_ext m _ (fun j' => msum D (fun k => at2 G i j * at2 G i' j' * ((x_ i' k - x_ i k) * (y_ j' k - y_ j k))))%R) by (intros; now rewrite msum_scal).
        rewrite msum_swap. apply msum_ext. intros k Hk.
        rewrite (msum_ext m _ (fun j' => ((x_ i' k - x_ i k) * at2 G i j) * (at2 G i' j' * y_ j' k) + - ((x_ i' k - x_ i k) * at2 G i j * y_ j k) * at2 G i' j')%R) by (intros; ring).
        rewrite msum_plus, !msum_scal. change (msum m (fun l => at2 G i' l)) with (msum m (fun j => at2 G i' j)). rewrite rows_G by auto. fold r. ring. }
    rewrite E in DS. unfold entries, x_ in *. assert (0 < r * r)%R by nra.
    apply Rmult_le_reg_l with (r * r)%R; [auto|]. rewrite Rmult_0_r. exact DS.
  Qed.
End Monotone.

(** OT mapping, fit_transform: two sources are not moved into opposite directions. *)
Theorem C245_transport : forall D tfit X y sda out, ThmRecal.barycentric D tfit ->
  usable true (a_len X) sda -> table X -> (forall l, y = Some l -> length l = a_len X) ->
  let sd := eff_domain (a_len X) sda in some_label is_source sd ->
  ot_fit_transform tfit X y sda = Ok out ->
  let S := reals (rows_of is_source sd (a_rows X)) in let S' := reals (rows_of is_source sd (a_rows out)) in
  length S' = length S /\ forall i i', i < length S -> i' < length S ->
    along D (entries (nth i S [])) (entries (nth i' S [])) (entries (nth i S' [])) (entries (nth i' S' [])).
Proof.
  intros D tfit X y sda out HB U TX Hy sd Hs E S S'.
  destruct (C40_ot_fit_transform tfit X y sda U Hy) as (F1 & F2). fold sd in F1.
  assert (EF := E). unfold ot_fit_transform in EF. apply bind_ok in EF as (tr & Etr & _). rewrite (F2 tr Etr) in E. clear F2. rewrite F1 in Etr. clear F1.
  destruct (HB _ _ _ _ _ Etr) as (G & o & OP & Eo & Dt & Tl & Len & Bar). clear HB Etr.
  destruct (C40_ot_transform true tr X sda U TX) as (m' & Em & _ & Tg & Sr & _). { intros _. exists o. auto. }
  rewrite E in Em. injection Em as <-. fold sd in Tg, Sr.
  assert (Ls : a_len (half is_source sd X) = length S) by (unfold a_len, half, S, ThmRecal.reals; cbn [a_rows]; now rewrite map_length).
  assert (ES : S' = reals (a_rows o)) by (unfold S'; rewrite (Sr Hs o Eo); reflexivity).
  split.
  - rewrite ES, <- Ls, <- Len. unfold ThmRecal.reals, a_len. now rewrite map_length.
  - intros i i' Hi Hi'. rewrite Ls in *. rewrite <- ES in Bar.
    apply (monotone D (length S) (a_len (half is_target sd X)) G S (reals (a_rows (half is_target sd X))) S'); auto; lia.
Qed.
(** One feature: the order of the sources is kept. *)
Theorem C245_transport_order : forall tfit X y sda out, ThmRecal.barycentric 1 tfit ->
  usable true (a_len X) sda -> table X -> (forall l, y = Some l -> length l = a_len X) ->
  let sd := eff_domain (a_len X) sda in some_label is_source sd ->
  ot_fit_transform tfit X y sda = Ok out ->
  let S := reals (rows_of is_source sd (a_rows X)) in let S' := reals (rows_of is_source sd (a_rows out)) in
  forall i i', i < length S -> i' < length S -> (nth 0 (nth i S []) 0 < nth 0 (nth i' S []) 0)%R -> (nth 0 (nth i S' []) 0 <= nth 0 (nth i' S' []) 0)%R.
Proof.
  intros tfit X y sda out HB U TX Hy sd Hs E S S' i i' Hi Hi' H. destruct (C245_transport 1 tfit X y sda out HB U TX Hy Hs E) as (_ & A). specialize (A i i' Hi Hi').
  unfold along, entries in A. cbn in A. fold sd in A. fold S in A. fold S' in A. apply Rnot_lt_le. intros C.
  assert (0 < (nth 0 (nth i' S []) 0 - nth 0 (nth i S []) 0) * (nth 0 (nth i S' []) 0 - nth 0 (nth i' S' []) 0))%R by (apply Rmult_lt_0_compat; lra). unfold S, S' in *. cbn in *. lra.
Qed.

(** ** Monge alignment, any number of domains and features *)
Lemma linear_along n A (b : nat -> R) Z i i' : pos_semidef n A -> along n (Z i) (Z i') (fun j => mmul n Z A i j + b j)%R (fun j => mmul n Z A i' j + b j)%R.
Proof.
  intros P. unfold along. specialize (P (fun k => Z i' k - Z i k)%R). change (sigma n) with (msum n) in *. rewrite msum_swap in P.
  eapply Rle_trans; [exact P|right]. apply msum_ext. intros j _. rewrite msum_scal_r, (Rmult_comm (Z i' j - Z i j)). f_equal. unfold mmul.
  assert (E : (msum n (fun l => (Z i' l - Z i l) * A l j) + msum n (fun l => Z i l * A l j) = msum n (fun l => Z i' l * A l j))%R) by (rewrite <- msum_plus; apply msum_ext; intros; ring).
  lra.
Qed.
Theorem C245_monge : forall eigh bary n bias sources targets, NoDup (map fst (sources ++ targets)) ->
  let fitted := mlm_fit_num eigh bary n bias sources targets in
  forall k Z, In k (map fst (sources ++ targets)) -> exists Y, mlm_transform_num n fitted k Z = Ok Y /\ forall i i', along n (Z i) (Z i') (Y i) (Y i').
Proof.
  intros eigh bary n bias sources targets ND fitted k Z Hk. apply in_map_iff in Hk as ([k' [m X]] & <- & I). cbn [fst].
  unfold mlm_transform_num, fitted. rewrite (ThmMonge.lookup eigh bary n bias sources targets k' m X ND I). cbn [bind].
  eexists. split; [reflexivity|]. intros i i'. apply linear_along. apply ThmBack.bw_psd.
Qed.

(** ** CORAL *)
(** One feature: the order is kept, and strictly when the targets vary. *)
Theorem C245_coral_order : forall eigh ms mt Xs Xt, eigensolver 1 eigh -> 0 < ms -> 0 < mt -> (0 < cov_of ms Xs 0%nat 0%nat)%R -> forall Z i i',
  ((Z i 0%nat <= Z i' 0%nat)%R -> (coral_map_source eigh false 1 ms mt Xs Xt Z i 0%nat <= coral_map_source eigh false 1 ms mt Xs Xt Z i' 0%nat)%R) /\
  ((0 < cov_of mt Xt 0%nat 0%nat)%R -> (Z i 0%nat < Z i' 0%nat)%R -> (coral_map_source eigh false 1 ms mt Xs Xt Z i 0%nat < coral_map_source eigh false 1 ms mt Xs Xt Z i' 0%nat)%R).
Proof.
  intros eigh ms mt Xs Xt HE Hms Hmt HV Z i i'.
  assert (P : pos_def 1 (cov_of ms Xs)).
  { intros v (k & Hk & Hv). replace k with 0 in Hv by lia. cbn [sigma]. assert (0 < v 0%nat * v 0%nat)%R by (apply Rsqr_pos_lt; auto). cbn. pose proof (Rmult_lt_0_compat _ _ HV H). lra. }
  assert (U : forall C, ThmGroups.unrelated 1 (fun j => j) C) by (intros C a b Ha Hb N; exfalso; apply N; lia).
  rewrite !(ThmGroups.C244_coral_uncorrelated eigh 1 ms mt Xs Xt HE Hms Hmt P (U _) (U _)) by lia. pose proof (sqrt_lt_R0 _ HV) as Q. unfold Rdiv. split.
  - intros H. apply Rmult_le_compat_r; [left; now apply Rinv_0_lt_compat|]. apply Rmult_le_compat_r; [apply sqrt_pos|lra].
  - intros HT H. apply Rmult_lt_compat_r; [now apply Rinv_0_lt_compat|]. apply Rmult_lt_compat_r; [now apply sqrt_lt_R0|lra].
Qed.
(** Several features: sources spread along the second axis, targets along the diagonal. The samples (0, 0) and (-1, 4) are moved into opposite directions. *)
Definition two_axes : mat := ThmGroups.cross 1 10.
Definition diagonal4 : mat := fun i j => match i, j with
  | 0, 0 => 5%R | 0, 1 => 4%R | 1, 0 => (-5)%R | 1, 1 => (-4)%R | 2, 0 => 4%R | 2, 1 => 5%R | 3, 0 => (-4)%R | 3, 1 => (-5)%R | _, _ => 0%R end.
Definition pair2 : mat := fun i j => match i, j with 1, 0 => (-1)%R | 1, 1 => 4%R | _, _ => 0%R end.
Lemma diagonal_cov j l : j < 2 -> l < 2 -> cov_of 4 diagonal4 j l = (if j =? l then 41 / 2 else 20)%R.
Proof. intros Hj Hl. unfold cov_of, mean_of. destruct j as [|[|j]], l as [|[|l]]; try lia; cbn; field. Qed.
Definition root4 : mat := fun i j => (/ sqrt 2 * (if i =? j then 5 else 4))%R.
Lemma root4_is eigh : eigensolver 2 eigh -> meq 2 2 (sqrtm eigh 2 (emp_cov false 4 diagonal4)) root4.
Proof.
  intros HE. assert (Q : (/ sqrt 2 * / sqrt 2 = / 2)%R) by (rewrite <- Rinv_mult, sqrt_sqrt by lra; reflexivity).
  assert (P0 : (0 < / sqrt 2)%R) by (apply Rinv_0_lt_compat, sqrt_lt_R0; lra).
  apply (root_unique eigh 2 HE).
  - intros; apply sqrtm_sym.
  - intros i j. unfold root4. now rewrite Nat.eqb_sym.
  - apply ThmSame.sqrtm_psd.
  - intros v. cbn. unfold root4. cbn. pose proof (Rle_0_sqr (v 0%nat + v 1%nat)) as A. pose proof (Rle_0_sqr (v 0%nat)) as B. pose proof (Rle_0_sqr (v 1%nat)) as C. unfold Rsqr in *.
    replace (_ + _)%R with (/ sqrt 2 * (4 * ((v 0%nat + v 1%nat) * (v 0%nat + v 1%nat)) + v 0%nat * v 0%nat + v 1%nat * v 1%nat))%R by ring. apply Rmult_le_pos; lra.
  - intros i j Hi Hj. rewrite (sqrtm_sq eigh 2 HE (emp_cov false 4 diagonal4) (ThmGroups.emp_sym false 4 diagonal4) (ThmGroups.emp_psd false 2 4 diagonal4 ltac:(lia)) i j Hi Hj).
    change (emp_cov false 4 diagonal4 i j) with (cov_of 4 diagonal4 i j). rewrite diagonal_cov by auto. unfold mmul, root4. cbn [msum].
    set (q := (/ sqrt 2)%R) in *. destruct i as [|[|i]], j as [|[|j]]; try lia; cbn [Nat.eqb]; nra.
Qed.
Theorem C245_coral_refuted : forall eigh, eigensolver 2 eigh -> pos_def 2 (cov_of 4 two_axes) /\ pos_def 2 (cov_of 4 diagonal4) /\
  let Y := coral_map_source eigh false 2 4 4 two_axes diagonal4 pair2 in ~ along 2 (pair2 0) (pair2 1) (Y 0) (Y 1).
Proof.
  intros eigh HE.
  assert (P : pos_def 2 (cov_of 4 two_axes)).
  { intros v (i & Hi & Hv). cbn [sigma]. unfold two_axes. rewrite !ThmGroups.cross_cov. destruct i as [|[|i]]; [| |lia].
    - assert (0 < v 0%nat * v 0%nat)%R by (apply Rsqr_pos_lt; auto). assert (0 <= v 1%nat * v 1%nat)%R by apply Rle_0_sqr. lra.
    - assert (0 < v 1%nat * v 1%nat)%R by (apply Rsqr_pos_lt; auto). assert (0 <= v 0%nat * v 0%nat)%R by apply Rle_0_sqr. lra. }
  split; [exact P|]. split.
  { intros v (i & Hi & Hv). cbn [sigma]. rewrite !diagonal_cov by lia. cbn [Nat.eqb]. pose proof (Rle_0_sqr (v 0%nat + v 1%nat)) as A. unfold Rsqr in A. destruct i as [|[|i]]; [| |lia].
    - assert (0 < v 0%nat * v 0%nat)%R by (apply Rsqr_pos_lt; auto). assert (0 <= v 1%nat * v 1%nat)%R by apply Rle_0_sqr. lra.
    - assert (0 < v 1%nat * v 1%nat)%R by (apply Rsqr_pos_lt; auto). assert (0 <= v 0%nat * v 0%nat)%R by apply Rle_0_sqr. lra. }
  intros Y A. set (Cs := emp_cov false 4 two_axes). assert (U : ThmGroups.unrelated 2 (fun j => j) Cs).
  { intros j l Hj Hl N. change (Cs j l) with (cov_of 4 two_axes j l). unfold two_axes. rewrite ThmGroups.cross_cov. destruct j as [|[|j]], l as [|[|l]]; try lia; reflexivity. }
  assert (SC : forall i j, Cs i j = Cs j i) by (intros; apply ThmGroups.emp_sym).
  pose proof (ThmGroups.unrelated_invsqrtm eigh 2 (fun j => j) HE Cs SC P U) as V. destruct (roots_inverse eigh 2 HE Cs SC P) as (I & _).
  assert (DI : forall j, j < 2 -> (invsqrtm eigh 2 Cs j j * sqrt (Cs j j) = 1)%R).
  { intros j Hj. specialize (I j j Hj Hj). rewrite (ThmGroups.diag_mmul 2 _ _ j (ThmGroups.unrelated_sqrtm eigh 2 _ HE Cs SC (ThmGroups.pd_psd 2 Cs P) U) Hj) in I.
    rewrite (ThmGroups.diag_sqrtm eigh 2 Cs j HE SC (ThmGroups.pd_psd 2 Cs P) U Hj) in I. unfold delta in I. now rewrite Nat.eqb_refl in I. }
  pose proof (DI 0 ltac:(lia)) as D0. pose proof (DI 1 ltac:(lia)) as D1. pose proof (V 0 1 ltac:(lia) ltac:(lia) ltac:(discriminate)) as V01. pose proof (V 1 0 ltac:(lia) ltac:(lia) ltac:(discriminate)) as V10.
  assert (C0 : Cs 0 0 = (/ 2)%R). { change (Cs 0 0) with (cov_of 4 two_axes 0 0). unfold two_axes. rewrite ThmGroups.cross_cov. field. }
  assert (C1 : Cs 1 1 = (10 * 10 * / 2)%R). { change (Cs 1 1) with (cov_of 4 two_axes 1 1). unfold two_axes. rewrite ThmGroups.cross_cov. field. }
  assert (P0 : (0 < / sqrt 2)%R) by (apply Rinv_0_lt_compat, sqrt_lt_R0; lra).
  rewrite C0 in D0. rewrite C1, sqrt_mult, sqrt_square in D1 by lra. rewrite sqrt_inv in D0, D1.
  pose proof (root4_is eigh HE) as RT. set (p := invsqrtm eigh 2 Cs) in *. set (q := (/ sqrt 2)%R) in *.
  unfold along, Y, coral_map_source in A. fold Cs in A. fold p in A. cbn [sigma] in A. unfold mmul in A. cbn [msum] in A.
  rewrite !(RT 0 0), !(RT 0 1), !(RT 1 0), !(RT 1 1) in A by lia. unfold root4 in A. fold q in A. cbn [Nat.eqb] in A. rewrite V01, V10 in A. cbn [pair2] in A.
  assert (M0 : col_mean 4 two_axes 0 = 0%R) by (unfold col_mean; cbn; field). assert (M1 : col_mean 4 two_axes 1 = 0%R) by (unfold col_mean; cbn; field).
  rewrite M0, M1 in A. set (a := p 0 0) in *. set (b := p 1 1) in *. assert (aq : (a * q = 1)%R) by exact D0. assert (bq : (10 * (b * q) = 1)%R) by (rewrite <- D1; ring). nra.
Qed.

(** ** Example: sources 0 and 1, targets 13 and 10 are matched as 10 and 13. *)
Example C245_ex : let X := ThmRecal.col_of [0;1;13;10]%Z in let sda := SDArr [1;1;-2;-2]%Z in
  ThmRecal.barycentric 1 ThmRecal.tfit13 /\ usable true (a_len X) sda /\ table X /\ ot_fit_transform ThmRecal.tfit13 X None sda = Ok (ThmRecal.col_of [10;13;13;10]%Z).
Proof. intros X sda. destruct ThmRecal.C193_mapping_ex as (A & B & C & D & _). auto. Qed.
(** One feature, sources 1 and -1 (and two at 0): the hypotheses of the CORAL theorem are met. *)
Example C245_ex_coral : exists eigh, eigensolver 1 eigh /\ (0 < cov_of 4 (ThmGroups.cross 1 2) 0%nat 0%nat)%R.
Proof. destruct (ThmSpectral.C86_eigensolver_exists 1) as [eigh HE]. exists eigh. split; [exact HE|]. rewrite ThmGroups.cross_cov. lra. Qed.
