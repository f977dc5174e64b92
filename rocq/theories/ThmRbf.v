(** C177 for the default kernel. The Gaussian kernel has no finite-dimensional feature map on the whole space, but it has one on every
    finite data set, which is all the weights depend on. *)
From Coq Require Import String List ZArith QArith Bool Arith Lia Reals Lra Psatz.
From Verif Require Import Np NpFacts Labels Spec SpecFacts UtilsModel UtilsSpec UtilsProofs SelectModel RVec RVecFacts FWModel FWSpec FWProofs ThmFW MapModel MapSpec RMat ReweightModel ReweightSpec ReweightProofs ThmReweight ThmRew2 TarsModel ThmMmd PDKernel ThmSpectral.
Import ListNotations.
Local Open Scope nat_scope.
Local Open Scope list_scope.

(** ** Specification *)
(** sklearn's rbf kernel: exp(-gamma |x - y|^2). *)
Definition rbf (gamma : R) (x y : list R) : R := exp (- (gamma * vsum (map2 (fun a b => (a - b) * (a - b)) x y)))%R.
(** [phi] gives D features to every sample, and [kern] is their inner product on the samples in [X]. *)
Definition features_on {Row} (X : list Row) (D : nat) (phi : Row -> nat -> R) (kern : Row -> Row -> R) : Prop :=
  forall x y, In x X -> In y X -> kern x y = msum D (fun l => phi x l * phi y l)%R.

(** ** Every positive definite kernel has features on a finite set *)
Section Features.
  Context {A : Type}.
  Variable a0 : A.
  Variable eqd : forall a b : A, {a = b} + {a <> b}.
  Fixpoint pos (x : A) (l : list A) : option nat :=
    match l with [] => None | h :: t => if eqd x h then Some 0 else option_map S (pos x t) end.
  Lemma pos_in x : forall l, In x l -> exists i, pos x l = Some i /\ i < length l /\ nth i l a0 = x.
  Proof.
    induction l as [|h t IH]; [contradiction|]. intros H. cbn. destruct (eqd x h) as [->|N]; [exists 0; cbn; auto with arith|].
    destruct H as [->|H]; [congruence|]. destruct (IH H) as (i & E & L & Q). rewrite E. exists (S i). cbn. auto with arith.
  Qed.
  Lemma pos_out x : forall l, ~ In x l -> pos x l = None.
  Proof. induction l as [|h t IH]; intros H; [reflexivity|]. cbn. destruct (eqd x h) as [->|N]; [exfalso; apply H; cbn; auto|]. rewrite IH; auto. intros I. apply H. cbn; auto. Qed.
  Lemma vsum_seq f n : vsum (map f (seq 0 n)) = msum n f.
  Proof.
    assert (G : forall n a, vsum (map f (seq a n)) = msum n (fun i => f (a + i))).
    { clear n. induction n as [|n IH]; intros a; [reflexivity|]. rewrite seq_S, map_app. rewrite vsum_app. rewrite IH. cbn. ring. }
    rewrite G. reflexivity.
  Qed.

  Lemma features_exist (pts : list A) (K : A -> A -> R) : (forall x y, K x y = K y x) -> pd pts K ->
    exists D phi, features_on pts D phi K /\ forall x l, ~ In x pts -> phi x l = 0%R.
  Proof.
    intros SY P. set (n := length pts). set (C := fun i j => K (nth i pts a0) (nth j pts a0)).
    destruct (C86_eigensolver_exists n) as (eigh & HE). specialize (HE C ltac:(intros; apply SY)). destruct (eigh C) as [w V]. unfold diagonalises in HE.
    change sigma with msum in HE.
    assert (W : forall k, k < n -> (0 <= w k)%R).
    { intros k Hk. pose proof (pd_quad_nonneg pts K (map (fun i => (V i k, nth i pts a0)) (seq 0 n)) P) as Q.
      assert (I : forall cx, In cx (map (fun i => (V i k, nth i pts a0)) (seq 0 n)) -> In (snd cx) pts).
      { intros cx H. apply in_map_iff in H as (i & <- & Hi). apply in_seq in Hi. apply nth_In. unfold n in Hi. lia. }
      specialize (Q I). unfold quad in Q. rewrite map_map in Q. cbn [fst snd] in Q. rewrite vsum_seq in Q.
      rewrite (msum_ext n _ (fun i => msum n (fun j => V i k * V j k * C i j))%R) in Q
        by (intros i _; rewrite map_map; cbn [fst snd]; apply vsum_seq).
      rewrite (msum_ext n _ (fun i => msum n (fun l => w l * (V i k * V i l) * msum n (fun j => V j k * V j l)))%R) in Q.
      2:{ intros i Hi. rewrite (msum_ext n _ (fun j => msum n (fun l => w l * (V i k * V i l) * (V j k * V j l))))%R.
          - rewrite msum_swap. apply msum_ext. intros l _. apply (msum_scal n (w l * (V i k * V i l)) (fun j => V j k * V j l))%R.
          - intros j Hj. rewrite (proj1 (HE i j Hi Hj)), <- (msum_scal n (V i k * V j k) (fun l => V i l * w l * V j l))%R. apply msum_ext. intros; ring. }
      rewrite (msum_ext n _ (fun i => w k * (V i k * V i k)))%R in Q.
      2:{ intros i Hi. rewrite (msum_ext n _ (fun l => w l * (V i k * V i l) * (if l =? k then 1 else 0)))%R.
          - rewrite (msum_delta n (fun l => w l * (V i k * V i l))%R k Hk). reflexivity.
          - intros l Hl. rewrite (proj1 (proj2 (HE k l Hk Hl))). rewrite (Nat.eqb_sym l k). reflexivity. }
      rewrite (msum_scal n (w k) (fun i => V i k * V i k))%R in Q. rewrite (proj1 (proj2 (HE k k Hk Hk))), Nat.eqb_refl in Q. lra. }
    exists n, (fun x l => match pos x pts with Some i => V i l * sqrt (w l) | None => 0 end)%R. split.
    - intros x y Hx Hy. destruct (pos_in x pts Hx) as (i & Ei & Li & Ni). destruct (pos_in y pts Hy) as (j & Ej & Lj & Nj). rewrite Ei, Ej.
      transitivity (C i j); [unfold C; now rewrite Ni, Nj|]. rewrite (proj1 (HE i j Li Lj)). apply msum_ext. intros l Hl.
      rewrite <- (sqrt_sqrt (w l)) at 1 by auto. ring.
    - intros x l H. now rewrite pos_out.
  Qed.
End Features.

Lemma rbf_dist2 g x y : rbf g x y = exp (- (g * dist2 x y))%R.
Proof.
  unfold rbf. do 3 f_equal. unfold dist2, dot, vsub. revert y. induction x as [|a x IH]; intros [|b y]; auto. cbn. now rewrite IH.
Qed.
Lemma rbf_sym g x y : rbf g x y = rbf g y x.
Proof. unfold rbf. do 3 f_equal. revert y. induction x as [|a x IH]; intros [|b y]; auto. cbn. rewrite IH. ring. Qed.
Definition row_dec : forall a b : list R, {a = b} + {a <> b} := list_eq_dec Req_EM_T.

(** On every finite data set the rbf kernel is an inner product of finitely many features. *)
Theorem C177_feature_map : forall gamma d (X : list (list R)), (0 <= gamma)%R -> (forall x, In x X -> length x = d) ->
  exists D phi, features_on X D phi (rbf gamma) /\ forall x l, ~ In x X -> phi x l = 0%R.
Proof.
  intros g d X Hg HX. apply (features_exist [] row_dec); [apply rbf_sym|].
  apply (pd_ext X (fun x y => exp (- (g * dist2 x y)))%R); [intros; symmetry; apply rbf_dist2|]. apply (pd_gauss X d); auto.
Qed.
Section Transfer.
  Context {Row : Type}.
  Variables (D : nat) (phi : Row -> nat -> R) (kern : Row -> Row -> R) (X : list Row).
  Hypothesis HF : features_on X D phi kern.
  Definition kern' (x y : Row) : R := msum D (fun l => phi x l * phi y l)%R.
  Lemma kern'_of : kernel_of D phi kern'.
  Proof. intros x y. reflexivity. Qed.
  Lemma kernel_matrix_same A B : incl A X -> incl B X -> kernel_matrix Row kern A B = kernel_matrix Row kern' A B.
  Proof. intros HA HB. unfold kernel_matrix. apply map_ext_in. intros x Hx. apply map_ext_in. intros y Hy. apply HF; auto. Qed.
  Lemma rows_incl f sd : incl (rows_of f sd X) X.
  Proof. intros x H. unfold rows_of in H. apply in_map_iff in H as ((d & y) & <- & H). apply filter_In in H as [H _]. apply in_combine_r in H. exact H. Qed.
  Lemma kmm_fit_same slsqp B eps mi solver sda : kmm_fit Row slsqp kern B eps mi solver X sda = kmm_fit Row slsqp kern' B eps mi solver X sda.
  Proof.
    unfold kmm_fit. destruct (rw_split Row X sda) as [[s t]|] eqn:E; [|reflexivity]. cbn [bind]. apply rw_split_ok in E as (_ & _ & -> & ->). cbn [fst snd].
    unfold kmm_optim. now rewrite !kernel_matrix_same by apply rows_incl.
  Qed.
End Transfer.

(** KMM with the scipy solver: the weights are allowed and best, for every kernel that has features on the data. *)
Theorem C177_kmm_scipy_on : forall Row D phi kern slsqp B eps max_iter (X : list Row) sda w Xs, features_on X D phi kern -> minimises slsqp ->
  kmm_fit Row slsqp kern B eps max_iter "scipy" X sda = Ok (w, Xs) ->
  let sd := eff_domain (length X) sda in let Xt := rows_of is_target sd X in
  Xs = rows_of is_source sd X /\
  (Xs <> [] -> Xt <> [] -> kmm_allowed B (kmm_slack eps (length Xs)) (length Xs) w /\
   forall w', kmm_allowed B (kmm_slack eps (length Xs)) (length Xs) w' -> (mmd2 D phi w Xs Xt <= mmd2 D phi w' Xs Xt)%R).
Proof.
  intros Row D phi kern slsqp B eps mi X sda w Xs HF Hm H. rewrite (kmm_fit_same D phi kern X HF) in H.
  exact (C177_kmm_scipy Row D phi _ slsqp B eps mi X sda w Xs (kern'_of D phi) Hm H).
Qed.

(** KMM with the frank-wolfe solver and the default kernel; its value at (x, x) is 1. *)
Theorem C177_rbf_frank_wolfe : forall gamma d slsqp B eps max_iter (X : list (list R)) sda w Xs,
  (0 <= gamma)%R -> (forall x, In x X -> length x = d) -> (forall e, eps = Some e -> 0 <= e <= 1)%R -> 1 <= max_iter ->
  kmm_fit (list R) slsqp (rbf gamma) B eps max_iter "frank-wolfe" X sda = Ok (w, Xs) ->
  let sd := eff_domain (length X) sda in let Xt := rows_of is_target sd X in
  let e := kmm_slack eps (length Xs) in
  Xs = rows_of is_source sd X /\ exists D phi, features_on X D phi (rbf gamma) /\
  (Xs <> [] -> Xt <> [] -> forall w', length w' = length Xs -> nonneg w' ->
     (INR (length Xs) * (1 - e) <= vsum w' <= INR (length Xs) * (1 + e) ->
      mmd2 D phi w Xs Xt <= mmd2 D phi w' Xs Xt + 16 * (1 + e) * (1 + e) / (INR max_iter + 2))%R).
Proof.
  intros g d slsqp B eps mi X sda w Xs Hg HX He Hmi H sd Xt e. destruct (C177_feature_map g d X Hg HX) as (D & phi & HF & HZ).
  rewrite (kmm_fit_same D phi (rbf g) X HF) in H.
  destruct (C177_kmm_frank_wolfe (list R) D phi _ slsqp B eps mi X sda w Xs 1%R (kern'_of D phi)) as (E & G); auto.
  - intros x. destruct (in_dec row_dec x X) as [I|N].
    + unfold kern'. rewrite <- (HF x x I I). rewrite rbf_dist2. replace (dist2 x x) with 0%R; [rewrite Rmult_0_r, Ropp_0, exp_0; lra|].
      unfold dist2, dot, vsub. clear. induction x as [|a x IH]; [reflexivity|]. cbn. rewrite <- IH. ring.
    + unfold kern'. rewrite (msum_ext D _ (fun _ => 0%R)); [rewrite msum_zero; lra|]. intros l _. rewrite HZ by auto. ring.
  - split; [exact E|]. exists D, phi. split; [exact HF|]. intros N1 N2 w' L N S. specialize (G N1 N2 w' L N S).
    replace (16 * 1 * (1 + kmm_slack eps (length Xs)) * (1 + kmm_slack eps (length Xs)))%R with (16 * (1 + e) * (1 + e))%R in G by (unfold e; ring). exact G.
Qed.

Theorem C177_rbf_scipy : forall gamma d slsqp B eps max_iter (X : list (list R)) sda w Xs,
  (0 <= gamma)%R -> (forall x, In x X -> length x = d) -> minimises slsqp ->
  kmm_fit (list R) slsqp (rbf gamma) B eps max_iter "scipy" X sda = Ok (w, Xs) ->
  let sd := eff_domain (length X) sda in let Xt := rows_of is_target sd X in
  Xs = rows_of is_source sd X /\ exists D phi, features_on X D phi (rbf gamma) /\
  (Xs <> [] -> Xt <> [] -> kmm_allowed B (kmm_slack eps (length Xs)) (length Xs) w /\
   forall w', kmm_allowed B (kmm_slack eps (length Xs)) (length Xs) w' -> (mmd2 D phi w Xs Xt <= mmd2 D phi w' Xs Xt)%R).
Proof.
  intros g d slsqp B eps mi X sda w Xs Hg HX Hm H sd Xt. destruct (C177_feature_map g d X Hg HX) as (D & phi & HF & _).
  destruct (C177_kmm_scipy_on _ D phi _ slsqp B eps mi X sda w Xs HF Hm H) as (E & G). split; [exact E|]. exists D, phi. split; [exact HF|exact G].
Qed.

(** MMDTarS: the cost depends on the kernel at the samples only. *)
Lemma tars_cost_same {Row} row0 D (phi : Row -> nat -> R) kern X lkern inv reg Xs Xt ys a : features_on X D phi kern ->
  incl Xs X -> incl Xt X -> length Xs = length ys ->
  tars_cost Row row0 lkern kern inv reg Xs Xt ys a = tars_cost Row row0 lkern (kern' D phi) inv reg Xs Xt ys a.
Proof.
  intros HF I1 I2 L. assert (EK : forall i j, i < length ys -> j < length ys -> tars_K Row row0 kern Xs i j = tars_K Row row0 (kern' D phi) Xs i j).
  { intros i j Hi Hj. unfold tars_K. apply HF; apply I1, nth_In; lia. }
  assert (EA : forall i j, tars_A Row row0 lkern kern inv reg Xs ys i j = tars_A Row row0 lkern (kern' D phi) inv reg Xs ys i j).
  { intros i j. unfold tars_A, mmul. apply msum_ext. intros k Hk. f_equal. apply msum_ext. intros l Hl. f_equal. now apply EK. }
  assert (EM : forall j, tars_M Row row0 lkern kern inv reg Xs Xt ys j = tars_M Row row0 lkern (kern' D phi) inv reg Xs Xt ys j).
  { intros j. unfold tars_M. apply msum_ext. intros l Hl. f_equal. apply msum_ext. intros i Hi. f_equal. apply HF; [apply I2|apply I1]; apply nth_In; lia. }
  unfold tars_cost. f_equal.
  - f_equal. apply msum_ext. intros p _. f_equal. apply msum_ext. intros q _. f_equal. unfold tars_P. f_equal. unfold mmul.
    apply msum_ext. intros k _. f_equal. apply msum_ext. intros l _. f_equal. apply EA.
  - apply msum_ext. intros p _. f_equal. unfold tars_q. f_equal. apply msum_ext. intros j _. f_equal. apply EM.
Qed.

Theorem C177_rbf_mmdtars : forall gamma d lkern inv reg solve (X : list (list R)) y sda st, (0 <= gamma)%R -> (forall x, In x X -> length x = d) ->
  (forall Xs Xt ys p a, solve Xs Xt ys p = Ok a -> meets_problem p a /\ forall a', length a' = length a -> meets_problem p a' ->
     (tars_cost (list R) [] lkern (rbf gamma) inv reg Xs Xt ys a <= tars_cost (list R) [] lkern (rbf gamma) inv reg Xs Xt ys a')%R) ->
  tars_fit (list R) solve X y sda = Ok st ->
  let sd := eff_domain (length X) sda in
  let Xs := rows_of is_source sd X in let Xt := rows_of is_target sd X in let ys := rows_of is_source sd y in let m := length ys in
  exists D phi, features_on X D phi (rbf gamma) /\
  let after alpha := mmd2 D phi (smoothed (tars_omega lkern inv reg ys) m (map (class_weight (unique ys) alpha) ys)) Xs Xt in
  (Xs <> [] -> Xt <> [] ->
  tars_allowed ys (ts_alpha (list R) st) /\ ts_weights (list R) st = map (class_weight (unique ys) (ts_alpha (list R) st)) ys /\
  forall alpha, tars_allowed ys alpha ->
    (after (ts_alpha (list R) st) <= after alpha + / 1000000000000 / (INR m * INR m) * msum (length alpha) (fun a => nth a alpha 0 * nth a alpha 0))%R).
Proof.
  intros g d lkern inv reg solve X y sda st Hg HX Hsol H sd Xs Xt ys m. destruct (C177_feature_map g d X Hg HX) as (D & phi & HF & _).
  exists D, phi. split; [exact HF|]. intros after N1 N2.
  pose (ok := fun A B C => (list_eq_dec row_dec A Xs, list_eq_dec row_dec B Xt, list_eq_dec Z.eq_dec C ys)).
  pose (solve' := fun A B C p => match ok A B C with (left _, left _, left _) => solve A B C p | _ => Err ValueError end).
  assert (Ly : length Xs = length ys /\ tars_fit (list R) solve' X y sda = Ok st).
  { unfold tars_fit in H |- *. apply bind_ok in H as [sd' [Hc H]]. rewrite Hc. cbn [bind]. apply rw_check_ok in Hc as (-> & L & N). fold sd in H, L, N |- *.
    apply bind_ok in H as [p1 [Hp1 H]]. rewrite Hp1. cbn [bind]. rewrite split_ok in Hp1; auto; [|easy|intros xs [[= <-]|[]]; auto]. injection Hp1 as <-.
    apply bind_ok in H as [p2 [Hp2 H]]. rewrite Hp2. cbn [bind].
    assert (Ly : length sd = length y).
    { destruct (Nat.eq_dec (length y) (length sd)) as [|Hne]; auto. exfalso.
      pose proof (split_bad_length [] y [] sd N Hne) as Q. cbn [app] in Q. rewrite Q in Hp2. discriminate. }
    rewrite split_ok in Hp2; auto; [|easy|intros xs [[= <-]|[]]; auto]. injection Hp2 as <-. split; [unfold Xs, ys; now rewrite !rows_of_length|].
    cbn in H |- *. fold ys Xs Xt in H |- *. unfold solve', ok.
    destruct (list_eq_dec row_dec Xs Xs); [|easy]. destruct (list_eq_dec row_dec Xt Xt); [|easy]. destruct (list_eq_dec Z.eq_dec ys ys); [|easy]. exact H. }
  destruct Ly as [Ly H'].
  refine (C177_mmdtars (list R) [] D phi lkern (kern' D phi) inv reg solve' X y sda st (kern'_of D phi) _ H' N1 N2).
  intros A B C p a E. unfold solve', ok in E. destruct (list_eq_dec row_dec A Xs) as [->|]; [|discriminate].
  destruct (list_eq_dec row_dec B Xt) as [->|]; [|discriminate]. destruct (list_eq_dec Z.eq_dec C ys) as [->|]; [|discriminate].
  destruct (Hsol _ _ _ _ _ E) as (M & O). split; [exact M|]. intros a' La Ma. specialize (O a' La Ma).
  rewrite !(tars_cost_same [] D phi (rbf g) X) in O; auto; apply rows_incl.
Qed.

(** ** Concrete cases *)
(** Sources and targets 0 and 1: the uniform weights are optimal. *)
Example C177_rbf_scipy_ex : kmm_fit (list R) (guarded [1; 1]%R) (rbf (1/2)) 1000 (Some (1/2)%R) 100 "scipy" [[0]; [1]; [0]; [1]]%R (SDArr [1; 1; -2; -2]%Z) = Ok ([1; 1]%R, [[0]; [1]]%R).
Proof.
  unfold kmm_fit. cbn -[kmm_optim kernel_matrix]. set (Xs := [[0]; [1]]%R).
  destruct (C177_feature_map (1/2) 1 Xs ltac:(lra)) as (D & phi & HF & _); [intros x [<-|[<-|[]]]; reflexivity|].
  assert (E : kmm_optim (list R) (guarded [1; 1]%R) (rbf (1/2)) 1000 (Some (1/2)%R) 100 "scipy" Xs Xs = Ok [1; 1]%R).
  { unfold kmm_optim. rewrite (kernel_matrix_same D phi _ Xs HF) by apply incl_refl.
    unfold qp_solve. change (String.eqb "scipy" "scipy") with true. cbv iota. unfold guarded. destruct (ClassicalDedekindReals.sig_not_dec _) as [N|N]; [reflexivity|].
    exfalso. apply N. clear N. split.
    - apply (kmm_meets 1000 (1/2) 2). split; [reflexivity|]. split; [repeat constructor; lra|cbn; lra].
    - intros x' a b M Ha Hb. apply (kmm_meets 1000 (1/2) 2) in M as (Lx & _ & _).
      rewrite (qp_func_total 2) in Ha by (reflexivity || apply (ker_square (kern' D phi) Xs)).
      rewrite (qp_func_total 2) in Hb by (reflexivity || exact Lx || apply (ker_square (kern' D phi) Xs)).
      injection Ha as <-. injection Hb as <-.
      pose proof (fun w => kmm_obj D _ (kern' D phi) (kern'_of D phi) Xs Xs w ltac:(easy) ltac:(easy)) as O.
      match goal with |- (?A <= ?B)%R =>
        assert (EA : A = (INR 2 * INR 2 / 2 * (mmd2 D phi [1; 1]%R Xs Xs - target_norm2 D phi Xs))%R) by exact (O [1; 1]%R eq_refl);
        assert (EB : B = (INR 2 * INR 2 / 2 * (mmd2 D phi x' Xs Xs - target_norm2 D phi Xs))%R) by exact (O x' Lx);
        rewrite EA, EB; clear EA EB O end.
      assert (Z0 : mmd2 D phi [1; 1]%R Xs Xs = 0%R).
      { unfold mmd2. rewrite (msum_ext D _ (fun _ => 0%R)); [apply msum_zero|]. intros l _. cbn [length Xs repeat]. unfold Rsqr. ring. }
      rewrite Z0. assert (0 <= mmd2 D phi x' Xs Xs)%R by (unfold mmd2; apply msum_nonneg; intros; apply Rle_0_sqr).
      set (q := mmd2 _ _ x' _ _) in *. set (t := target_norm2 _ _ _). clearbody q t. change (INR 2) with (1 + 1)%R. lra. }
  rewrite E. reflexivity.
Qed.

(** One source 0 and one target 3. *)
Example C177_rbf_frank_wolfe_ex : forall slsqp, exists w,
  kmm_fit (list R) slsqp (rbf (1/2)) 1000 None 1 "frank-wolfe" [[0]; [3]]%R (SDArr [1; -2]%Z) = Ok (w, [[0]]%R).
Proof.
  intros slsqp. unfold kmm_fit. cbn -[kmm_optim]. unfold kmm_optim, kmm_eps. cbn -[qp_solve sqrt rbf].
  rewrite sqrt_1. unfold qp_solve.
  change (String.eqb "frank-wolfe" "scipy") with false. change (String.eqb "frank-wolfe" "frank-wolfe") with true. cbv iota.
  unfold qp_solve_fw, fw_validate. cbn -[frank_wolfe allclose Rltb rbf].
  replace (allclose [1]%R [(- - (1))]%R) with (Ok true).
  2:{ unfold allclose, np_map2. cbn -[Rleb]. rewrite (proj2 (Rleb_iff _ _)); auto.
      replace (1 - - - (1))%R with 0%R by ring. rewrite Rabs_R0. pose proof (Rabs_pos (- - (1))). lra. }
  cbn -[frank_wolfe Rltb rbf]. rewrite (proj2 (Rltb_false _ _)) by lra. cbn -[frank_wolfe rbf].
  unfold frank_wolfe, fw_loop, fw_step, fw_vertex, qp_jac, np_map2. cbn -[Rltb Rleb INR mean rbf].
  unfold mean. cbn -[Rleb rbf].
  destruct (Rleb 0 _); cbn -[rbf]; eexists; reflexivity.
Qed.

(** MMDTarS with one source 0 of class 5 and one target 0, the regularisation 1 halving the weights. *)
Definition rex_alpha : R := (1 / 2 / (1 / 4 + / 1000000000000))%R.
Definition rex_cost := tars_cost (list R) [] name_kernel (rbf (1/2)) diag_inv 1%R.
Definition rex_solve (Xs Xt : list (list R)) (ys : list Z) (p : scipy_problem) : res (list R) :=
  if ClassicalDedekindReals.sig_not_dec (meets_problem p [rex_alpha] /\ forall a', length a' = 1 -> meets_problem p a' -> (rex_cost Xs Xt ys [rex_alpha] <= rex_cost Xs Xt ys a')%R)
  then Ok [rex_alpha] else Err ValueError.
Example C177_rbf_mmdtars_ex :
  (forall Xs Xt ys p a, rex_solve Xs Xt ys p = Ok a -> meets_problem p a /\ forall a', length a' = length a -> meets_problem p a' ->
     (rex_cost Xs Xt ys a <= rex_cost Xs Xt ys a')%R) /\
  exists st, tars_fit (list R) rex_solve [[0]; [0]]%R [5; 0]%Z (SDArr [1; -2]%Z) = Ok st /\ ts_alpha (list R) st = [rex_alpha].
Proof.
  split.
  - intros Xs Xt ys p a H. unfold rex_solve in H. destruct (ClassicalDedekindReals.sig_not_dec _) as [N|N]; [|discriminate]. injection H as <-. now apply Classical_Prop.NNPP.
  - set (e := (/ 1000000000000)%R). assert (He : (0 < e < 1)%R) by (unfold e; lra).
    assert (V : (rex_alpha * (1 / 4 + e) = 1 / 2)%R) by (unfold rex_alpha; fold e; field; lra).
    assert (B : (0 <= rex_alpha <= 2)%R) by (split; [apply Rlt_le, Rdiv_lt_0_compat; lra|nra]).
    assert (E : rex_solve [[0]]%R [[0]]%R [5]%Z (tars_problem (indicator [5]%Z (unique [5]%Z)) 1) = Ok [rex_alpha]).
    { unfold rex_solve. destruct (ClassicalDedekindReals.sig_not_dec _) as [N|N]; [reflexivity|]. exfalso. apply N. clear N. split.
      - assert (W : matvec (indicator [5]%Z (unique [5]%Z)) [rex_alpha] = [rex_alpha]).
        { unfold matvec, dot. cbn -[rex_alpha]. f_equal. ring. }
        apply tars_meets; [apply Forall_cons; [reflexivity|apply Forall_nil]|reflexivity| |]; rewrite W; [apply Forall_cons; [lra|apply Forall_nil]|].
        change (length (indicator [5]%Z (unique [5]%Z))) with 1. change (INR 1) with 1%R. rewrite sqrt_1. cbn [vsum]. lra.
      - assert (K0 : rbf (1/2) [0%R] [0%R] = 1%R).
        { unfold rbf. cbn. replace (- (1 / 2 * ((0 - 0) * (0 - 0) + 0)))%R with 0%R by ring. apply exp_0. }
        assert (C : forall a, rex_cost [[0]]%R [[0]]%R [5]%Z [a] = (1 / 2 * ((1 / 4 + e) * (a * a)) - 1 / 2 * a)%R).
        { intros a. unfold rex_cost, tars_cost, tars_P, tars_q, tars_M, tars_A, tars_K, tars_R, tars_omega, tars_L, mmul, mT, diag_inv, delta, name_kernel. cbn -[rbf]. rewrite K0. fold e. field. }
        intros [|a [|]] L; try discriminate. intros _. rewrite !C. set (r := rex_alpha) in *. clearbody r.
        apply Rminus_le. match goal with |- (?A - ?B <= 0)%R =>
          assert (Q : (A - B)%R = (- (1 / 2 * (1 / 4 + e) * Rsqr (a - r)))%R) end.
        { unfold Rsqr. apply Rminus_diag_uniq. match goal with |- ?X = _ => replace X with ((r * (1 / 4 + e) - 1 / 2) * (r - a))%R by field end. rewrite V. ring. }
        rewrite Q. pose proof (Rle_0_sqr (a - r)). nra. }
    eexists. split.
    + unfold tars_fit. cbn -[rex_solve tars_problem indicator unique]. change (length (unique [5]%Z)) with 1. rewrite E. reflexivity.
    + reflexivity.
Qed.
