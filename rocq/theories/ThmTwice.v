(** C198: aligning twice is aligning once. *)
From Coq Require Import List ZArith Bool Arith Lia Reals Lra.
From Verif Require Import Np NpFacts MapModel MapSpec MapProofs2 RMat CovSpec CovProofs MongeModel MongeProofs ThmMap ThmMonge ThmSame.
Import ListNotations.
Local Open Scope nat_scope.

Lemma pd_ext n C C' : meq n n C C' -> pos_def n C -> pos_def n C'.
Proof. intros E P v Hv. specialize (P v Hv). rewrite qf_sigma in *. replace (qf n C' v) with (qf n C v); auto. apply msum_ext. intros i Hi. apply msum_ext. intros j Hj. now rewrite E. Qed.

(** ** CORAL. [Zs], [Zt]: what the first adapter returns for the sources and targets it was fitted on. An adapter fitted on those changes nothing, on any rows. *)
Theorem C198_coral : forall eigh n ms mt Xs Xt, eigensolver n eigh -> 0 < ms -> 0 < mt -> pos_def n (cov_of ms Xs) -> pos_def n (cov_of mt Xt) ->
  let Zs := coral_map_source eigh false n ms mt Xs Xt Xs in let Zt := coral_map_target false mt Xt Xt in
  forall Z i j, j < n -> coral_map_source eigh false n ms mt Zs Zt Z i j = Z i j /\ coral_map_target false mt Zt Z i j = Z i j.
Proof.
  intros eigh n ms mt Xs Xt HE Hs Ht Ps Pt Zs Zt Z i j Hj. pose proof (C86_covariance_match eigh n ms mt Xs Xt HE Hs Ht Ps) as M. cbv zeta in M. fold Zs Zt in M.
  assert (P : pos_def n (cov_of ms Zs)). { apply (pd_ext n (cov_of mt Xt)); auto. intros a b Ha Hb. symmetry. now apply M. }
  destruct (M j j Hj Hj) as (M1 & M2 & _). split.
  - rewrite (C186_coral eigh n ms mt Zs Zt HE Hs Ht P); auto; [rewrite M1; ring|]. intros a b Ha Hb. destruct (M a b Ha Hb) as (_ & _ & E1 & E2). now rewrite E1, E2.
  - unfold coral_map_target. change (col_mean mt Zt j) with (mean_of mt Zt j). rewrite M2. ring.
Qed.
(** assume_centered=True: targets are never moved, and the second adapter does not move the sources either. *)
Theorem C198_coral_centred : forall eigh n ms mt Xs Xt, eigensolver n eigh -> 0 < ms -> 0 < mt -> pos_def n (moment_of ms Xs) -> pos_def n (moment_of mt Xt) ->
  let Zs := coral_map_source eigh true n ms mt Xs Xt Xs in
  forall Z i j, j < n -> coral_map_source eigh true n ms mt Zs Xt Z i j = Z i j /\ coral_map_target true mt Xt Z i j = Z i j.
Proof.
  intros eigh n ms mt Xs Xt HE Hs Ht Ps Pt Zs Z i j Hj. pose proof (C86_moment_match eigh n ms mt Xs Xt HE Hs Ht Ps) as M. fold Zs in M. split; [|reflexivity].
  apply C186_coral_centred; auto. apply (pd_ext n (moment_of mt Xt)); auto. intros a b Ha Hb. symmetry. now apply M.
Qed.

(** ** Multi-domain Monge alignment. *)
(** The barycentre of non-degenerate Gaussians is not degenerate. *)
Definition gives_definite (n : nat) (bary : list (nat -> R) -> list mat -> (nat -> R) * mat) : Prop :=
  forall ms Cs, Cs <> [] -> Forall (fun C : mat => (forall i j, C i j = C j i) /\ pos_def n C) Cs -> pos_def n (snd (bary ms Cs)).
(** The data of one domain before and after a fitted alignment. *)
Definition aligned_by (n : nat) (maps : list (Z * (mat * (nat -> R)))) (before after : domain) : Prop :=
  fst after = fst before /\ fst (snd after) = fst (snd before) /\ mlm_transform_num n maps (fst before) (snd (snd before)) = Ok (snd (snd after)).

Lemma moments_of_centre eigh bary n sources targets : eigensolver n eigh -> gives_covariance n bary ->
  NoDup (map fst (sources ++ targets)) -> Forall (fun d : domain => 0 < fst (snd d) /\ pos_def n (cov_of (fst (snd d)) (snd (snd d)))) (sources ++ targets) ->
  forall k m X Y, In (k, (m, X)) (sources ++ targets) -> mlm_transform_num n (mlm_fit_num eigh bary n true sources targets) k X = Ok Y ->
    (forall j, j < n -> mean_of m Y j = fst (centre bary true sources) j) /\ (forall j l, j < n -> l < n -> cov_of m Y j l = snd (centre bary true sources) j l).
Proof.
  intros HE HB ND H k m X Y I HY.
  assert (HS : Forall (fun d : domain => 0 < fst (snd d)) sources).
  { apply Forall_forall. intros d Hd. apply (proj1 (Forall_forall _ _) H d). apply in_app_iff. now left. }
  destruct (centre_cov bary n HB true sources HS) as (CS & CP).
  destruct (proj1 (Forall_forall _ _) H _ I) as (Hm & HP). cbn [fst snd] in Hm, HP.
  cut (exists Y0, mlm_transform_num n (mlm_fit_num eigh bary n true sources targets) k X = Ok Y0 /\
    (forall j, j < n -> mean_of m Y0 j = fst (centre bary true sources) j) /\ (forall j l, j < n -> l < n -> cov_of m Y0 j l = snd (centre bary true sources) j l)).
  { intros (Y0 & E0 & R). rewrite HY in E0. injection E0 as <-. exact R. }
  clear Y HY. unfold mlm_transform_num. rewrite (lookup eigh bary n true sources targets k m X ND I). cbn [bind]. eexists. split; [reflexivity|].
  set (p := get_cov_mean true None m X). set (b := centre bary true sources) in *. set (A := bw_mapping eigh n (snd p) (fst b) (fst p) (snd b)).
  split.
  - intros j Hj. rewrite mean_affine by auto. unfold A at 2. cbn [bw_mapping snd]. fold (fst A).
    rewrite (msum_ext n (fun k0 => snd p k0 * _)%R (fun k0 => mean_of m X k0 * fst A k0 j)%R); [ring|]. intros c Hc. unfold p. rewrite param_mean. reflexivity.
  - intros j l Hj Hl. rewrite cov_affine by auto.
    assert (E : meq n n (mmul n (mmul n (mT (fst A)) (fst p)) (fst A)) (snd b)).
    { apply bw_moment; auto; [intros; apply param_sym|]. intros v Hv. erewrite sigma_ext2; [apply (HP v Hv)|]. intros; unfold p; now rewrite param_cov. }
    rewrite <- (E j l Hj Hl). apply mmul_ext; auto. intros a Ha. apply mmul_ext; auto. intros c Hc. unfold p. now rewrite param_cov.
Qed.
Lemma F2_In {A B} (P : A -> B -> Prop) l l' y : Forall2 P l l' -> In y l' -> exists x, In x l /\ P x y.
Proof. induction 1 as [|a b l l' H _ IH]; [easy|]. intros [<-|I]; [exists a; split; auto; now left|]. destruct (IH I) as (x & Hx & Px). exists x. split; auto. now right. Qed.

Lemma same_keys n maps l l' : Forall2 (aligned_by n maps) l l' -> map fst l = map fst l'.
Proof. induction 1 as [|x y l l' E _ IH]; cbn; auto. destruct E as (E & _). now rewrite E, IH. Qed.
(** All domains aligned once; an alignment fitted on the result leaves any rows of any domain as they are. *)
Theorem C198_monge : forall eigh bary n sources targets sources' targets',
  eigensolver n eigh -> gives_covariance n bary -> gives_definite n bary -> equal_to_itself n bary -> sources <> [] ->
  NoDup (map fst (sources ++ targets)) -> Forall (fun d : domain => 0 < fst (snd d) /\ pos_def n (cov_of (fst (snd d)) (snd (snd d)))) (sources ++ targets) ->
  let maps := mlm_fit_num eigh bary n true sources targets in
  Forall2 (aligned_by n maps) sources sources' -> Forall2 (aligned_by n maps) targets targets' ->
  forall k m Y, In (k, (m, Y)) (sources' ++ targets') ->
  forall Z, exists Z', mlm_transform_num n (mlm_fit_num eigh bary n true sources' targets') k Z = Ok Z' /\ forall i j, j < n -> Z' i j = Z i j.
Proof.
  intros eigh bary n sources targets sources' targets' HE HB HD H1 NE ND H maps FS FT k m Y I Z.
  assert (FA : Forall2 (aligned_by n maps) (sources ++ targets) (sources' ++ targets')) by now apply Forall2_app.
  apply (C186_monge eigh bary n sources' targets' (fst (centre bary true sources)) (snd (centre bary true sources)) HE HB H1) with (m := m) (X := Y); auto.
  - intros ->. inversion FS. subst. now apply NE.
  - pose proof (same_keys n maps _ _ FA) as EK. revert ND. unfold domain in *. rewrite EK. auto.
  - apply HD; [now destruct sources|]. apply Forall_forall. intros C HC. apply in_map_iff in HC as (d & <- & Hd). split; [intros; apply param_sym|].
    destruct (proj1 (Forall_forall _ _) H d) as (_ & P); [apply in_app_iff; now left|]. apply (pd_ext n (cov_of (fst (snd d)) (snd (snd d)))); auto. intros a b _ _. symmetry. apply param_cov.
  - intros k' m' Y' I'. destruct (F2_In _ _ _ _ FA I') as ([k0 [m0 X0]] & I0 & E1 & E2 & E3). cbn [fst snd] in *. subst.
    split; [apply (proj1 (Forall_forall _ _) H _ I0)|]. apply (moments_of_centre eigh bary n sources targets HE HB ND H k0 m0 X0 Y' I0 E3).
Qed.

(** ** Examples: rows 0, 2 against rows 10, 14; the alignment of everything to the first source domain. *)
Definition bary_first (ms : list (nat -> R)) (Cs : list mat) : (nat -> R) * mat :=
  (match ms with m :: _ => m | [] => fun _ => 0%R end, match Cs with C :: _ => C | [] => fun _ _ => 0%R end).
Lemma pd_two a b : a <> b -> pos_def 1 (cov_of 2 (two a b)).
Proof.
  intros N v (i & Hi & Hv). assert (i = 0) as -> by lia. change (0 < 0 + (0 + v 0%nat * cov_of 2 (two a b) 0 0 * v 0%nat))%R.
  assert (EC : cov_of 2 (two a b) 0 0 = ((a - b) * (a - b) / 4)%R) by (unfold cov_of, mean_of; cbn; field). rewrite EC.
  assert (0 < v 0%nat * v 0%nat)%R by now apply Rsqr_pos_lt. assert (0 < (a - b) * (a - b))%R by (apply Rsqr_pos_lt; lra).
  assert (0 < (v 0%nat * v 0%nat) * ((a - b) * (a - b)))%R by now apply Rmult_lt_0_compat. lra.
Qed.
Example C198_ex : eigensolver 1 eigh1 /\ pos_def 1 (cov_of 2 (two 0 2)) /\ pos_def 1 (cov_of 2 (two 10 14)) /\ cov_of 2 (two 0 2) 0 0 <> cov_of 2 (two 10 14) 0 0 /\
  gives_covariance 1 bary_first /\ gives_definite 1 bary_first /\ equal_to_itself 1 bary_first /\
  exists S' T', Forall2 (aligned_by 1 (mlm_fit_num eigh1 bary_first 1 true [(1%Z, (2, two 0 2))] [((-3)%Z, (2, two 10 14))])) [(1%Z, (2, two 0 2))] S' /\
    Forall2 (aligned_by 1 (mlm_fit_num eigh1 bary_first 1 true [(1%Z, (2, two 0 2))] [((-3)%Z, (2, two 10 14))])) [((-3)%Z, (2, two 10 14))] T'.
Proof.
  split; [apply C185_ex|]. split; [apply pd_two; lra|]. split; [apply pd_two; lra|]. split.
  { unfold cov_of, mean_of. cbn. intros E. lra. }
  split. { intros ms [|C Cs] H; cbn; [split; auto; intros v; cbn; lra|]. now inversion H. }
  split. { intros ms [|C Cs] N H; [easy|]. inversion H. tauto. }
  split. { intros mu C [|m ms] [|D Cs] N L H1 H2; try easy. inversion H1. inversion H2. subst. cbn. auto. }
  eexists [(1%Z, (2, _))], [((-3)%Z, (2, _))]. split.
  - apply Forall2_cons; [|apply Forall2_nil]. unfold aligned_by. cbn [fst snd]. split; [reflexivity|split; [reflexivity|]]. cbn. reflexivity.
  - apply Forall2_cons; [|apply Forall2_nil]. unfold aligned_by. cbn [fst snd]. split; [reflexivity|split; [reflexivity|]]. cbn. reflexivity.
Qed.
