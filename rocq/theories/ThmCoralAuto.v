(** C187 and C198 for the default [reg="auto"] of CORAL: what shrinking the covariances breaks. *)
From Coq Require Import List ZArith Bool Arith Lia Reals Lra Psatz Setoid Morphisms FunctionalExtensionality.
From Verif Require Import Np NpFacts RVec RVecFacts MapModel MapSpec MapProofs2 RMat CovModel CovSpec CovProofs ThmCov MongeModel MongeProofs ThmMonge TurnProofs ThmTurn ThmBack ThmSame ThmTwice CoralRegModel ThmCoralReg ThmSpectral.
Import ListNotations.
Local Open Scope nat_scope.

(** Some shrinkage, but not everything. *)
Definition some_shrinkage (lw : nat -> nat -> mat -> R) : Prop := forall n m X, (0 < lw n m X < 1)%R.
(** Four rows of two features. *)
Definition four (a b c d e f g h : R) : mat := fun i j => match i, j with 0, 0 => a | 0, 1 => b | 1, 0 => c | 1, 1 => d | 2, 0 => e | 2, 1 => f | 3, 0 => g | 3, 1 => h | _, _ => 0%R end.
Definition white4 : mat := four 1 1 1 (-1) (-1) 1 (-1) (-1).
Definition wide4 : mat := four 3 1 1 3 (-3) (-1) (-1) (-3).
Definition long4 : mat := four 1 3 1 (-3) (-1) 3 (-1) (-3).
Definition turn2 : mat := fun i j => match i, j with 0, 0 => 3/5 | 0, 1 => 4/5 | 1, 0 => -(4/5) | 1, 1 => 3/5 | _, _ => 0 end%R.

Lemma lt2 j : j < 2 -> j = 0 \/ j = 1. Proof. lia. Qed.
Ltac c4 := unfold cov_of, mean_of, moved; cbn; lra.
Lemma cov_white j l : j < 2 -> l < 2 -> cov_of 4 white4 j l = delta j l.
Proof. intros Hj Hl. destruct (lt2 j Hj) as [-> | ->], (lt2 l Hl) as [-> | ->]; unfold delta; c4. Qed.
Lemma cov_wide j l : j < 2 -> l < 2 -> cov_of 4 wide4 j l = (if j =? l then 5 else 3)%R.
Proof. intros Hj Hl. destruct (lt2 j Hj) as [-> | ->], (lt2 l Hl) as [-> | ->]; c4. Qed.
Lemma mean4 a b c d e f g h j : (a + c + e + g = 0)%R -> (b + d + f + h = 0)%R -> mean_of 4 (four a b c d e f g h) j = 0%R.
Proof. intros A B. destruct j as [|[|j]]; unfold mean_of; cbn; lra. Qed.

(** The estimate for two features: the diagonal is kept and the covariances are multiplied by 1 - d. *)
Definition keeps (d : R) (C S : mat) : Prop := forall j l, j < 2 -> l < 2 -> C j l = (if j =? l then S j l else (1 - d) * S j l)%R.
Lemma est_auto lw m X b : 0 < m -> all_vary 2 m X -> some_shrinkage lw -> exists C d, estimate_covariance lw 2 m X ShAuto b = Ok C /\ (0 < d < 1)%R /\ keeps d C (cov_of m X).
Proof.
  intros Hm V HL. assert (HI : intensity lw) by (intros a b' c; specialize (HL a b' c); lra).
  cbn [estimate_covariance]. unfold ledoit_wolf. set (X' := standard_scaler (negb b) m X). set (d := lw 2 m (centred m X')).
  exists (fun j l => (scale_ m X j * shrink 2 d (emp_cov false m X') j l * scale_ m X l)%R), d. split; [reflexivity|]. split; [apply HL|].
  intros j l Hj Hl. pose proof (scale_pos m X j Hm) as Sj. pose proof (scale_pos m X l Hm) as Sl. unfold shrink. change (cov_of m X j l) with (emp_cov false m X j l).
  assert (MU : (msum 2 (fun i => emp_cov false m X' i i) / INR 2 = 1)%R).
  { rewrite (msum_ext 2 _ (fun _ => 1%R)); [rewrite msum_const; cbn; field|]. intros i Hi. apply standard_var; [assumption|apply V; assumption]. }
  rewrite MU. destruct (Nat.eqb_spec j l) as [->|D].
  - unfold X'. rewrite standard_var by (auto; apply V; auto). rewrite <- (scale_sq m X l) by (auto; apply V; auto). ring.
  - unfold X'. rewrite cov_standard by assumption. field. split; lra.
Qed.
(** Number: the same as long as the two variances agree. *)
Lemma est_num lw m X s : (0 < s < 1)%R -> cov_of m X 0 0 = cov_of m X 1 1 -> exists C, estimate_covariance lw 2 m X (ShNum s) false = Ok C /\ keeps s C (cov_of m X).
Proof.
  intros Hs E. cbn [estimate_covariance]. unfold shrunk_covariance. rewrite (proj2 (Rleb_iff 0 s)), (proj2 (Rleb_iff s 1)) by lra. eexists. split; [reflexivity|].
  intros j l Hj Hl. unfold shrink. change (emp_cov false m X) with (cov_of m X). cbn [msum]. rewrite E. replace (INR 2) with 2%R by (cbn; ring). destruct (lt2 j Hj) as [-> | ->], (lt2 l Hl) as [-> | ->]; cbn [Nat.eqb]; rewrite ?E; field.
Qed.
Lemma pd_keeps d C S : (0 <= d <= 1)%R -> keeps d C S -> S 0%nat 1%nat = S 1%nat 0%nat -> (0 < S 0%nat 0%nat)%R -> (0 < S 1%nat 1%nat)%R -> (S 0%nat 1%nat * S 0%nat 1%nat < S 0%nat 0%nat * S 1%nat 1%nat)%R -> pos_def 2 C.
Proof.
  intros Hd K Sy A B D v (i & Hi & Hv). cbn [sigma]. rewrite !K by lia. cbn [Nat.eqb]. rewrite <- Sy. set (x := v 0) in *. set (y := v 1) in *. set (e := ((1 - d) * S 0%nat 1%nat)%R).
  assert (E : (e * e < S 0%nat 0%nat * S 1%nat 1%nat)%R). { unfold e. apply Rle_lt_trans with (S 0%nat 1%nat * S 0%nat 1%nat)%R; auto. assert (0 <= S 0%nat 1%nat * S 0%nat 1%nat)%R by apply Rle_0_sqr. assert ((1 - d) * (1 - d) <= 1)%R by nra. nra. }
  assert (G : (S 0%nat 0%nat * (0 + (0 + x * S 0%nat 0%nat * x + x * e * y) + (0 + y * e * x + y * S 1%nat 1%nat * y)) = (S 0%nat 0%nat * x + e * y) * (S 0%nat 0%nat * x + e * y) + (S 0%nat 0%nat * S 1%nat 1%nat - e * e) * (y * y))%R) by ring.
  assert (P : (0 < (S 0%nat 0%nat * x + e * y) * (S 0%nat 0%nat * x + e * y) + (S 0%nat 0%nat * S 1%nat 1%nat - e * e) * (y * y))%R).
  { assert (0 <= (S 0%nat 0%nat * x + e * y) * (S 0%nat 0%nat * x + e * y))%R by apply Rle_0_sqr. assert (0 <= y * y)%R by apply Rle_0_sqr. destruct (Req_dec y 0) as [Y|Y].
    - rewrite Y in *. assert (X : (x <> 0)%R) by (destruct (lt2 i Hi) as [-> | ->]; auto). assert (0 < S 0%nat 0%nat * x * (S 0%nat 0%nat * x))%R by (apply Rlt_0_sqr; apply Rmult_integral_contrapositive; split; lra). nra.
    - assert (0 < y * y)%R by now apply Rlt_0_sqr. nra. }
  rewrite <- G in P. apply (Rmult_lt_reg_l (S 0%nat 0%nat)); auto. rewrite Rmult_0_r. exact P.
Qed.

(** ** C198. White sources and correlated targets. *)
Section Twice.
  Variables (lw : nat -> nat -> mat -> R) (eigh : mat -> (nat -> R) * mat) (reg : shrinkage).
  Hypothesis HE : eigensolver 2 eigh.
  Hypothesis HI : intensity lw.
  (** What is known of the estimates. *)
  Hypothesis EST : forall m X, 0 < m -> all_vary 2 m X -> cov_of m X 0 0 = cov_of m X 1 1 -> exists C d, estimate_covariance lw 2 m X reg false = Ok C /\ (0 < d < 1)%R /\ keeps d C (cov_of m X).
  Lemma twice : exists W V, coral_fit lw eigh 2 4 4 white4 wide4 reg false = Ok W /\
    let Zs := coral_rows false 2 (mean_of 4 white4) W white4 in let Zt := coral_map_target false 4 wide4 wide4 in
    coral_fit lw eigh 2 4 4 Zs Zt reg false = Ok V /\ exists Z i j, j < 2 /\ coral_rows false 2 (mean_of 4 Zs) V Z i j <> Z i j.
  Proof.
    destruct (EST 4 white4) as (Cs & ds & Es & Ds & Ks); [lia|intros j Hj; rewrite cov_white by auto; unfold delta; rewrite Nat.eqb_refl; lra|now rewrite !cov_white by lia|].
    destruct (EST 4 wide4) as (Ct & dt & Et & Dt & Kt); [lia|intros j Hj; rewrite cov_wide by auto; rewrite Nat.eqb_refl; lra|now rewrite !cov_wide by lia|].
    assert (CI : meq 2 2 Cs delta). { intros j l Hj Hl. rewrite Ks by auto. rewrite cov_white by auto. unfold delta. destruct (j =? l); ring. }
    assert (PS : pos_def 2 Cs) by (apply (pd_keeps ds Cs (cov_of 4 white4)); auto; rewrite ?cov_white by lia; unfold delta; cbn; lra).
    destruct (coral_fit lw eigh 2 4 4 white4 wide4 reg false) as [W|] eqn:EW; [|unfold coral_fit in EW; rewrite Es, Et in EW; discriminate].
    pose proof (C155_coral lw eigh 2 4 4 white4 wide4 reg false W Cs Ct HI HE ltac:(lia) ltac:(lia) Es Et PS EW) as MW.
    set (Zs := coral_rows false 2 (mean_of 4 white4) W white4). set (Zt := coral_map_target false 4 wide4 wide4).
    assert (MS : forall j, mean_of 4 white4 j = 0%R) by (intros; apply mean4; lra). assert (MT : forall j, mean_of 4 wide4 j = 0%R) by (intros; apply mean4; lra).
    assert (EZt : Zt = wide4). { unfold Zt, coral_map_target. apply functional_extensionality. intros i. apply functional_extensionality. intros j. change (col_mean 4 wide4 j) with (mean_of 4 wide4 j). rewrite MT. ring. }
    assert (EZs : Zs = fun i j => (mmul 2 white4 W i j + 0)%R).
    { unfold Zs, coral_rows. apply functional_extensionality. intros i. apply functional_extensionality. intros j. rewrite Rplus_0_r. apply mmul_ext; auto. intros l _. rewrite MS. ring. }
    assert (CZ : forall j l, j < 2 -> l < 2 -> cov_of 4 Zs j l = Ct j l).
    { intros j l Hj Hl. rewrite EZs, (cov_affine 2 4 white4 W (fun _ => 0%R)) by lia. rewrite <- (MW j l Hj Hl). unfold mmul, mT. change sigma with msum. apply msum_ext. intros a Ha. f_equal. apply msum_ext. intros c Hc. rewrite cov_white, CI by auto. reflexivity. }
    assert (VZ : forall j, j < 2 -> cov_of 4 Zs j j = 5%R). { intros j Hj. rewrite CZ, Kt by auto. rewrite Nat.eqb_refl, cov_wide by auto. now rewrite Nat.eqb_refl. }
    destruct (EST 4 Zs) as (C2 & d2 & E2 & D2 & K2); [lia|intros j Hj; rewrite VZ by auto; lra|now rewrite !VZ by lia|].
    destruct (coral_fit lw eigh 2 4 4 Zs wide4 reg false) as [V|] eqn:EV; [|unfold coral_fit in EV; rewrite E2, Et in EV; discriminate].
    exists W, V. split; [reflexivity|]. fold Zs. cbv zeta. fold Zt. rewrite EZt. split; [exact EV|].
    assert (P2 : pos_def 2 C2). { apply (pd_keeps d2 C2 (cov_of 4 Zs)); auto; [lra|rewrite !CZ by lia; rewrite !Kt by lia; rewrite !cov_wide by lia; reflexivity|rewrite VZ by lia; lra|rewrite VZ by lia; lra|]. rewrite !VZ, !CZ, !Kt, !cov_wide by lia. cbn [Nat.eqb]. nra. }
    pose proof (C155_coral lw eigh 2 4 4 Zs wide4 reg false V C2 Ct HI HE ltac:(lia) ltac:(lia) E2 Et P2 EV) as MV.
    assert (ME : forall j, j < 2 -> mean_of 4 Zs j = 0%R). { intros j Hj. rewrite EZs, (mean_affine 2 4 white4 W (fun _ => 0%R)) by lia. rewrite (msum_ext 2 _ (fun _ => 0%R)) by (intros; rewrite MS; ring). rewrite msum_const. ring. }
    assert (N : ~ meq 2 2 V delta).
    { intros H. specialize (MV 0 1 ltac:(lia) ltac:(lia)). cbn [sigma] in MV. rewrite !H in MV by lia. unfold delta in MV. cbn [Nat.eqb] in MV. assert (M : C2 0 1 = Ct 0 1) by lra. rewrite K2, CZ, !Kt, !cov_wide in M by lia. cbn [Nat.eqb] in M. nra. }
    destruct (Req_dec (V 0 0) 1) as [A0|A]; [destruct (Req_dec (V 0 1) 0) as [B0|B]; [destruct (Req_dec (V 1 0) 0) as [C0|C]; [destruct (Req_dec (V 1 1) 1) as [D0|D]|]|]|].
    1:{ destruct N. intros i j Hi Hj. destruct (lt2 i Hi) as [-> | ->], (lt2 j Hj) as [-> | ->]; unfold delta; cbn; lra. }
    all: exists delta.
    1: exists 1, 1. 2: exists 1, 0. 3: exists 0, 1. 4: exists 0, 0.
    all: split; [lia|]; unfold coral_rows, mmul; cbn [msum]; rewrite !ME by lia; unfold delta; cbn [Nat.eqb]; lra.
  Qed.
End Twice.
Theorem C198_coral_auto_refuted : exists Xs Xt : mat, pos_def 2 (cov_of 4 Xs) /\ pos_def 2 (cov_of 4 Xt) /\
  forall lw eigh reg, eigensolver 2 eigh -> some_shrinkage lw -> reg = ShAuto \/ (exists s, (0 < s < 1)%R /\ reg = ShNum s) ->
  exists W V, coral_fit lw eigh 2 4 4 Xs Xt reg false = Ok W /\
  let Zs := coral_rows false 2 (mean_of 4 Xs) W Xs in let Zt := coral_map_target false 4 Xt Xt in
  coral_fit lw eigh 2 4 4 Zs Zt reg false = Ok V /\ exists Z i j, j < 2 /\ coral_rows false 2 (mean_of 4 Zs) V Z i j <> Z i j.
Proof.
  exists white4, wide4. split; [|split].
  - apply (pd_keeps 0 _ (cov_of 4 white4)); [lra|intros j l Hj Hl; destruct (j =? l); ring|..]; rewrite !cov_white by lia; unfold delta; cbn; lra.
  - apply (pd_keeps 0 _ (cov_of 4 wide4)); [lra|intros j l Hj Hl; destruct (j =? l); ring|..]; rewrite !cov_wide by lia; cbn; lra.
  - intros lw eigh reg HE HL [->|(s & Hs & ->)]; apply twice; auto; try (intros a b c; specialize (HL a b c); lra).
    + intros m X Hm V _. now apply est_auto.
    + intros m X Hm V E. destruct (est_num lw m X s Hs E) as (C & EC & K). exists C, s. auto.
Qed.

(** ** C187. Sources longer in one direction, targets white, turned by a rotation. *)
Theorem C187_coral_auto_refuted : exists Xs Xt Q : mat, orthogonal 2 Q /\ pos_def 2 (cov_of 4 Xs) /\ pos_def 2 (cov_of 4 Xt) /\
  forall lw eigh, eigensolver 2 eigh -> some_shrinkage lw -> let turned := moved 2 1 Q (fun _ => 0%R) in
  exists W V, coral_fit lw eigh 2 4 4 Xs Xt ShAuto false = Ok W /\ coral_fit lw eigh 2 4 4 (turned Xs) (turned Xt) ShAuto false = Ok V /\
  exists Z i j, j < 2 /\ coral_rows false 2 (mean_of 4 (turned Xs)) V (turned Z) i j <> turned (coral_rows false 2 (mean_of 4 Xs) W Z) i j.
Proof.
  assert (CL : forall j l, j < 2 -> l < 2 -> cov_of 4 long4 j l = diag (fun j => if j =? 0 then 1 else 9)%R j l) by (intros j l Hj Hl; destruct (lt2 j Hj) as [-> | ->], (lt2 l Hl) as [-> | ->]; unfold diag; c4).
  exists long4, white4, turn2. split; [|split; [|split]].
  - intros i j Hi Hj. destruct (lt2 i Hi) as [-> | ->], (lt2 j Hj) as [-> | ->]; cbn; split; lra.
  - apply (pd_keeps 0 _ (cov_of 4 long4)); [lra|intros j l Hj Hl; destruct (j =? l); ring|..]; rewrite !CL by lia; unfold diag; cbn; lra.
  - apply (pd_keeps 0 _ (cov_of 4 white4)); [lra|intros j l Hj Hl; destruct (j =? l); ring|..]; rewrite !cov_white by lia; unfold delta; cbn; lra.
  - intros lw eigh HE HL turned. assert (HI : intensity lw) by (intros a b' c; specialize (HL a b' c); lra).
    destruct (est_auto lw 4 long4 false) as (Cs & ds & Es & Ds & Ks); [lia|intros j Hj; rewrite CL by auto; unfold diag; rewrite Nat.eqb_refl; destruct (j =? 0); lra|exact HL|].
    destruct (est_auto lw 4 white4 false) as (Ct & dt & Et & Dt & Kt); [lia|intros j Hj; rewrite cov_white by auto; unfold delta; rewrite Nat.eqb_refl; lra|exact HL|].
    assert (T0 : cov_of 4 (turned long4) 0 0 = (153/25)%R) by (unfold turned; c4). assert (T1 : cov_of 4 (turned long4) 1 1 = (97/25)%R) by (unfold turned; c4).
    assert (T2 : cov_of 4 (turned long4) 0 1 = (-(96/25))%R) by (unfold turned; c4). assert (T3 : cov_of 4 (turned long4) 1 0 = (-(96/25))%R) by (unfold turned; c4).
    assert (TW : forall j l, j < 2 -> l < 2 -> cov_of 4 (turned white4) j l = delta j l) by (intros j l Hj Hl; unfold turned; destruct (lt2 j Hj) as [-> | ->], (lt2 l Hl) as [-> | ->]; unfold delta; c4).
    destruct (est_auto lw 4 (turned long4) false) as (Cs' & ds' & Es' & Ds' & Ks'); [lia|intros j Hj; destruct (lt2 j Hj) as [-> | ->]; lra|exact HL|].
    destruct (est_auto lw 4 (turned white4) false) as (Ct' & dt' & Et' & Dt' & Kt'); [lia|intros j Hj; rewrite TW by auto; unfold delta; rewrite Nat.eqb_refl; lra|exact HL|].
    destruct (coral_fit lw eigh 2 4 4 long4 white4 ShAuto false) as [W|] eqn:EW; [|unfold coral_fit in EW; rewrite Es, Et in EW; discriminate].
    destruct (coral_fit lw eigh 2 4 4 (turned long4) (turned white4) ShAuto false) as [V|] eqn:EV; [|unfold coral_fit in EV; rewrite Es', Et' in EV; discriminate].
    exists W, V. split; [reflexivity|]. split; [reflexivity|].
    assert (HW : meq 2 2 W (diag (fun j => if j =? 0 then 1 else / 3)%R)).
    { unfold coral_fit in EW. rewrite Es, Et in EW. cbn [bind] in EW. injection EW as <-.
      rewrite (invroot_diag eigh 2 HE Cs (fun j => if j =? 0 then 1 else 9)%R), (root_diag eigh 2 HE Ct (fun _ => 1%R)), diag_mul; eauto using estimate_sym.
      - intros i j Hi Hj. unfold diag. destruct (i =? j); auto. rewrite sqrt_1. destruct (i =? 0); [rewrite sqrt_1; field|]. replace 9%R with (3 * 3)%R by ring. rewrite sqrt_square by lra. ring.
      - intros; lra.
      - intros i j Hi Hj. rewrite Kt, cov_white by auto. unfold diag, delta. destruct (i =? j); ring.
      - intros i Hi. destruct (i =? 0); lra.
      - intros i j Hi Hj. rewrite Ks, CL by auto. unfold diag. destruct (i =? j); ring. }
    assert (PS' : pos_def 2 Cs') by (apply (pd_keeps ds' Cs' (cov_of 4 (turned long4))); auto; rewrite ?T0, ?T1, ?T2, ?T3; lra).
    pose proof (C155_coral lw eigh 2 4 4 (turned long4) (turned white4) ShAuto false V Cs' Ct' HI HE ltac:(lia) ltac:(lia) Es' Et' PS' EV) as MV.
    assert (M0 : forall j, mean_of 4 (turned long4) j = 0%R) by (intros [|[|j]]; unfold turned; unfold mean_of, moved; cbn; lra).
    assert (M1 : forall j, mean_of 4 long4 j = 0%R) by (intros; apply mean4; lra).
    (* the two sides, for unit rows *)
    set (L := fun Z i j => coral_rows false 2 (mean_of 4 (turned long4)) V (turned Z) i j). set (Rr := fun Z i j => turned (coral_rows false 2 (mean_of 4 long4) W Z) i j).
    assert (LV : forall i j, j < 2 -> i < 2 -> L delta i j = (turn2 i 0%nat * V 0%nat j + turn2 i 1%nat * V 1%nat j)%R).
    { intros i j Hj Hi. unfold L, coral_rows, mmul. cbn [msum]. rewrite !M0. unfold turned, moved. cbn [sigma]. destruct (lt2 i Hi) as [-> | ->]; unfold delta; cbn [Nat.eqb]; ring. }
    assert (RV : forall i j, j < 2 -> i < 2 -> Rr delta i j = (turn2 i j * (if (i =? 0)%nat then 1 else / 3))%R).
    { intros i j Hj Hi. unfold Rr, turned, moved. cbn [sigma]. unfold coral_rows, mmul. cbn [msum]. rewrite !M1, !HW by lia. destruct (lt2 i Hi) as [-> | ->]; unfold delta, diag; cbn [Nat.eqb]; ring. }
    assert (N : ~ (forall i j, i < 2 -> j < 2 -> L delta i j = Rr delta i j)).
    { intros H. assert (A := H 0 0 ltac:(lia) ltac:(lia)). assert (B := H 0 1 ltac:(lia) ltac:(lia)). assert (C := H 1 0 ltac:(lia) ltac:(lia)). assert (D := H 1 1 ltac:(lia) ltac:(lia)).
      rewrite LV, RV in A, B, C, D by lia. cbn in A, B, C, D.
      assert (V0 : V 0 0 = (43/75)%R) by lra. assert (V1 : V 0 1 = (24/75)%R) by lra. assert (V2 : V 1 0 = (24/75)%R) by lra. assert (V3 : V 1 1 = (57/75)%R) by lra.
      specialize (MV 0 1 ltac:(lia) ltac:(lia)). cbn [sigma] in MV. rewrite V0, V1, V2, V3, !Ks', Kt', T0, T1, T2, T3, TW in MV by lia. unfold delta in MV. cbn [Nat.eqb] in MV. lra. }
    destruct (Req_dec (L delta 0 0) (Rr delta 0 0)) as [A|A]; [|exists delta, 0, 0; split; [lia|exact A]].
    destruct (Req_dec (L delta 0 1) (Rr delta 0 1)) as [B|B]; [|exists delta, 0, 1; split; [lia|exact B]].
    destruct (Req_dec (L delta 1 0) (Rr delta 1 0)) as [C|C]; [|exists delta, 1, 0; split; [lia|exact C]].
    destruct (Req_dec (L delta 1 1) (Rr delta 1 1)) as [D|D]; [|exists delta, 1, 1; split; [lia|exact D]].
    destruct N. intros i j Hi Hj. destruct (lt2 i Hi) as [-> | ->], (lt2 j Hj) as [-> | ->]; auto.
Qed.
(** ** C186. The same targets as sources, every row twice as source: the covariances agree, the intensities do not. *)
(** Every row twice: less is shrunk (sklearn's intensity is proportional to 1 / number of rows, as long as it is below one). *)
Definition twice_as_many (m : nat) (X : mat) : mat := fun i => X (i mod m).
Definition fewer_shrinks_more (lw : nat -> nat -> mat -> R) : Prop := forall n m X, 0 < m -> (lw n m X < 1)%R -> (lw n (2 * m)%nat (twice_as_many m X) < lw n m X)%R.
Lemma double_mean X j : col_mean 8 (twice_as_many 4 X) j = col_mean 4 X j.
Proof. unfold col_mean, twice_as_many. cbn. field. Qed.
Lemma double_cov X j l : emp_cov false 8 (twice_as_many 4 X) j l = emp_cov false 4 X j l.
Proof. unfold emp_cov. rewrite !double_mean. unfold twice_as_many. cbn. field. Qed.
Lemma double_scale X j : scale_ 8 (twice_as_many 4 X) j = scale_ 4 X j.
Proof. unfold scale_. now rewrite double_cov. Qed.
Lemma double_standard b X : standard_scaler b 8 (twice_as_many 4 X) = twice_as_many 4 (standard_scaler b 4 X).
Proof. apply functional_extensionality. intros i. apply functional_extensionality. intros j. unfold standard_scaler. rewrite double_scale, double_mean. reflexivity. Qed.
Lemma double_centred X : centred 8 (twice_as_many 4 X) = twice_as_many 4 (centred 4 X).
Proof. apply functional_extensionality. intros i. apply functional_extensionality. intros j. unfold centred. rewrite double_mean. reflexivity. Qed.
Theorem C186_coral_auto_refuted : exists Xs Xt : mat, pos_def 2 (cov_of 8 Xs) /\ (forall j l, cov_of 8 Xs j l = cov_of 4 Xt j l) /\
  forall lw eigh, eigensolver 2 eigh -> some_shrinkage lw -> fewer_shrinks_more lw ->
  exists W, coral_fit lw eigh 2 8 4 Xs Xt ShAuto false = Ok W /\ exists Z i j, j < 2 /\ coral_rows false 2 (mean_of 8 Xs) W Z i j <> (Z i j - mean_of 8 Xs j)%R.
Proof.
  exists (twice_as_many 4 wide4), wide4.
  assert (CC : forall j l, cov_of 8 (twice_as_many 4 wide4) j l = cov_of 4 wide4 j l) by (intros; apply (double_cov wide4)).
  split; [|split; [exact CC|]].
  - apply (pd_keeps 0 _ (cov_of 4 wide4)); [lra|intros j l Hj Hl; rewrite CC; destruct (j =? l); ring|..]; rewrite !cov_wide by lia; cbn; lra.
  - intros lw eigh HE HL HF. assert (HI : intensity lw) by (intros a b' c; specialize (HL a b' c); lra).
    assert (VV : all_vary 2 4 wide4) by (intros j Hj; rewrite cov_wide by auto; rewrite Nat.eqb_refl; lra).
    set (d := lw 2 4 (centred 4 (standard_scaler true 4 wide4))). set (d2 := lw 2 8 (centred 8 (standard_scaler true 8 (twice_as_many 4 wide4)))).
    assert (L : (d2 < d)%R). { unfold d2. rewrite double_standard, double_centred. apply (HF 2 4); [lia|]. apply HL. }
    assert (EQ : forall m X Y (e : R), 0 < m -> Y = standard_scaler true m X -> all_vary 2 m X -> keeps e (fun j l => (scale_ m X j * shrink 2 e (emp_cov false m Y) j l * scale_ m X l)%R) (cov_of m X)).
    { intros m X Y e Hm -> V j l Hj Hl. pose proof (scale_pos m X j Hm) as Sj. pose proof (scale_pos m X l Hm) as Sl. unfold shrink. change (cov_of m X j l) with (emp_cov false m X j l).
      assert (MU : (msum 2 (fun i => emp_cov false m (standard_scaler true m X) i i) / INR 2 = 1)%R).
      { rewrite (msum_ext 2 _ (fun _ => 1%R)); [rewrite msum_const; cbn; field|]. intros i Hi. apply standard_var; [assumption|apply V; assumption]. }
      rewrite MU. destruct (Nat.eqb_spec j l) as [->|D].
      - rewrite standard_var by (auto; apply V; auto). rewrite <- (scale_sq m X l) by (auto; apply V; auto). ring.
      - rewrite cov_standard by assumption. field. split; lra. }
    unfold coral_fit. cbn [estimate_covariance bind negb]. unfold ledoit_wolf. fold d d2. eexists. split; [reflexivity|]. set (W := mmul 2 _ _).
    set (Cs := fun j l => (scale_ 8 (twice_as_many 4 wide4) j * shrink 2 d2 (emp_cov false 8 (standard_scaler true 8 (twice_as_many 4 wide4))) j l * scale_ 8 (twice_as_many 4 wide4) l)%R) in *.
    set (Ct := fun j l => (scale_ 4 wide4 j * shrink 2 d (emp_cov false 4 (standard_scaler true 4 wide4)) j l * scale_ 4 wide4 l)%R) in *.
    assert (Ks : keeps d2 Cs (cov_of 8 (twice_as_many 4 wide4))) by (apply EQ; [lia|reflexivity|intros j Hj; rewrite CC; now apply VV]).
    assert (Kt : keeps d Ct (cov_of 4 wide4)) by (apply EQ; [lia|reflexivity|exact VV]).
    assert (Es : estimate_covariance lw 2 8 (twice_as_many 4 wide4) ShAuto false = Ok Cs) by reflexivity. assert (Et : estimate_covariance lw 2 4 wide4 ShAuto false = Ok Ct) by reflexivity.
    assert (PS : pos_def 2 Cs). { apply (pd_keeps d2 Cs (cov_of 8 (twice_as_many 4 wide4))); [apply HI|exact Ks|..]; rewrite !CC, ?cov_wide by lia; cbn; lra. }
    assert (EW : coral_fit lw eigh 2 8 4 (twice_as_many 4 wide4) wide4 ShAuto false = Ok W) by reflexivity.
    pose proof (C155_coral lw eigh 2 8 4 (twice_as_many 4 wide4) wide4 ShAuto false W Cs Ct HI HE ltac:(lia) ltac:(lia) Es Et PS EW) as MV.
    assert (N : ~ meq 2 2 W delta).
    { intros H. specialize (MV 0 1 ltac:(lia) ltac:(lia)). cbn [sigma] in MV. rewrite !H in MV by lia. unfold delta in MV. cbn [Nat.eqb] in MV. assert (M : Cs 0 1 = Ct 0 1) by lra. rewrite Ks, Kt, CC, !cov_wide in M by lia. cbn [Nat.eqb] in M. lra. }
    assert (M0 : forall j, mean_of 8 (twice_as_many 4 wide4) j = 0%R) by (intros j; change (col_mean 8 (twice_as_many 4 wide4) j = 0%R); rewrite double_mean; change (mean_of 4 wide4 j = 0%R); apply mean4; lra).
    clearbody W.
    destruct (Req_dec (W 0 0) 1) as [A0|A]; [destruct (Req_dec (W 0 1) 0) as [B0|B]; [destruct (Req_dec (W 1 0) 0) as [C0|C]; [destruct (Req_dec (W 1 1) 1) as [D0|D]|]|]|].
    1:{ destruct N. intros i j Hi Hj. destruct (lt2 i Hi) as [-> | ->], (lt2 j Hj) as [-> | ->]; unfold delta; cbn; lra. }
    all: exists delta.
    1: exists 1, 1. 2: exists 1, 0. 3: exists 0, 1. 4: exists 0, 0.
    all: split; [lia|]; unfold coral_rows, mmul; cbn [msum]; rewrite !M0; unfold delta; cbn [Nat.eqb]; lra.
Qed.

(** Shrinking by half is some shrinkage, and for two features there is an eigensolver. *)
Example C187_auto_ex : some_shrinkage (fun _ _ _ => 1/2)%R /\ (let lw := fun (_ m : nat) (_ : mat) => / (INR m + 2) in some_shrinkage lw /\ forall n m X, (0 < m)%nat -> lw n (2 * m)%nat (twice_as_many m X) < lw n m X)%R /\ exists eigh, eigensolver 2 eigh.
Proof.
  split; [intros n m X; lra|]. split; [|apply C86_eigensolver_exists]. cbv zeta. split.
  - intros n m X. pose proof (pos_INR m). split; [apply Rinv_0_lt_compat; lra|]. rewrite <- Rinv_1. apply Rinv_lt_contravar; lra.
  - intros n m X Hm. apply lt_0_INR in Hm. rewrite mult_INR. change (INR 2) with 2%R. apply Rinv_lt_contravar; nra.
Qed.
