(** * C243: optimal transport does not move the sources away from the targets *)
From Coq Require Import String List ZArith QArith Bool Arith Lia Reals Lra Qreals.
From Verif Require Import Np NpFacts Labels Spec SpecFacts UtilsModel UtilsSpec SelectModel RVec RVecFacts
  MapModel RMat OTModel OTSpec ThmJdot MapSpec MapProofs ThmMap.
From Verif Require ThmRecal ThmHull SubProofs ThmSame.
Import ListNotations.
Local Open Scope nat_scope.
Local Open Scope list_scope.
Notation reals := ThmRecal.reals.

(** [c] is what it costs to move uniform masses from the rows S to the rows T, in squared Euclidean distances. *)
Definition transport_cost (D : nat) (S T : list (list R)) (c : R) : Prop :=
  exists G, ThmRecal.optimal_plan (ThmRecal.sq_euclid D) S T (repeat (/ INR (length S))%R (length S)) (repeat (/ INR (length T))%R (length T)) G /\
    c = spent (length S) (length T) (fun i j => ThmRecal.sq_euclid D (nth i S []) (nth j T [])) G.

(** The average is nearest on the average. *)
Lemma nearest_average m w a e : (forall j, j < m -> (0 <= w j)%R) -> (0 < msum m w)%R -> let mu := (msum m (fun j => w j * a j) / msum m w)%R in
  (msum m (fun j => w j * ((mu - a j) * (mu - a j))) <= msum m (fun j => w j * ((e - a j) * (e - a j))))%R.
Proof.
  intros Hw Hp mu. assert (M : msum m (fun j => w j * a j)%R = (mu * msum m w)%R) by (unfold mu; field; lra).
  rewrite (msum_ext m (fun j => w j * ((e - a j) * (e - a j)))%R (fun j => w j * ((mu - a j) * (mu - a j)) + ((e * e - mu * mu) * w j + (2 * (mu - e)) * (w j * a j)))%R) by (intros; ring).
  rewrite msum_plus, msum_plus, !msum_scal, M. change (msum m (fun i => w i)) with (msum m w).
  assert (0 <= (e - mu) * (e - mu) * msum m w)%R by (apply Rmult_le_pos; [apply Rle_0_sqr|lra]). lra.
Qed.
Theorem C243_transport : forall D tfit X y sda out, ThmRecal.barycentric D tfit ->
  usable true (a_len X) sda -> table X -> (forall l, y = Some l -> length l = a_len X) ->
  let sd := eff_domain (a_len X) sda in some_label is_source sd ->
  ot_fit_transform tfit X y sda = Ok out ->
  let S := reals (rows_of is_source sd (a_rows X)) in let S' := reals (rows_of is_source sd (a_rows out)) in let T := reals (rows_of is_target sd (a_rows X)) in
  forall c c', transport_cost D S T c -> transport_cost D S' T c' -> (c' <= c)%R.
Proof.
  intros D tfit X y sda out HB U TX Hy sd Hs E S S' T c c' (G0 & (CP0 & B0) & ->) (G' & (CP' & B') & ->).
  destruct (C40_ot_fit_transform tfit X y sda U Hy) as (F1 & F2). fold sd in F1.
  assert (EF := E). unfold ot_fit_transform in EF. apply bind_ok in EF as (tr & Etr & _). rewrite (F2 tr Etr) in E. clear F2. rewrite F1 in Etr. clear F1.
  destruct (HB _ _ _ _ _ Etr) as (G & o & (CP & OP) & Eo & Dt & Tl & Len & Bar). clear HB Etr.
  destruct (C40_ot_transform true tr X sda U TX) as (m' & Em & _ & Tg & Sr & _). { intros _. exists o. auto. }
  rewrite E in Em. injection Em as <-. fold sd in Tg, Sr.
  assert (Ls : a_len (half is_source sd X) = length S) by (unfold a_len, half, S, ThmRecal.reals; cbn [a_rows]; now rewrite map_length).
  assert (Lt : a_len (half is_target sd X) = length T) by (unfold a_len, half, T, ThmRecal.reals; cbn [a_rows]; now rewrite map_length).
  assert (ES : S' = reals (a_rows o)) by (unfold S'; rewrite (Sr Hs o Eo); reflexivity).
  assert (LS' : length S' = length S) by (rewrite ES, <- Ls, <- Len; unfold ThmRecal.reals, a_len; now rewrite map_length).
  rewrite Ls, Lt in *. rewrite <- ES in Bar. change (reals (a_rows (half is_target sd X))) with T in Bar. change (reals (a_rows (half is_target sd X))) with T in OP. change (reals (a_rows (half is_source sd X))) with S in OP.
  rewrite LS' in *. specialize (B' [] G CP). rewrite !repeat_length in B'. specialize (OP [] G0 CP0). rewrite !repeat_length in OP.
  eapply Rle_trans; [exact B'|]. eapply Rle_trans; [|exact OP]. unfold spent.
  destruct CP as (_ & NG & RG & _). rewrite !repeat_length in NG, RG.
  apply SubProofs.msum_le. intros i Hi. assert (Pn : (0 < / INR (length S))%R) by (apply Rinv_0_lt_compat, lt_0_INR; lia).
  assert (SW : msum (length T) (fun j => at2 G i j) = (/ INR (length S))%R) by (rewrite RG by auto; now apply ThmSame.nth_rep).
  assert (SWAP : forall z : list R, msum (length T) (fun j => ThmRecal.sq_euclid D z (nth j T []) * at2 G i j)%R =
    msum D (fun k => msum (length T) (fun j => at2 G i j * ((nth k z 0 - nth k (nth j T []) 0) * (nth k z 0 - nth k (nth j T []) 0))))%R).
  { intros z. rewrite msum_swap. apply msum_ext. intros j _. unfold ThmRecal.sq_euclid. rewrite <- msum_scal_r. apply msum_ext. intros; ring. }
  rewrite !SWAP. apply SubProofs.msum_le. intros k Hk.
  assert (EK : nth k (nth i S' []) 0%R = (msum (length T) (fun j => at2 G i j * nth k (nth j T []) 0) / msum (length T) (fun j => at2 G i j))%R).
  { rewrite Bar by auto. set (f := fun k : nat => (msum (length T) (fun j => at2 G i j * nth k (nth j T []) 0) / msum (length T) (fun j => at2 G i j))%R).
    rewrite (nth_indep _ 0%R (f 0)) by (now rewrite map_length, seq_length). now rewrite map_nth, seq_nth. }
  rewrite EK. apply (nearest_average (length T) (fun j => at2 G i j) (fun j => nth k (nth j T []) 0%R)); [intros j Hj; now apply NG|]. rewrite SW. exact Pn.
Qed.
(** Sources 0 and 1, targets 13 and 10: the cost is (13 - 1)^2/2 + (10 - 0)^2/2 before, and 0 after fit_transform. *)
Example C243_ex_transport : transport_cost 1 [[0];[1]]%R [[13];[10]]%R 122 /\ transport_cost 1 [[10];[13]]%R [[13];[10]]%R 0.
Proof.
  split.
  - exists ThmRecal.crossed. cbn [length repeat]. replace (/ INR 2)%R with (/ 2)%R by (cbn; field). split; [apply ThmRecal.crossed_optimal|]. unfold spent, ThmRecal.sq_euclid, at2. cbn. field.
  - exists ThmRecal.crossed. cbn [length repeat]. replace (/ INR 2)%R with (/ 2)%R by (cbn; field). split; [|unfold spent, ThmRecal.sq_euclid, at2; cbn; field].
    split; [apply ThmRecal.crossed_optimal|]. intros d G (_ & N & _). cbn [length] in *.
    apply Rle_trans with 0%R; [right; unfold spent, ThmRecal.sq_euclid, at2; cbn; field|].
    unfold spent. apply msum_nonneg. intros i Hi. apply msum_nonneg. intros j Hj. apply Rmult_le_pos; [|now apply N]. unfold ThmRecal.sq_euclid. apply msum_nonneg. intros k _. apply Rle_0_sqr.
Qed.
