(** C210: transporting labels keeps their average and the class shares, and does not spread them. *)
From Coq Require Import List ZArith Bool Arith Lia Reals Lra Psatz.
From Verif Require Import Np NpFacts Labels Spec SpecFacts UtilsModel SelectModel RVec RVecFacts OTModel OTSpec OTProofs OTProofs2 OTProofs3 ThmOT
  MapModel RMat ThmJdot ThmSame.
Import ListNotations.
Local Open Scope nat_scope.
Local Open Scope list_scope.

(** ** Specification *)
(** Average of the values [l] under the masses [w]. *)
Definition average (w l : list R) : R := msum (length w) (fun i => nth i w 0 * nth i l 0)%R.
(** Mean squared distance to [c] under the masses [w]. *)
Definition scatter (w l : list R) (c : R) : R := msum (length w) (fun i => nth i w 0 * Rsqr (nth i l 0 - c))%R.
(** Mass of the samples of class [c]. *)
Definition share (w : list R) (ys : list Z) (c : Z) : R := msum (length w) (fun i => if (nth i ys 0 =? c)%Z then nth i w 0%R else 0%R).

(** ** Facts about plans *)
Lemma average_moved a b T ys : coupling a b T -> length ys = length a -> (forall j, j < length b -> (0 < nth j b 0)%R) ->
  average b (map (moved_label T ys b) (seq 0 (length b))) = average a ys.
Proof.
  intros ((LT & _) & _ & Rw & _) Ly Pb. unfold average.
  rewrite (msum_ext (length b) _ (fun j => msum (length a) (fun i => nth i ys 0 * at2 T i j)%R)).
  - rewrite <- msum_swap. apply msum_ext. intros i Hi. rewrite (msum_scal (length b) _ (fun j => at2 T i j)), (Rw i Hi). ring.
  - intros j Hj. rewrite (map_nth' _ 0) by (now rewrite seq_length). rewrite seq_nth by auto. rewrite Nat.add_0_l, moved_msum by congruence.
    rewrite Ly. field. specialize (Pb j Hj). lra.
Qed.

Lemma scatter_moved a b T ys c : coupling a b T -> length ys = length a -> (forall j, j < length b -> (0 < nth j b 0)%R) ->
  (scatter b (map (moved_label T ys b) (seq 0 (length b))) c <= scatter a ys c)%R.
Proof.
  intros HT Ly Pb. destruct HT as ((LT & MT) & N & Rw & C). unfold scatter.
  assert (E : msum (length a) (fun i => nth i a 0 * Rsqr (nth i ys 0 - c))%R =
              msum (length b) (fun j => msum (length a) (fun i => Rsqr (nth i ys 0 - c) * at2 T i j)%R)).
  { rewrite <- msum_swap. apply msum_ext. intros i Hi. rewrite (msum_scal (length b) _ (fun j => at2 T i j)), (Rw i Hi). ring. }
  rewrite E. apply msum_le. intros j Hj. rewrite (map_nth' _ 0) by (now rewrite seq_length). rewrite seq_nth by auto.
  rewrite Nat.add_0_l, moved_msum by congruence. rewrite Ly. specialize (Pb j Hj). specialize (C j Hj).
  set (S1 := msum (length a) (fun i => nth i ys 0 * at2 T i j)%R). set (bj := nth j b 0%R) in *. set (m := (S1 / bj)%R).
  assert (ES : S1 = (m * bj)%R) by (unfold m; field; lra).
  assert (P : (0 <= msum (length a) (fun i => Rsqr (nth i ys 0 - m) * at2 T i j))%R).
  { apply msum_nonneg. intros i Hi. apply Rmult_le_pos; [apply Rle_0_sqr|auto]. }
  rewrite (msum_ext (length a) (fun i => Rsqr (nth i ys 0 - m) * at2 T i j)%R
    (fun i => Rsqr (nth i ys 0 - c) * at2 T i j + (2 * (c - m) * (nth i ys 0 * at2 T i j) + (m * m - c * c) * at2 T i j))%R) in P
    by (intros i _; unfold Rsqr; ring).
  rewrite !msum_plus, !msum_scal, C in P. fold S1 in P. rewrite ES in P. unfold Rsqr in *. nra.
Qed.

(** ** OTLabelProp, regression *)
(** The labels given to the targets have, under the target weights, the average of the source labels under the source
    weights, and are not further spread around any number [c]. *)
Theorem C210_label_propagation : forall {Xrow} (plan : list Xrow -> list Xrow -> list R -> list R -> res (list (list R))) X y sw sd out,
  sd <> [] -> length X = length sd -> length y = length sd -> (forall w, sw = Some w -> length w = length sd) ->
  let a := proportions (how_many is_source sd) (opt_rows is_source sd sw) in
  let b := proportions (how_many is_target sd) (opt_rows is_target sd sw) in
  (forall Xs Xt G, plan Xs Xt a b = Ok G -> coupling a b G) -> Forall (fun x => 0 < x)%R b ->
  otlp_regression plan X y sw sd = Ok out ->
  exists labels, rows_of is_target sd out = map Some labels /\ length labels = how_many is_target sd /\
    average b labels = average a (rows_of is_source sd y) /\
    forall c, (scatter b labels c <= scatter a (rows_of is_source sd y) c)%R.
Proof.
  intros Xrow plan X y sw sd out Hsd HX Hy Hw a b HP Hb E. assert (E' := E).
  unfold otlp_regression in E. rewrite otlp_parts_ok in E by auto. cbn [bind] in E. fold a b in E.
  destruct (plan _ _ a b) as [G|] eqn:EG; [|discriminate]. assert (HG := HP _ _ _ EG).
  assert (La : length a = how_many is_source sd).
  { unfold a. apply marg_length. intros l Hl. destruct sw as [w|]; [|discriminate]. injection Hl as <-. apply rows_of_length. symmetry. now apply Hw. }
  assert (Lb : length b = how_many is_target sd).
  { unfold b. apply marg_length. intros l Hl. destruct sw as [w|]; [|discriminate]. injection Hl as <-. apply rows_of_length. symmetry. now apply Hw. }
  assert (LG : length G = how_many is_source sd) by (rewrite <- La; apply HG).
  destruct (C52_regression_labels plan X y sw sd G) as (out' & E2 & (_ & _ & L)); auto.
  assert (out' = out) as -> by congruence. fold b in L. rewrite <- Lb in L.
  assert (Ly : length (rows_of is_source sd y) = length a) by (rewrite La; apply rows_of_length; auto).
  assert (Pb : forall j, j < length b -> (0 < nth j b 0)%R) by (intros j Hj; now apply (proj1 (Forall_nth_R _ _) Hb)).
  exists (map (moved_label G (rows_of is_source sd y) b) (seq 0 (length b))).
  split; [rewrite map_map; exact L|]. split; [rewrite map_length, seq_length; exact Lb|].
  split; [now apply average_moved|]. intros c. now apply scatter_moved.
Qed.

(** Without weights: the plain mean. *)
Theorem C210_plain_mean : forall {Xrow} (plan : list Xrow -> list Xrow -> list R -> list R -> res (list (list R))) X y sd out,
  sd <> [] -> length X = length sd -> length y = length sd -> 0 < how_many is_source sd -> 0 < how_many is_target sd ->
  (forall Xs Xt a b G, plan Xs Xt a b = Ok G -> coupling a b G) ->
  otlp_regression plan X y None sd = Ok out ->
  exists labels, rows_of is_target sd out = map Some labels /\ mean labels = mean (rows_of is_source sd y).
Proof.
  intros Xrow plan X y sd out Hsd HX Hy Hs Ht HP E.
  destruct (C210_label_propagation plan X y None sd out) as (l & L1 & L2 & A & _); auto; [discriminate|intros; eapply HP; eauto| |].
  - cbn. apply Forall_forall. intros x Hx. apply repeat_spec in Hx as ->. apply Rinv_0_lt_compat, lt_0_INR. lia.
  - exists l. split; auto.
    assert (M : forall n v, length v = n -> average (repeat (/ INR n)%R n) v = mean v).
    { intros n v Lv. unfold average, mean. rewrite repeat_length.
      rewrite (msum_ext n _ (fun i => / INR n * nth i v 0)%R).
      - assert (VS : vsum v = msum (length v) (fun i => nth i v 0%R)) by (rewrite <- (map_id v) at 1; apply (vsum_nth (fun x => x) 0%R)).
        rewrite msum_scal, VS, Lv. apply Rmult_comm.
      - intros i Hi. f_equal. rewrite (nth_indep _ 0%R (/ INR n)%R) by (now rewrite repeat_length). apply nth_repeat. }
    cbn [opt_rows proportions] in A. rewrite !M in A; auto. apply rows_of_length; auto.
Qed.

(** ** OTLabelProp, classification: the masses it assigns before choosing a class *)
(** Over all targets every class receives the mass of its source samples, and every target receives its own mass. *)
Theorem C210_class_shares : forall a b G ys, coupling a b G -> length ys = length a ->
  (forall k c, nth_error (unique ys) k = Some c ->
     msum (length b) (fun j => at2 (class_mass G ys (unique ys) (length b)) j k) = share a ys c) /\
  (forall j, j < length b -> vsum (nth j (class_mass G ys (unique ys) (length b)) []) = nth j b 0%R).
Proof.
  intros a b G ys ((LG & _) & N & Rw & C) Ly.
  assert (Row : forall j, j < length b -> nth j (class_mass G ys (unique ys) (length b)) [] =
    map (fun c => msum (length a) (fun i => if (nth i ys 0 =? c)%Z then at2 G i j else 0%R)) (unique ys)).
  { intros j Hj. unfold class_mass. rewrite (map_nth' _ 0) by (now rewrite seq_length). rewrite seq_nth by auto. rewrite Nat.add_0_l.
    apply map_ext. intros c. rewrite dot_at by (unfold col; rewrite !map_length; congruence). unfold col. rewrite map_length, LG.
    apply msum_ext. intros i Hi. rewrite (map_nth' _ []) by lia. rewrite (map_nth' _ 0%Z) by lia. unfold at2.
    destruct (nth i ys 0 =? c)%Z; ring. }
  split.
  - intros k c Hk.
    rewrite (msum_ext (length b) _ (fun j => msum (length a) (fun i => if (nth i ys 0 =? c)%Z then at2 G i j else 0%R))).
    + rewrite <- msum_swap. unfold share. apply msum_ext. intros i Hi. destruct (nth i ys 0 =? c)%Z; [now apply Rw|apply msum_zero].
    + intros j Hj. unfold at2 at 1. rewrite (Row j Hj).
      assert (Kk : k < length (unique ys)) by (apply nth_error_Some; congruence).
      rewrite (map_nth' _ 0%Z) by auto. now rewrite (nth_error_nth _ _ 0%Z Hk).
  - intros j Hj. rewrite (Row j Hj), (vsum_nth _ 0%Z), msum_swap, <- (C j Hj). apply msum_ext. intros i Hi.
    assert (Iu : In (nth i ys 0%Z) (unique ys)) by (apply unique_In, nth_In; lia).
    apply (In_nth _ _ 0%Z) in Iu as (k & Hk & Ek).
    rewrite (msum_ext _ _ (fun l => at2 G i j * (if (l =? k)%nat then 1 else 0))%R).
    + apply (msum_delta _ (fun _ => at2 G i j)). exact Hk.
    + intros l Hl. destruct (Nat.eqb_spec l k) as [->|Ne].
      * rewrite Ek, Z.eqb_refl. ring.
      * destruct (Z.eqb_spec (nth i ys 0%Z) (nth l (unique ys) 0%Z)) as [Q|]; [|ring].
        exfalso. apply Ne. rewrite <- Ek in Q. eapply NoDup_nth; eauto. apply unique_NoDup.
Qed.

(** ** JDOT regression *)
(** Every label vector the estimator is fitted on has the average of the source labels: estimators that agree on those
    give the same run. *)
Theorem C210_jdot : forall {Est} solve (fit fit' : list R -> option (list R) -> res (Est * list R)) alpha tol n D ys nt ws wt,
  let a := proportions (length ys) ws in let b := proportions nt wt in
  length a = length ys ->
  (forall M T v, solve M a b = Ok (T, v) -> coupling a b T) -> Forall (fun x => 0 < x)%R b ->
  (forall yth, length yth = length b -> average b yth = average a ys -> (forall c, (scatter b yth c <= scatter a ys c)%R) -> fit yth wt = fit' yth wt) ->
  solve_jdot_regression solve fit alpha tol n D ys nt ws wt = solve_jdot_regression solve fit' alpha tol n D ys nt ws wt.
Proof.
  intros Est solve fit fit' alpha tol n D ys nt ws wt a b La Hs Hb Hf. unfold solve_jdot_regression. rewrite !marginal_proportions. fold a b.
  rewrite (loop_ext (reg_step solve fit alpha (norm_mean D) ys a b wt) (reg_step solve fit' alpha (norm_mean D) ys a b wt)); [reflexivity|].
  intros i s. unfold reg_step. destruct (solve _ a b) as [[T v]|] eqn:E; [|reflexivity]. cbn [bind]. apply Hs in E.
  assert (Pb : forall j, j < length b -> (0 < nth j b 0)%R) by (intros j Hj; now apply (proj1 (Forall_nth_R _ _) Hb)).
  rewrite transported_moved by (rewrite <- La; apply E).
  rewrite Hf; [reflexivity| | |].
  - now rewrite map_length, seq_length.
  - now apply average_moved.
  - intros c. now apply scatter_moved.
Qed.

(** ** Examples *)
(** C52_reg_ex: labels 6 and 3 at the sources, 5 and 4 at the targets: the mean stays 4.5, the spread shrinks. *)
Example C210_ex : coupling [1/2; 1/2]%R [1/2; 1/2]%R [[1/3; 1/6]; [1/6; 1/3]]%R /\
  average [1/2; 1/2]%R [5; 4]%R = average [1/2; 1/2]%R [6; 3]%R /\
  (scatter [1/2; 1/2]%R [5; 4]%R (9/2) < scatter [1/2; 1/2]%R [6; 3]%R (9/2))%R.
Proof.
  split; [|split].
  - split; [split; [reflexivity|repeat constructor]|]. split; [|split].
    + intros [|[|i]] [|[|j]] Hi Hj; cbn in *; try lia; lra.
    + intros [|[|i]] Hi; cbn in *; try lia; lra.
    + intros [|[|j]] Hj; cbn in *; try lia; lra.
  - unfold average. cbn. lra.
  - unfold scatter, Rsqr. cbn. lra.
Qed.
(** Choosing one class per target does not keep the shares: two sources of class 7, one of class 3 and a plan spreading
    every source evenly give class 7 to all targets, though class 3 receives a third of the mass. *)
Example C210_hard_labels_ex :
  let G := [[1/6; 1/6]; [1/6; 1/6]; [1/6; 1/6]]%R in
  coupling [1/3; 1/3; 1/3]%R [1/2; 1/2]%R G /\ heaviest G [7; 7; 3]%Z 0 7%Z /\ heaviest G [7; 7; 3]%Z 1 7%Z /\
  share [1/3; 1/3; 1/3]%R [7; 7; 3]%Z 3 = (1/3)%R.
Proof.
  intros G. split; [|split; [|split]].
  - split; [split; [reflexivity|repeat constructor]|]. split; [|split].
    + intros [|[|[|i]]] [|[|j]] Hi Hj; cbn in *; try lia; lra.
    + intros [|[|[|i]]] Hi; cbn in *; try lia; lra.
    + intros [|[|j]] Hj; cbn in *; try lia; lra.
  - split; [now left|]. split; intros c' [<-|[<-|[<-|[]]]]; unfold mass_of; cbn; intros; try lia; lra.
  - split; [now left|]. split; intros c' [<-|[<-|[<-|[]]]]; unfold mass_of; cbn; intros; try lia; lra.
  - unfold share. cbn. lra.
Qed.
