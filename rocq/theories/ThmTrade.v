(** C211: a trade-off set to one of its ends switches the other part off. *)
From Coq Require Import List ZArith QArith Bool Arith Lia Reals Lra Psatz Sorting.Permutation.
From Verif Require Import Np NpFacts Labels Spec SpecFacts UtilsModel UtilsSpec SelectModel RVec RVecFacts OTModel OTSpec OTProofs OTProofs2 OTProofs3 ThmOT
  SplitModel SplitSpec SplitProofs SplitProofs2 ThmSplit.
Import ListNotations.
Local Open Scope nat_scope.
Local Open Scope list_scope.

(** ** Specification *)
(** The distances divided by their mean. *)
Definition relative (D : list (list R)) : list (list R) := map (map (fun d => d / mean (concat D))%R) D.

(** ** JDOT *)
Lemma map2_fst (g : R -> R -> R) : (forall f l, g f l = f) -> forall u v, length u = length v -> map2 g u v = u.
Proof. intros H. induction u as [|x u IH]; intros [|y v] L; try discriminate; [reflexivity|]. cbn. rewrite H, IH; auto. Qed.

Lemma cost_features (Mf Ml : list (list R)) i n m : matrix n m Mf -> matrix n m Ml -> jdot_cost 0 Mf Ml i = Mf.
Proof.
  intros [L1 F1] [L2 F2]. unfold jdot_cost. destruct (0 <? i).
  - subst n. symmetry in L2. revert Ml L2 F2. induction Mf as [|r Mf IH]; intros [|s Ml] L F2; try discriminate; [reflexivity|].
    inversion F1; inversion F2; subst. cbn [map2]. f_equal; [|apply IH; auto].
    apply map2_fst; [intros; ring|congruence].
  - rewrite <- (map_id Mf) at 2. apply map_ext. intros r. rewrite <- (map_id r) at 2. apply map_ext. intros f. ring.
Qed.

Lemma relative_matrix n m D : matrix n m D -> matrix n m (relative D).
Proof.
  intros [L F]. split; [unfold relative; now rewrite map_length|]. unfold relative. apply Forall_map.
  eapply Forall_impl; [|exact F]. intros r Hr. now rewrite map_length.
Qed.

(** JDOT regression with alpha = 0: the plan is that of the features alone, the estimator is trained once and for all on
    the labels moved by it, and the second iteration stops the loop without a warning. *)
Theorem C211_jdot_features_only : forall {Est} solve (fit : list R -> option (list R) -> res (Est * list R)) tol n D ys nt ws wt est lot llab T w,
  matrix (length ys) nt D -> (forall l, wt = Some l -> length l = nt) -> 2 <= n -> (0 < tol)%R ->
  solve_jdot_regression solve fit 0 tol n D ys nt ws wt = Ok (est, lot, llab, T, w) ->
  let a := proportions (length ys) ws in let b := proportions nt wt in
  exists v yp, solve (relative D) a b = Ok (T, v) /\ fit (transported ys T b) wt = Ok (est, yp) /\ lot = [v; v] /\ w = false.
Proof.
  intros Est solve fit tol n D ys nt ws wt est lot llab T w HD Hwt Hn Htol H a b.
  unfold solve_jdot_regression in H. rewrite !marginal_proportions in H. fold a b in H. change (norm_mean D) with (relative D) in H.
  assert (Lb : length b = nt) by now apply marg_length.
  destruct n as [|[|n]]; [lia|lia|].
  assert (Step : forall i Ml o, matrix (length ys) nt Ml -> forall s' l1 l2,
    reg_step solve fit 0 (relative D) ys a b wt i (Ml, o) = Ok (s', l1, l2) ->
    exists T v e yp, solve (relative D) a b = Ok (T, v) /\ fit (transported ys T b) wt = Ok (e, yp) /\
      s' = (sqdist ys yp, Some (e, T)) /\ l1 = v /\ matrix (length ys) nt (sqdist ys yp)).
  { intros i Ml o HM s' l1 l2 E. unfold reg_step in E. cbn [fst] in E.
    rewrite (cost_features _ _ i (length ys) nt) in E; auto using relative_matrix.
    destruct (solve (relative D) a b) as [[T0 v0]|] eqn:Es; [|discriminate]. cbn [bind] in E.
    destruct (fit (transported ys T0 b) wt) as [[e yp]|] eqn:Ef; [|discriminate]. cbn [bind] in E.
    destruct (np_map2 _ _ yp) as [d|] eqn:Ed; [|discriminate]. cbn [bind] in E. injection E as <- <- _.
    exists T0, v0, e, yp. repeat split; auto.
    - destruct (i =? 0); [ring|reflexivity].
    - unfold sqdist. now rewrite map_length.
    - unfold sqdist. apply Forall_map, Forall_forall. intros y _. rewrite map_length.
      apply np_map2_ok in Ed as [Ed _]. rewrite <- Ed. unfold transported. rewrite map_length, combine_length, seq_length. lia. }
  assert (M0 : matrix (length ys) nt (sqdist ys (repeat 0%R nt))).
  { split; unfold sqdist; [now rewrite map_length|]. apply Forall_map, Forall_forall. intros y _. now rewrite map_length, repeat_length. }
  cbn [jdot_loop] in H.
  destruct (reg_step solve fit 0 (relative D) ys a b wt 0 _) as [[[s1 l1] m1]|] eqn:E1; [|discriminate]. cbn [bind small_change] in H.
  destruct (Step _ _ _ M0 _ _ _ E1) as (T1 & v1 & e1 & y1 & S1 & F1 & -> & -> & M1).
  replace (0 =? S (S n) - 1) with false in H by (symmetry; apply Nat.eqb_neq; lia).
  destruct (reg_step solve fit 0 (relative D) ys a b wt 1 _) as [[[s2 l2] m2]|] eqn:E2; [|discriminate]. cbn [bind] in H.
  destruct (Step _ _ _ M1 _ _ _ E2) as (T2 & v2 & e2 & y2 & S2 & F2 & -> & -> & M2).
  assert (T2 = T1 /\ v2 = v1) as [-> ->] by (rewrite S1 in S2; injection S2; auto).
  cbn [small_change] in H. rewrite Rminus_diag_eq, Rabs_R0 in H by reflexivity.
  replace (Rltb 0 tol) with true in H by (symmetry; now apply Rltb_iff). cbn [bind snd] in H.
  injection H as <- <- _ <- <-. exists v1, y2. auto.
Qed.

(** In particular the labels are those OTLabelProp gives to the targets, when the solver does not mind the unit of the
    costs. [dist Xs Xt]: the distances. *)
Theorem C211_jdot_is_label_propagation : forall {Xrow Est} (dist : list Xrow -> list Xrow -> list (list R)) solve
    (fit : list R -> option (list R) -> res (Est * list R)) tol n X y sw sd est lot llab T w,
  sd <> [] -> length X = length sd -> length y = length sd -> (forall l, sw = Some l -> length l = length sd) -> 2 <= n -> (0 < tol)%R ->
  let Xs := rows_of is_source sd X in let Xt := rows_of is_target sd X in let ys := rows_of is_source sd y in
  let ws := opt_rows is_source sd sw in let wt := opt_rows is_target sd sw in
  let D := dist Xs Xt in
  matrix (length ys) (length Xt) D ->
  (forall a b T v, solve (relative D) a b = Ok (T, v) -> length T = length ys /\ exists v', solve D a b = Ok (T, v')) ->
  solve_jdot_regression solve fit 0 tol n D ys (length Xt) ws wt = Ok (est, lot, llab, T, w) ->
  exists labels yp out,
    otlp_regression (fun Xs Xt a b => p <- solve (dist Xs Xt) a b ;; Ok (fst p)) X y sw sd = Ok out /\
    rows_of is_target sd out = map Some labels /\ fit labels wt = Ok (est, yp).
Proof.
  intros Xrow Est dist solve fit tol n X y sw sd est lot llab T w Hsd HX Hy Hw Hn Ht Xs Xt ys ws wt D HD HS H.
  assert (LXt : length Xt = how_many is_target sd) by (apply rows_of_length; auto).
  assert (Lys : length ys = how_many is_source sd) by (apply rows_of_length; auto).
  apply C211_jdot_features_only in H as (v & yp & S1 & F1 & _); auto.
  2:{ intros l Hl. unfold wt in Hl. destruct sw as [w0|]; [|discriminate]. injection Hl as <-. rewrite LXt. apply rows_of_length. symmetry. now apply Hw. }
  apply HS in S1 as (LT & v' & S1).
  set (plan := fun Xs Xt a b => p <- solve (dist Xs Xt) a b ;; Ok (fst p)).
  destruct (C52_regression_labels plan X y sw sd T) as (out & E & (_ & _ & L)); auto.
  - unfold plan. fold Xs Xt D ws wt. rewrite <- Lys, <- LXt, S1. reflexivity.
  - congruence.
  - fold ys wt in L. exists (transported ys T (proportions (length Xt) wt)), yp, out. split; [exact E|]. split; [|exact F1].
    rewrite L, transported_moved, map_map by exact LT. rewrite LXt.
    rewrite marg_length; [reflexivity|].
    intros l Hl. unfold wt in Hl. destruct sw as [w0|]; [|discriminate]. injection Hl as <-. apply rows_of_length. symmetry. now apply Hw.
Qed.

Lemma cost_labels (Mf Mf' Ml : list (list R)) i n m : matrix n m Mf -> matrix n m Mf' -> jdot_cost 1 Mf Ml i = jdot_cost 1 Mf' Ml i.
Proof.
  intros [L1 F1] [L2 F2]. assert (L : length Mf = length Mf') by congruence. clear L1 L2. unfold jdot_cost. destruct (0 <? i).
  - revert Mf' Ml L F2. induction Mf as [|r Mf IH]; intros [|r' Mf'] [|s Ml] L F2; try discriminate; try reflexivity.
    inversion F1 as [|? ? E1 F1']; inversion F2 as [|? ? E2 F2']; subst. cbn [map2]. f_equal; [|apply IH; auto].
    clear - E2. revert r' s E2. induction r as [|x r IH]; intros [|x' r'] [|l s] E; try discriminate; try reflexivity.
    cbn [map2]. f_equal; [ring|]. apply IH. now injection E.
  - revert Mf' L F2. induction Mf as [|r Mf IH]; intros [|r' Mf'] L F2; try discriminate; [reflexivity|].
    inversion F1 as [|? ? E1 F1']; inversion F2 as [|? ? E2 F2']; subst. cbn [map]. f_equal; [|apply IH; auto].
    clear - E2. revert r' E2. induction r as [|x r IH]; intros [|x' r'] E; try discriminate; [reflexivity|].
    cbn [map]. f_equal; [ring|]. apply IH. now injection E.
Qed.

(** With alpha = 1 the features of the samples play no part in the transport, in regression and in classification. *)
Theorem C211_jdot_labels_only : forall {Est} solve (fit : list R -> option (list R) -> res (Est * list R)) tol n D D' ys nt ws wt,
  matrix (length ys) nt D -> matrix (length ys) nt D' -> mean (concat D) <> 0%R -> mean (concat D') <> 0%R ->
  solve_jdot_regression solve fit 1 tol n D ys nt ws wt = solve_jdot_regression solve fit 1 tol n D' ys nt ws wt.
Proof.
  intros Est solve fit tol n D D' ys nt ws wt H H' _ _. unfold solve_jdot_regression.
  rewrite (loop_ext (reg_step solve fit 1 (norm_mean D) ys (marginal (length ys) ws) (marginal nt wt) wt)
                    (reg_step solve fit 1 (norm_mean D') ys (marginal (length ys) ws) (marginal nt wt) wt)); [reflexivity|].
  intros i s. unfold reg_step. rewrite (cost_labels (norm_mean D) (norm_mean D') (fst s) i (length ys) nt); [reflexivity| |];
    now apply relative_matrix.
Qed.
Theorem C211_jdot_class_labels_only : forall {Est Xrow} solve (fit : list Xrow -> list Z -> list R -> res Est) pred metric thr tol n D D' ys Xt ws wt,
  matrix (length ys) (length Xt) D -> matrix (length ys) (length Xt) D' -> mean (concat D) <> 0%R -> mean (concat D') <> 0%R ->
  solve_jdot_classification solve fit pred metric 1 thr tol n D ys Xt ws wt = solve_jdot_classification solve fit pred metric 1 thr tol n D' ys Xt ws wt.
Proof.
  intros Est Xrow solve fit pred metric thr tol n D D' ys Xt ws wt H H' _ _. unfold solve_jdot_classification.
  rewrite (loop_ext (cls_step solve fit pred metric 1 thr (norm_mean D) ys Xt (marginal (length ys) ws) (marginal (length Xt) wt))
                    (cls_step solve fit pred metric 1 thr (norm_mean D') ys Xt (marginal (length ys) ws) (marginal (length Xt) wt))); [reflexivity|].
  intros i s. unfold cls_step. rewrite (cost_labels (norm_mean D) (norm_mean D') (fst s) i (length ys) (length Xt)); [reflexivity| |];
    now apply relative_matrix.
Qed.

(** JDOT classification with alpha = 0: trained on the thresholded labels moved by the plan of the features alone. *)
Theorem C211_jdot_class_features_only : forall {Est Xrow} solve (fit : list Xrow -> list Z -> list R -> res Est) pred metric thr tol n D ys Xt ws wt est lot llab T w,
  matrix (length ys) (length Xt) D -> 2 <= n -> (0 < tol)%R ->
  (forall e P, pred_matrix metric (pred e Xt) = Ok P -> length P = length Xt) ->
  solve_jdot_classification solve fit pred metric 0 thr tol n D ys Xt ws wt = Ok (est, lot, llab, T, w) ->
  exists v Xh yh wh, solve (relative D) (proportions (length ys) ws) (proportions (length Xt) wt) = Ok (T, v) /\
    jdot_data Xt (label_plan T (map (onehot (unique ys)) ys) (length Xt) (length (unique ys))) (unique ys) thr = Ok (Xh, yh, wh) /\
    fit Xh yh wh = Ok est /\ lot = [v; v] /\ w = false.
Proof.
  intros Est Xrow solve fit pred metric thr tol n D ys Xt ws wt est lot llab T w HD Hn Htol HP H.
  unfold solve_jdot_classification in H. rewrite !marginal_proportions in H.
  set (a := proportions (length ys) ws) in *. set (b := proportions (length Xt) wt) in *. change (norm_mean D) with (relative D) in H.
  destruct n as [|[|n]]; [lia|lia|].
  assert (Step : forall i Ml o, matrix (length ys) (length Xt) Ml -> forall s' l1 l2,
    cls_step solve fit pred metric 0 thr (relative D) ys Xt a b i (Ml, o) = Ok (s', l1, l2) ->
    exists T v Xh yh wh e Ml', solve (relative D) a b = Ok (T, v) /\
      jdot_data Xt (label_plan T (map (onehot (unique ys)) ys) (length Xt) (length (unique ys))) (unique ys) thr = Ok (Xh, yh, wh) /\
      fit Xh yh wh = Ok e /\ s' = (Ml', Some (e, T)) /\ l1 = v /\ matrix (length ys) (length Xt) Ml').
  { intros i Ml o HM s' l1 l2 E. unfold cls_step in E. cbn [fst] in E.
    rewrite (cost_features _ _ i (length ys) (length Xt)) in E; auto using relative_matrix.
    destruct (solve (relative D) a b) as [[T0 v0]|] eqn:Es; [|discriminate]. cbn [bind] in E.
    destruct (jdot_data Xt _ _ thr) as [[[Xh yh] wh]|] eqn:Ej; [|discriminate]. cbn [bind] in E.
    destruct (fit Xh yh wh) as [e|] eqn:Ef; [|discriminate]. cbn [bind] in E.
    destruct (class_cost metric _ (pred e Xt)) as [Ml'|] eqn:Ec; [|discriminate]. cbn [bind] in E.
    destruct (tgt_loss _ _ _ _) as [l|] eqn:El; [|discriminate]. cbn [bind] in E. injection E as <- <- _.
    exists T0, v0, Xh, yh, wh, e, Ml'. repeat split; auto.
    - destruct (i =? 0); [ring|reflexivity].
    - unfold class_cost in Ec. destruct (pred_matrix metric (pred e Xt)) as [P|]; [|discriminate]. cbn [bind] in Ec.
      destruct (forallb _ _) in Ec; [|discriminate]. injection Ec as <-. now rewrite !map_length.
    - unfold class_cost in Ec. destruct (pred_matrix metric (pred e Xt)) as [P|] eqn:Ep; [|discriminate]. cbn [bind] in Ec.
      destruct (forallb _ _) in Ec; [|discriminate]. injection Ec as <-. apply Forall_map, Forall_forall. intros y _. rewrite map_length. eauto. }
  assert (M0 : matrix (length ys) (length Xt) (initial_cost (length ys) (length Xt))).
  { split; unfold initial_cost; [apply repeat_length|]. apply Forall_forall. intros r Hr. apply repeat_spec in Hr as ->. apply repeat_length. }
  cbn [jdot_loop] in H.
  destruct (cls_step solve fit pred metric 0 thr (relative D) ys Xt a b 0 _) as [[[s1 l1] m1]|] eqn:E1; [|discriminate]. cbn [bind small_change] in H.
  destruct (Step _ _ _ M0 _ _ _ E1) as (T1 & v1 & X1 & y1 & w1 & e1 & Ml1 & S1 & J1 & F1 & -> & -> & M1).
  replace (0 =? S (S n) - 1) with false in H by (symmetry; apply Nat.eqb_neq; lia).
  destruct (cls_step solve fit pred metric 0 thr (relative D) ys Xt a b 1 _) as [[[s2 l2] m2]|] eqn:E2; [|discriminate]. cbn [bind] in H.
  destruct (Step _ _ _ M1 _ _ _ E2) as (T2 & v2 & X2 & y2 & w2 & e2 & Ml2 & S2 & J2 & F2 & -> & -> & M2).
  assert (T2 = T1 /\ v2 = v1) as [-> ->] by (rewrite S1 in S2; injection S2; auto).
  cbn [small_change] in H. rewrite Rminus_diag_eq, Rabs_R0 in H by reflexivity.
  replace (Rltb 0 tol) with true in H by (symmetry; now apply Rltb_iff). cbn [bind snd] in H.
  injection H as <- <- _ <- <-. exists v1, X2, y2, w2. auto.
Qed.

(** ** DomainShuffleSplit with under_sample_size = 1 *)
Lemma how_many_incl {A} (p : A -> bool) l l' : NoDup l -> incl l l' -> how_many p l <= how_many p l'.
Proof.
  intros N I. unfold how_many. apply NoDup_incl_length; [now apply NoDup_filter|].
  intros x Hx. apply filter_In in Hx as [H1 H2]. apply filter_In. auto.
Qed.
Lemma count_all (p : Z -> bool) sd : count_in p sd (seq 0 (length sd)) = how_many p sd.
Proof.
  unfold count_in, how_many, label. induction sd as [|d sd IH] using rev_ind; [reflexivity|].
  rewrite app_length. cbn [length]. rewrite Nat.add_1_r, seq_S, !filter_app, !app_length, Nat.add_0_l. f_equal.
  - rewrite <- IH. f_equal. apply filter_ext_in. intros i Hi. apply in_seq in Hi. rewrite app_nth1 by lia. reflexivity.
  - cbn [filter]. rewrite nth_middle. destruct (p d); reflexivity.
Qed.

(** No sample is dropped: every fold is one of SourceTargetShuffleSplit's. *)
Theorem C211_no_under_sampling : forall n sda test_size train_size draws r,
  let sd := eff_domain n sda in
  Forall (dom_draw_ok sd 1) draws ->
  domain_shuffle_split n sda 1 test_size train_size draws = Ok r ->
  length r = length draws /\ Forall (st_split sd test_size train_size) r.
Proof.
  intros n sda ts tr draws r sd HD H. apply C32_domain_shuffle_split in H as (_ & L & F); auto. split; auto.
  eapply Forall_impl; [|exact F]. intros [train test] (HC & S & N & B & HF & HI & S1 & S2 & HP). fold sd in HC, B, HF, S1, S2, HP.
  rewrite Forall_forall in B.
  assert (All : Permutation S (seq 0 (length sd))).
  { apply NoDup_Permutation; auto using seq_NoDup. intros i. split.
    - intros Hi. apply in_seq. specialize (B i Hi). lia.
    - intros Hi. apply in_seq in Hi. destruct (in_dec Nat.eq_dec i S) as [|Ni]; auto. exfalso.
      assert (Hd : In (label sd i) sd) by (apply nth_In; lia). specialize (HF _ Hd).
      assert (E : count_in (Z.eqb (label sd i)) sd S = how_many (Z.eqb (label sd i)) sd).
      { eapply is_floor_unique; [exact HF|]. unfold is_floor, times. rewrite !Qmult_1_l. split; [apply Qle_refl|]. unfold Qlt. simpl. lia. }
      rewrite <- (count_all _ sd) in E.
      assert (Le : how_many (fun j => Z.eqb (label sd i) (label sd j)) (i :: S) <= how_many (fun j => Z.eqb (label sd i) (label sd j)) (seq 0 (length sd))).
      { apply how_many_incl; [now constructor|]. intros x [<-|Hx]; apply in_seq; [lia|]. specialize (B x Hx). lia. }
      unfold count_in in E. unfold how_many in *. cbn [filter] in Le. rewrite Z.eqb_refl in Le. cbn [length] in Le. lia. }
  assert (Cnt : forall p, count_in p sd S = how_many p sd).
  { intros p. rewrite <- (count_all p sd). unfold count_in, how_many. apply Permutation_length.
    clear - All. revert All. generalize (seq 0 (length sd)). intros l All.
    induction All; cbn [filter]; auto; repeat match goal with |- context [if ?b then _ else _] => destruct b end; auto using perm_swap, Permutation_refl.
    eapply perm_trans; eauto. }
  rewrite !Cnt in S1, S2. split; [exact HC|]. split; [exact S1|]. split; [exact S2|]. intros C. eapply perm_trans; [apply HP; exact C|exact All].
Qed.

(** ** Examples *)
(** Two sources labelled 6 and 3 and two targets: the run with alpha = 0 of an estimator that learns its labels by heart. *)
Example C211_ex : exists llab,
  solve_jdot_regression (Est := list R) (fun _ _ _ => Ok ([[1/3; 1/6]; [1/6; 1/3]]%R, 7%R)) (fun yth _ => Ok (yth, yth)) 0 1 5
    [[1; 2]; [2; 3]]%R [6; 3]%R 2 None None = Ok (transported [6; 3]%R [[1/3; 1/6]; [1/6; 1/3]]%R [1/2; 1/2]%R, [7; 7]%R, llab, [[1/3; 1/6]; [1/6; 1/3]]%R, false) /\
  transported [6; 3]%R [[1/3; 1/6]; [1/6; 1/3]]%R [1/2; 1/2]%R = [5; 4]%R.
Proof.
  assert (T : transported [6; 3]%R [[1/3; 1/6]; [1/6; 1/3]]%R [1/2; 1/2]%R = [5; 4]%R).
  { unfold transported, dot, col. cbn. repeat f_equal; lra. }
  assert (M : marginal 2 None = [1/2; 1/2]%R) by reflexivity.
  unfold solve_jdot_regression. cbn [length]. rewrite M. cbn [jdot_loop]. unfold reg_step at 1. cbn [bind fst Nat.eqb]. rewrite T. cbn [bind].
  unfold np_map2. cbn [length Nat.eqb bind small_change Nat.sub]. unfold reg_step. cbn [bind fst Nat.eqb]. rewrite T. cbn [bind]. unfold np_map2. cbn [length Nat.eqb bind].
  unfold small_change. match goal with |- context [Rltb (Rabs (7 - ?x)) 1] => replace x with 7%R by ring end.
  replace (Rltb (Rabs (7 - 7)) 1) with true by (symmetry; apply Rltb_iff; rewrite Rminus_diag_eq, Rabs_R0 by reflexivity; lra).
  cbn [bind snd]. eexists. split; [|reflexivity]. repeat f_equal; ring.
Qed.
Example C211_split_ex : domain_shuffle_split 10 (SDArr sd32) 1 (SzFrac (1 # 3)) SzNone
  [mkDomDraw [[3; 1; 0; 2]; [1; 0]] [[0; 2; 1; 3]] [2; 0; 3; 1; 5; 4] [1; 0; 2; 3]] = Ok [([2; 1; 4; 5; 7; 9], [0; 3; 8; 6])].
Proof. vm_compute. reflexivity. Qed.
