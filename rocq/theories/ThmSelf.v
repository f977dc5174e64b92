(** Theorems C56-C59, C93-C97: self-labelling (DASVM) and gradual domain adaptation. *)
From Coq Require Import String List ZArith QArith Bool Arith Lia Reals Lra Sorted Permutation.
From Verif Require Import Np NpFacts Labels UtilsModel SelectModel Spec SpecFacts UtilsSpec UtilsProofs UtilsProofs2 RVec RVecFacts
  OTSpec OTProofs OTProofs2 SelfModel SelfSpec SelfProofs SelfProofs2 SelfProofs3 GradProofs GradProofs2.
Import ListNotations.
Local Open Scope nat_scope.
Local Open Scope list_scope.

(** C56. One selection step: a point is selected afterwards iff it was before, or it is, for one of the classes, the best candidate. *)
Theorem C56_selection_step k selected scores cond : 1 <= k -> length cond = length selected ->
  Forall (fun s => length s = length selected) scores ->
  exists selected', find_points k selected scores cond = Ok selected' /\ length selected' = length selected /\
    forall i, flagged selected' i <-> flagged selected i \/
      exists s, In s scores /\ best (fun j => flagged cond j /\ ~ flagged selected j) (fun j => nth j s 0%R) i.
Proof.
  intros Hk L F. destruct (find_points_spec k selected scores cond Hk L F) as (s' & E & L' & _ & H). eauto.
Qed.
(** When a candidate exists, every class gets its best candidate, so at least one point is added. *)
Theorem C56_progress k selected scores cond s : 1 <= k -> length cond = length selected ->
  Forall (fun s => length s = length selected) scores -> In s scores ->
  (exists j, flagged cond j /\ ~ flagged selected j) ->
  exists selected' i, find_points k selected scores cond = Ok selected' /\ flagged selected' i /\ ~ flagged selected i /\
    best (fun j => flagged cond j /\ ~ flagged selected j) (fun j => nth j s 0%R) i.
Proof.
  intros Hk L F Hs EX. destruct (C56_selection_step k selected scores cond Hk L F) as (s' & E & _ & H).
  destruct (best_exists (fun j => flagged cond j /\ ~ flagged selected j) (fun j => nth j s 0%R) (length cond)) as [i Hi].
  - intros j. unfold flagged. destruct (nth j cond false), (nth j selected false); intuition congruence.
  - exact EX.
  - intros j [Hj _]. now apply flagged_lt.
  - exists s', i. split; [exact E|]. split; [apply H; right; eauto|]. split; [apply Hi|exact Hi].
Qed.

(** The documented number of points per class is not reached: [k] only matters through being positive. *)
Theorem C56_at_most_one_per_class k selected scores cond : 1 <= k -> length cond = length selected ->
  Forall (fun s => length s = length selected) scores ->
  exists selected', find_points k selected scores cond = Ok selected' /\ flags_count selected' <= flags_count selected + length scores.
Proof.
  intros Hk L F. destruct (find_points_spec k selected scores cond Hk L F) as (s' & E & _ & C & _). exists s'. split; [auto|].
  now rewrite !flags_count_eq.
Qed.
Theorem C56_k_per_class_refuted : ~ (forall k selected s0 s1 cond selected', 1 <= k -> length cond = length selected ->
  length s0 = length selected -> length s1 = length selected ->
  find_points k selected [s0; s1] cond = Ok selected' ->
  flags_count selected + Nat.min (2 * k) (flags_count (map2 andb (map negb selected) cond)) <= flags_count selected').
Proof.
  intros H. set (d := [1; 2; 3; -1; -2; -3]%R).
  destruct (C56_at_most_one_per_class 3 (repeat false 6) [map Ropp d; d] (repeat true 6)) as (s' & E & C);
    [lia|reflexivity|repeat constructor|].
  specialize (H 3 (repeat false 6) (map Ropp d) d (repeat true 6) s' ltac:(lia) eq_refl eq_refl eq_refl E). cbn in H, C. lia.
Qed.

Section Dasvm.
  Context {Row Est : Type}.
  Variable fitE : list Row -> list val -> res Est.
  Variable predictE : Est -> Row -> val.
  Variable decisionE : Est -> Row -> R.
  Variable probaE : Est -> Row -> R * R.
  Variable leqb : val -> val -> bool.
  Hypothesis leqb_eq : forall a b, leqb a b = true <-> a = b.

(** The first selection of fit: the most extreme source on each side is dropped, the most extreme target inside the margin on each side is
    added. [d0] is a default row, never looked at. *)
Theorem C56_first_selection k Xs Xt ys e (d0 : Row) : 1 <= k -> fitE Xs ys = Ok e ->
  exists s, dasvm_first Row Est fitE decisionE k Xs Xt ys = Ok s /\ d_est _ s = e /\
    (forall i, flagged (d_deleted _ s) i <-> extreme (fun j => j < length Xs) (fun j => decisionE e (nth j Xs d0)) i) /\
    (forall i, flagged (d_added _ s) i <->
       extreme (fun j => j < length Xt /\ within_margin (decisionE e (nth j Xt d0))) (fun j => decisionE e (nth j Xt d0)) i).
Proof.
  intros Hk E. destruct (first_spec fitE predictE decisionE k Xs Xt ys e d0 Hk E) as (s & A & B & _ & _ & _ & C & D & _). eauto 8.
Qed.

(** Each further iteration: previously added targets stay iff both classifiers give them the same label; then the same choice among the
    others, with the new classifier. *)
Theorem C56_iteration k Xs Xt ys s s' (d0 : Row) : 1 <= k ->
  length ys = length Xs -> length (d_deleted _ s) = length Xs -> length (d_added _ s) = length Xt ->
  dasvm_iter Row Est fitE predictE decisionE leqb k Xs Xt ys s = Ok s' ->
  let dec_s := fun j => decisionE (d_est _ s') (nth j Xs d0) in
  let dec_t := fun j => decisionE (d_est _ s') (nth j Xt d0) in
  let kept := fun j => flagged (d_added _ s) j /\ predictE (d_est _ s') (nth j Xt d0) = predictE (d_est _ s) (nth j Xt d0) in
  (forall i, flagged (d_deleted _ s') i <-> flagged (d_deleted _ s) i \/
     extreme (fun j => j < length Xs /\ ~ flagged (d_deleted _ s) j) dec_s i) /\
  (forall i, flagged (d_added _ s') i <-> kept i \/ extreme (fun j => j < length Xt /\ ~ kept j /\ within_margin (dec_t j)) dec_t i).
Proof.
  intros Hk L1 L2 L3 H. cbv zeta.
  pose proof H as H1. unfold dasvm_iter in H1. rewrite get_X_y_ok in H1 by auto. cbn [bind fst snd] in H1. apply bind_ok in H1 as (e' & HF & _).
  destruct (iter_spec fitE predictE decisionE leqb leqb_eq k Xs Xt ys s e' d0 Hk (conj L1 (conj L2 L3)) HF)
    as [(_ & Q)|(s1 & Q & E1 & _ & _ & _ & D & A & _)]; [congruence|].
  rewrite Q in H. injection H as <-. rewrite E1. split; [exact D|exact A].
Qed.

(** C96. The classifiers DASVM goes through, and the final one. *)
Theorem C96_training_sets k max_iter Xs Xt ys f : 1 <= k -> length ys = length Xs ->
  dasvm_core Row Est fitE predictE decisionE leqb k max_iter Xs Xt ys = Ok f ->
  exists n e, n <= max_iter - 1 /\ self_trained fitE predictE Xs Xt ys n e /\ fitE Xt (map (predictE e) Xt) = Ok (f_final _ f).
Proof.
  intros Hk L H. unfold dasvm_core in H. apply bind_ok in H as (b & Eb & H). apply bind_ok in H as (s0 & E0 & H).
  apply bind_ok in H as (s & E & H). apply bind_ok in H as (fin & EF & H). injection H as <-. cbn [f_final].
  assert (SH : shapes Xs Xt ys s0 /\ d_est _ s0 = b).
  { destruct Xs as [|x Xs0] eqn:EX; [destruct Xt as [|x Xt0] eqn:ET|].
    - destruct k as [|k]; [lia|]. unfold dasvm_first in E0. rewrite Eb in E0. simpl in E0. injection E0 as <-. repeat split; auto.
    - destruct (first_spec fitE predictE decisionE k [] (x :: Xt0) ys b x Hk Eb) as (s1 & A & B & C & D & _). rewrite A in E0. injection E0 as <-.
      repeat split; auto.
    - destruct (first_spec fitE predictE decisionE k (x :: Xs0) Xt ys b x Hk Eb) as (s1 & A & B & C & D & _). rewrite A in E0. injection E0 as <-.
      repeat split; auto. }
  destruct SH as [SH EE].
  destruct (loop_self_trained fitE predictE decisionE leqb leqb_eq k Xs Xt ys (max_iter - 1) Hk s0 s 0 SH) as (n & Hn & ST).
  - rewrite EE. now constructor.
  - exact E.
  - exists n, (d_est _ s). split; [lia|]. split; [exact ST|exact EF].
Qed.

Theorem C96_target_labels_unused k max_iter (X : list Row) y y' sd0 sd : sd <> [] ->
  length X = length sd -> length y = length sd -> length y' = length sd ->
  check_X_y_domain (length X) y sd0 true all_flags = Ok sd -> check_X_y_domain (length X) y' sd0 true all_flags = Ok sd ->
  rows_of is_source sd y = rows_of is_source sd y' ->
  dasvm_fit Row Est fitE predictE decisionE leqb k max_iter X y sd0 = dasvm_fit Row Est fitE predictE decisionE leqb k max_iter X y' sd0.
Proof.
  intros NE LX L L' C C' E. unfold dasvm_fit. rewrite C, C'. cbn [bind].
  rewrite !split_w by (auto; intros l [= <-]; auto). cbn [bind opt_rows]. now rewrite E.
Qed.

(** C57. *)
Theorem C57_predict_and_decision k max_iter Xs Xt ys f X : 1 <= k -> length ys = length Xs ->
  dasvm_core Row Est fitE predictE decisionE leqb k max_iter Xs Xt ys = Ok f ->
  exists n e final, self_trained fitE predictE Xs Xt ys n e /\ fitE Xt (map (predictE e) Xt) = Ok final /\
    dasvm_predict Row Est predictE f X = map (predictE final) X /\ dasvm_decision_function Row Est decisionE f X = map (decisionE final) X.
Proof.
  intros Hk L H. destruct (C96_training_sets k max_iter Xs Xt ys f Hk L H) as (n & e & _ & ST & F).
  exists n, e, (f_final _ f). repeat split; auto.
Qed.
(** What predict_proba returns: the probabilities of the classifier trained on the sources only. *)
Theorem C57_proba_is_source_model k max_iter Xs Xt ys f X :
  dasvm_core Row Est fitE predictE decisionE leqb k max_iter Xs Xt ys = Ok f ->
  exists e0, fitE Xs ys = Ok e0 /\ dasvm_predict_proba Row Est probaE f X = map (probaE e0) X.
Proof.
  intros H. unfold dasvm_core in H. apply bind_ok in H as (b & Eb & H). apply bind_ok in H as (s0 & E0 & H).
  apply bind_ok in H as (s & E & H). apply bind_ok in H as (fin & EF & H). injection H as <-. exists b. split; [auto|reflexivity].
Qed.

(** C95. *)
Theorem C95_completes_partial k max_iter Xs Xt ys (d0 : Row) : 1 <= k -> length ys = length Xs ->
  (forall A b, exists e, fitE A b = Ok e) -> max_iter <= 1 \/ 2 * (max_iter - 1) < length Xt ->
  exists f, dasvm_core Row Est fitE predictE decisionE leqb k max_iter Xs Xt ys = Ok f.
Proof.
  intros Hk L HF HM. unfold dasvm_core. destruct (HF Xs ys) as [e0 E0]. rewrite E0. cbn [bind].
  destruct (first_spec fitE predictE decisionE k Xs Xt ys e0 d0 Hk E0) as (s & A & B & C & D & CC & _). rewrite A. cbn [bind].
  destruct (loop_total fitE predictE decisionE leqb leqb_eq k Xs Xt ys (max_iter - 1) d0 Hk HF s) as [s' E].
  - repeat split; auto.
  - destruct (max_iter - 1) as [|q] eqn:Q; [left; auto|right]. lia.
  - rewrite E. cbn [bind]. destruct (HF Xt (map (predictE (d_est Est s')) Xt)) as [f Ef]. rewrite Ef. cbn [bind]. eauto.
Qed.
(** The next iteration raises as soon as all targets have been added and keep their label. *)
Theorem C95_all_added_raises k Xs Xt ys s e' (d0 : Row) : 1 <= k ->
  length ys = length Xs -> length (d_deleted _ s) = length Xs -> length (d_added _ s) = length Xt ->
  fitE (picked (map negb (d_deleted _ s)) Xs ++ picked (d_added _ s) Xt)
       (picked (map negb (d_deleted _ s)) ys ++ map (predictE (d_est _ s)) (picked (d_added _ s) Xt)) = Ok e' ->
  (forall j, j < length Xt -> flagged (d_added _ s) j /\ predictE e' (nth j Xt d0) = predictE (d_est _ s) (nth j Xt d0)) ->
  dasvm_iter Row Est fitE predictE decisionE leqb k Xs Xt ys s = Err ValueError.
Proof.
  intros Hk L1 L2 L3 HF HA.
  destruct (iter_spec fitE predictE decisionE leqb leqb_eq k Xs Xt ys s e' d0 Hk (conj L1 (conj L2 L3)) HF)
    as [(_ & Q)|(s1 & _ & _ & _ & (j & Hj & N) & _)]; [exact Q|]. exfalso. apply N. apply HA. exact Hj.
Qed.
End Dasvm.

(** ** Concrete classifiers on the line: the decision value of [x] is [x], the label its sign; the fitted state is the size of the
    training set, and the probabilities are the state. *)
Definition line_fit (A : list R) (b : list val) : res nat := Ok (length A).
Definition line_label (e : nat) (x : R) : val := if Rle_dec 0 x then VNum 1 else VNum 0.
Definition line_decision (e : nat) (x : R) : R := x.
Definition line_proba (e : nat) (x : R) : R * R := (INR e, 0%R).
Definition line_eqb (u v : val) : bool :=
  match u, v with
  | VNum p, VNum q => (Qnum p =? Qnum q)%Z && (Qden p =? Qden q)%positive
  | VNan, VNan => true | VInf a, VInf b => Bool.eqb a b | _, _ => false
  end.
Lemma line_eqb_eq a b : line_eqb a b = true <-> a = b.
Proof.
  destruct a as [[p q]| |x], b as [[p' q']| |y]; simpl; try (intuition congruence).
  - rewrite andb_true_iff, Z.eqb_eq, Pos.eqb_eq. split; [intros [-> ->]; reflexivity|intros [= -> ->]; auto].
  - destruct x, y; simpl; intuition congruence.
Qed.

(** Two classes, two sources outside the margin, two targets inside: everything is selected at once. *)
Definition ex_Xs : list R := [2; -2]%R.
Definition ex_Xt : list R := [/ 2; - / 2]%R.
Definition ex_ys : list val := [VNum 1; VNum 0].

Lemma two_lt j : j < 2 -> j = 0 \/ j = 1.
Proof. lia. Qed.

Lemma ex_first : exists s, dasvm_first R nat line_fit line_decision 3 ex_Xs ex_Xt ex_ys = Ok s /\
  d_est _ s = 2 /\ d_deleted _ s = [true; true] /\ d_added _ s = [true; true] /\ d_margin _ s = [true; true].
Proof.
  destruct (first_spec line_fit line_label line_decision 3 ex_Xs ex_Xt ex_ys 2 0%R ltac:(lia) eq_refl)
    as (s & E & E1 & L1 & L2 & _ & F1 & F2 & F3).
  assert (W : forall j, j < 2 -> within_margin (line_decision 2 (nth j ex_Xt 0%R))).
  { intros j Hj. unfold within_margin, line_decision. apply two_lt in Hj as [-> | ->]; simpl; unfold Rabs; destruct Rcase_abs; lra. }
  exists s. split; [exact E|]. split; [exact E1|].
  assert (LT : length (d_margin nat s) = 2).
  { unfold dasvm_first in E. cbn [bind line_fit in_margin] in E. cbv zeta in E.
    apply bind_ok in E as (del & _ & E). apply bind_ok in E as (add & _ & E). injection E as <-. reflexivity. }
  split; [|split]; apply flag_ext; auto; intros i Hi.
  - rewrite L1 in Hi. split; intros _; [apply two_lt in Hi as [-> | ->]; reflexivity|]. apply F1.
    apply two_lt in Hi as [-> | ->]; [left|right]; (split; [simpl; lia|]); split; intros j Hj; apply two_lt in Hj as [-> | ->];
      unfold line_decision; simpl; try lra; try (intros; lra); try lia.
  - rewrite L2 in Hi. split; intros _; [apply two_lt in Hi as [-> | ->]; reflexivity|]. apply F2.
    apply two_lt in Hi as [-> | ->]; [left|right]; (split; [split; [simpl; lia|apply W; lia]|]); split; intros j [Hj _]; apply two_lt in Hj as [-> | ->];
      unfold line_decision; simpl; try lra; try (intros; lra); try lia.
  - rewrite LT in Hi. split; intros _; [apply two_lt in Hi as [-> | ->]; reflexivity|]. apply F3. split; [exact Hi|]. now apply W.
Qed.
Example C56_ex : exists s, dasvm_first R nat line_fit line_decision 3 ex_Xs ex_Xt ex_ys = Ok s /\
  extreme (fun j => j < 2) (fun j => nth j ex_Xs 0%R) 0 /\ d_added _ s = [true; true].
Proof.
  destruct ex_first as (s & E & _ & _ & A & _). exists s. split; [auto|]. split; [|auto].
  left. split; [lia|]. split; intros j Hj; apply two_lt in Hj as [-> | ->]; simpl; try lra; try (intros; lra); lia.
Qed.

(** C95: fit on two source and two target samples raises although every classifier can be trained. *)
Theorem C95_fit_raises_refuted :
  (forall A b, exists e, line_fit A b = Ok e) /\ (forall a b, line_eqb a b = true <-> a = b) /\
  dasvm_fit R nat line_fit line_label line_decision line_eqb 3 1000 (ex_Xs ++ ex_Xt) [VNum 1; VNum 0; VNum (-1); VNum (-1)]
            (SDArr [1; 1; -2; -2]%Z) = Err ValueError.
Proof.
  split; [intros; eexists; reflexivity|]. split; [apply line_eqb_eq|].
  assert (C : check_X_y_domain (length (ex_Xs ++ ex_Xt)) [VNum 1; VNum 0; VNum (-1); VNum (-1)] (SDArr [1; 1; -2; -2]%Z) true all_flags
    = Ok [1; 1; -2; -2]%Z) by (vm_compute; reflexivity).
  unfold dasvm_fit. rewrite C. cbn [bind]. rewrite !split_w by (try discriminate; intros l [= <-]; reflexivity).
  cbn [bind opt_rows]. change (rows_of is_source [1; 1; -2; -2]%Z (ex_Xs ++ ex_Xt)) with ex_Xs.
  change (rows_of is_target [1; 1; -2; -2]%Z (ex_Xs ++ ex_Xt)) with ex_Xt.
  change (rows_of is_source [1; 1; -2; -2]%Z [VNum 1; VNum 0; VNum (-1); VNum (-1)]) with ex_ys.
  unfold dasvm_core. change (line_fit ex_Xs ex_ys) with (@Ok nat 2). cbn [bind].
  destruct ex_first as (s & E & E1 & E2 & E3 & E4). rewrite E. cbn [bind].
  change (1000 - 1) with 999. cbn [dasvm_loop]. rewrite E4. change (count [true; true] =? 0) with false. cbv iota.
  rewrite (C95_all_added_raises line_fit line_label line_decision line_eqb line_eqb_eq 3 ex_Xs ex_Xt ex_ys s 2 0%R); try reflexivity.
  - lia.
  - now rewrite E2.
  - now rewrite E3.
  - rewrite E2, E3. reflexivity.
  - intros j Hj. rewrite E3. split; [|reflexivity]. apply two_lt in Hj as [-> | ->]; reflexivity.
Qed.
Example C95_ex : exists f, dasvm_core R nat line_fit line_label line_decision line_eqb 3 2 ex_Xs [1; / 2; - / 2]%R ex_ys = Ok f.
Proof. apply (C95_completes_partial line_fit line_label line_decision line_eqb line_eqb_eq 3 2 ex_Xs [1; / 2; - / 2]%R ex_ys 0%R); [lia|reflexivity|intros; eexists; reflexivity|right; simpl; lia]. Qed.

(** C57: predict_proba does not come from the model used by predict. *)
Theorem C57_proba_refuted : exists f, dasvm_core R nat line_fit line_label line_decision line_eqb 3 2 ex_Xs [1; / 2; - / 2]%R ex_ys = Ok f /\
  dasvm_predict R nat line_label f [1%R] = map (line_label (f_final _ f)) [1%R] /\
  dasvm_predict_proba R nat line_proba f [1%R] <> map (line_proba (f_final _ f)) [1%R].
Proof.
  destruct C95_ex as (f & E). exists f. split; [exact E|]. split; [reflexivity|].
  destruct (C57_proba_is_source_model line_fit line_label line_decision line_proba line_eqb 3 2 _ _ _ f [1%R] E) as (e0 & H0 & ->).
  injection H0 as <-.
  destruct (C96_training_sets line_fit line_label line_decision line_eqb line_eqb_eq 3 2 ex_Xs [1; / 2; - / 2]%R ex_ys f ltac:(lia) eq_refl E)
    as (n & e & _ & _ & HF). injection HF as HF. rewrite <- HF. unfold line_proba. intros Q. injection Q as Q. simpl in Q. lra.
Qed.
(** C96: a run with its training sets. *)
Example C96_ex : exists f, dasvm_core R nat line_fit line_label line_decision line_eqb 3 2 ex_Xs [1; / 2; - / 2]%R ex_ys = Ok f /\ f_final _ f = 3.
Proof.
  destruct C95_ex as (f & E). exists f. split; [exact E|].
  destruct (C96_training_sets line_fit line_label line_decision line_eqb line_eqb_eq 3 2 ex_Xs [1; / 2; - / 2]%R ex_ys f ltac:(lia) eq_refl E)
    as (n & e & _ & _ & HF). injection HF as HF. now rewrite <- HF.
Qed.
