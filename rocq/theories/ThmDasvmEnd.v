(** C95: exactly when DASVMClassifier.fit completes. *)
From Coq Require Import String List ZArith QArith Bool Arith Lia Reals Lra.
From Verif Require Import Np NpFacts Labels UtilsModel SelectModel Spec SpecFacts UtilsSpec UtilsProofs RVec RVecFacts OTSpec OTProofs OTProofs2 SelfModel SelfSpec SelfProofs SelfProofs2 SelfProofs3 ThmSelf.
Import ListNotations.
Local Open Scope nat_scope.
Local Open Scope list_scope.

Section Ends.
  Context {Row Est : Type}.
  Variable fitE : list Row -> list val -> res Est.
  Variable predictE : Est -> Row -> val.
  Variable decisionE : Est -> Row -> R.
  Variable leqb : val -> val -> bool.
  Hypothesis leqb_eq : forall a b, leqb a b = true <-> a = b.
  Variables (Xs Xt : list Row) (ys : list val) (d0 : Row).

  (** An added target stays added iff the next classifier gives it the same label. *)
  Definition stays (e e' : Est) (added : list bool) (j : nat) : Prop :=
    flagged added j /\ predictE e' (nth j Xt d0) = predictE e (nth j Xt d0).
  (** The classifier trained next. *)
  Definition retrained (e : Est) (dropped added : list bool) (e' : Est) : Prop :=
    fitE (picked (map negb dropped) Xs ++ picked added Xt) (picked (map negb dropped) ys ++ map (predictE e) (picked added Xt)) = Ok e'.

  (** What has been reached after [n] iterations: the classifier, the sources dropped, the targets added, and the targets that were
      inside the margin and not added before. *)
  Inductive reached : nat -> Est -> list bool -> list bool -> list bool -> Prop :=
  | reached_first e dropped added open :
      fitE Xs ys = Ok e -> length dropped = length Xs -> length added = length Xt -> length open = length Xt ->
      (forall i, flagged dropped i <-> extreme (fun j => j < length Xs) (fun j => decisionE e (nth j Xs d0)) i) ->
      (forall i, flagged open i <-> i < length Xt /\ within_margin (decisionE e (nth i Xt d0))) ->
      (forall i, flagged added i <-> extreme (flagged open) (fun j => decisionE e (nth j Xt d0)) i) ->
      reached 0 e dropped added open
  | reached_next n e dropped added open e' dropped' added' open' :
      reached n e dropped added open -> (exists i, flagged open i) -> retrained e dropped added e' ->
      (exists j, j < length Xt /\ ~ stays e e' added j) ->
      length dropped' = length Xs -> length added' = length Xt -> length open' = length Xt ->
      (forall i, flagged dropped' i <-> flagged dropped i \/
         extreme (fun j => j < length Xs /\ ~ flagged dropped j) (fun j => decisionE e' (nth j Xs d0)) i) ->
      (forall i, flagged open' i <-> i < length Xt /\ ~ stays e e' added i /\ within_margin (decisionE e' (nth i Xt d0))) ->
      (forall i, flagged added' i <-> stays e e' added i \/ extreme (flagged open') (fun j => decisionE e' (nth j Xt d0)) i) ->
      reached (S n) e' dropped' added' open'.

  Lemma flags_eq (l l' : list bool) : length l = length l' -> (forall i, flagged l i <-> flagged l' i) -> l = l'.
  Proof.
    intros L H. apply nth_ext with (d := false) (d' := false); auto. intros i _. specialize (H i). unfold flagged in H.
    destruct (nth i l false), (nth i l' false); intuition congruence.
  Qed.
  Lemma extreme_ext (c c' : nat -> Prop) d i : (forall j, c j <-> c' j) -> extreme c d i <-> extreme c' d i.
  Proof.
    intros H. unfold extreme, best. split; intros [(A & B & C)|(A & B & C)]; [left|right|left|right]; (split; [now apply H|split; intros j Hj; [apply B|apply C]; now apply H]).
  Qed.
  Lemma no_open (l : list bool) : (count l =? 0) = false <-> exists i, flagged l i.
  Proof. rewrite <- count_pos, Nat.eqb_neq. lia. Qed.

  Variable k : nat.
  Hypothesis K1 : 1 <= k.
  Hypothesis LY : length ys = length Xs.
  Hypothesis FIT : forall A b, exists e, fitE A b = Ok e.
  Notation first := (dasvm_first Row Est fitE decisionE k Xs Xt ys).
  Notation iter := (dasvm_iter Row Est fitE predictE decisionE leqb k Xs Xt ys).
  Notation loop := (fun f => dasvm_loop Row Est fitE predictE decisionE leqb f k Xs Xt ys).

  Lemma find_points_len indices cols cond r : find_points k indices cols cond = Ok r -> length cond = length indices.
  Proof. unfold find_points, np_map2. rewrite map_length. destruct (Nat.eqb_spec (length indices) (length cond)); [auto|discriminate]. Qed.
  Lemma first_margin s : first = Ok s -> length (d_margin _ s) = length Xt.
  Proof.
    unfold dasvm_first. intros H. apply bind_ok in H as (e0 & _ & H). apply bind_ok in H as (del & _ & H). apply bind_ok in H as (mg & _ & H).
    apply bind_ok in H as (ad & E & H). injection H as <-. cbn. apply find_points_len in E. now rewrite repeat_length in E.
  Qed.
  Lemma iter_margin s s' : shapes Xs Xt ys s -> iter s = Ok s' -> length (d_margin _ s') = length Xt.
  Proof.
    intros (_ & _ & L3). unfold dasvm_iter. intros H. apply bind_ok in H as (xy & _ & H). apply bind_ok in H as (e & _ & H). cbv zeta in H.
    apply bind_ok in H as (a & _ & H). apply bind_ok in H as (b & _ & H). apply bind_ok in H as (c & _ & H). apply bind_ok in H as (mg & _ & H).
    apply bind_ok in H as (ad & E & H). injection H as <-. cbn. apply find_points_len in E. rewrite E. now apply unadd_length.
  Qed.

  (** The state of the program after [n] iterations is the one described. *)
  Lemma reached_state n e dr ad op : reached n e dr ad op ->
    shapes Xs Xt ys (mkD Est e dr ad op) /\
    exists s0, first = Ok s0 /\ forall f, loop (n + f) s0 = loop f (mkD Est e dr ad op).
  Proof.
    induction 1 as [e dr ad op E L1 L2 L3 HD HO HA|n e dr ad op e' dr' ad' op' R IH NO RT EX L1 L2 L3 HD HO HA].
    - split; [repeat split; auto|]. destruct (first_spec fitE predictE decisionE k Xs Xt ys e d0 K1 E) as (s & A & B & C & D & _ & F & G & I).
      exists s. split; [exact A|]. assert (ES : s = mkD Est e dr ad op).
      { pose proof (first_margin s A) as LM. destruct s as [e1 dr1 ad1 mg1]. cbn in *. subst e1. f_equal.
        - apply flags_eq; [lia|]. intros i. now rewrite F, HD.
        - apply flags_eq; [lia|]. intros i. rewrite G, HA. apply extreme_ext. intros j. now rewrite HO.
        - apply flags_eq; [lia|]. intros i. now rewrite I, HO. }
      subst s. reflexivity.
    - destruct IH as (SH & s0 & E0 & EL). split; [repeat split; auto|]. exists s0. split; [exact E0|]. intros f.
      rewrite (Nat.add_succ_l n f), <- Nat.add_succ_r, EL. cbn [dasvm_loop d_margin]. rewrite (proj2 (no_open op) NO).
      destruct (iter_spec fitE predictE decisionE leqb leqb_eq k Xs Xt ys (mkD Est e dr ad op) e' d0 K1 SH RT) as [(A & _)|(s1 & Q & E1 & SH1 & _ & _ & A & B & C)].
      { destruct EX as (j & Hj & N). exfalso. apply N. apply (A j Hj). }
      rewrite Q. cbn [bind]. f_equal. pose proof (iter_margin _ _ SH Q) as LM. destruct SH1 as (_ & M1 & M2). destruct s1 as [e1 dr1 ad1 mg1]. cbn in *. subst e1. f_equal.
      + apply flags_eq; [lia|]. intros i. now rewrite A, HD.
      + apply flags_eq; [lia|]. intros i. rewrite B, HA. unfold still_added, stays. rewrite (extreme_ext (fun j => _) (flagged op')); [reflexivity|].
        intros j. rewrite HO. reflexivity.
      + apply flags_eq; [lia|]. intros i. rewrite C, HO. reflexivity.
  Qed.

  (** After [n] iterations every target has been added, keeps its label, and another iteration is due. *)
  Definition stuck (n : nat) : Prop := exists e dropped added open e',
    reached n e dropped added open /\ (exists i, flagged open i) /\ retrained e dropped added e' /\
    (forall j, j < length Xt -> stays e e' added j).

  Lemma loop_ends f : forall n e dr ad op, reached n e dr ad op ->
    (exists s, loop f (mkD Est e dr ad op) = Ok s) \/
    (loop f (mkD Est e dr ad op) = Err ValueError /\ exists m, n <= m < n + f /\ stuck m).
  Proof.
    induction f as [|f IH]; intros n e dr ad op R; cbn [dasvm_loop]; [eauto|]. cbn [d_margin].
    destruct (count op =? 0) eqn:Q; [eauto|]. pose proof (proj1 (no_open op) Q) as NO. destruct (reached_state n e dr ad op R) as (SH & _).
    destruct (FIT (picked (map negb dr) Xs ++ picked ad Xt) (picked (map negb dr) ys ++ map (predictE e) (picked ad Xt))) as [e' RT].
    destruct (iter_spec fitE predictE decisionE leqb leqb_eq k Xs Xt ys (mkD Est e dr ad op) e' d0 K1 SH RT) as [(A & QE)|(s1 & QE & E1 & SH1 & NX & _ & A & B & C)].
    - right. rewrite QE. cbn [bind]. split; [reflexivity|]. exists n. split; [lia|]. exists e, dr, ad, op, e'. repeat split; auto; try apply A; auto.
    - rewrite QE. cbn [bind]. pose proof (iter_margin _ _ SH QE) as LM. destruct SH1 as (_ & M1 & M2). destruct s1 as [e1 dr1 ad1 mg1]. cbn in *. subst e1.
      assert (R' : reached (S n) e' dr1 ad1 mg1).
      { apply (reached_next n e dr ad op e' dr1 ad1 mg1); auto. intros i. rewrite B. unfold still_added, stays.
        rewrite (extreme_ext (fun j => _) (flagged mg1)); [reflexivity|]. intros j. rewrite C. reflexivity. }
      destruct (IH (S n) e' dr1 ad1 mg1 R') as [H|(H & m & Hm & S)]; [left; exact H|right]. split; [exact H|]. exists m. split; [lia|exact S].
  Qed.

  Lemma stuck_raises n f : stuck n -> exists s0, first = Ok s0 /\ loop (n + S f) s0 = Err ValueError.
  Proof.
    intros (e & dr & ad & op & e' & R & NO & RT & ALL). destruct (reached_state n e dr ad op R) as (SH & s0 & E0 & EL).
    exists s0. split; [exact E0|]. rewrite EL. cbn [dasvm_loop d_margin]. rewrite (proj2 (no_open op) NO).
    destruct (iter_spec fitE predictE decisionE leqb leqb_eq k Xs Xt ys (mkD Est e dr ad op) e' d0 K1 SH RT) as [(_ & QE)|(s1 & _ & _ & _ & (j & Hj & N) & _)].
    - now rewrite QE.
    - exfalso. apply N. apply (ALL j Hj).
  Qed.

(** fit raises iff within the allowed number of iterations it gets to a point where all targets have been added and the next classifier
    changes none of their labels; otherwise it returns a fitted estimator. *)
Theorem C95_exact max_iter :
  let outcome := dasvm_core Row Est fitE predictE decisionE leqb k max_iter Xs Xt ys in
  ((exists f, outcome = Ok f) <-> forall n, n < max_iter - 1 -> ~ stuck n) /\
  (outcome = Err ValueError <-> exists n, n < max_iter - 1 /\ stuck n).
Proof.
  cbv zeta. unfold dasvm_core. destruct (FIT Xs ys) as [e0 E0]. rewrite E0. cbn [bind].
  destruct (first_spec fitE predictE decisionE k Xs Xt ys e0 d0 K1 E0) as (s & A & B & C & D & _ & F & G & I). rewrite A. cbn [bind].
  pose proof (first_margin s A) as LM. destruct s as [e1 dr ad op]. cbn in B, C, D, F, G, I, LM. subst e1.
  assert (R0 : reached 0 e0 dr ad op).
  { constructor; auto. intros i. rewrite G. apply extreme_ext. intros j. now rewrite I. }
  assert (RAISE : forall n, n < max_iter - 1 -> stuck n -> loop (max_iter - 1) (mkD Est e0 dr ad op) = Err ValueError).
  { intros n Hn ST. destruct (stuck_raises n (max_iter - 1 - S n) ST) as (s0 & Q0 & Q). rewrite A in Q0. injection Q0 as <-.
    replace (n + S (max_iter - 1 - S n)) with (max_iter - 1) in Q by lia. exact Q. }
  destruct (loop_ends (max_iter - 1) 0 e0 dr ad op R0) as [(s & Q)|(Q & m & Hm & ST)]; rewrite Q; cbn [bind].
  - destruct (FIT Xt (map (predictE (d_est Est s)) Xt)) as [f Ef]. rewrite Ef. cbn [bind]. split; split.
    + intros _ n Hn S. rewrite (RAISE n Hn S) in Q. discriminate.
    + intros _. eauto.
    + discriminate.
    + intros (n & Hn & S). rewrite (RAISE n Hn S) in Q. discriminate.
  - split; split.
    + intros [f H]. discriminate.
    + intros H. exfalso. apply (H m); [lia|exact ST].
    + intros _. exists m. split; [lia|exact ST].
    + reflexivity.
Qed.
End Ends.

(** The example of [C95_fit_raises_refuted] gets stuck; the one of [C95_ex] does not. *)
Example C95_exact_ex :
  (exists n, n < 999 /\ stuck line_fit line_label line_decision ex_Xs ex_Xt ex_ys 0%R n) /\
  (forall n, n < 1 -> ~ stuck line_fit line_label line_decision ex_Xs [1; / 2; - / 2]%R ex_ys 0%R n).
Proof.
  split.
  - apply (C95_exact line_fit line_label line_decision line_eqb line_eqb_eq ex_Xs ex_Xt ex_ys 0%R 3 ltac:(lia) eq_refl (fun A b => ex_intro _ _ eq_refl) 1000).
    destruct C95_fit_raises_refuted as (_ & _ & H). unfold dasvm_fit in H.
    assert (C : check_X_y_domain (length (ex_Xs ++ ex_Xt)) [VNum 1; VNum 0; VNum (-1); VNum (-1)] (SDArr [1; 1; -2; -2]%Z) true all_flags
      = Ok [1; 1; -2; -2]%Z) by (vm_compute; reflexivity).
    rewrite C in H. cbn [bind] in H. rewrite !split_w in H by (try discriminate; intros l [= <-]; reflexivity). exact H.
  - apply (C95_exact line_fit line_label line_decision line_eqb line_eqb_eq ex_Xs [1; / 2; - / 2]%R ex_ys 0%R 3 ltac:(lia) eq_refl (fun A b => ex_intro _ _ eq_refl) 2).
    apply C95_ex.
Qed.
