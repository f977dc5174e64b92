(** Lemmas about the iterations of DASVM. *)
From Coq Require Import String List ZArith QArith Bool Arith Lia Reals Lra.
From Verif Require Import Np NpFacts Labels UtilsModel Spec SpecFacts UtilsProofs RVec RVecFacts OTProofs SelfModel SelfSpec SelfProofs.
Import ListNotations.
Local Open Scope nat_scope.
Local Open Scope list_scope.

Lemma place_at {A} m : forall (ys out : list A) j d, length m = length ys -> length out = length m ->
  nth j m false = true -> nth j (place m (select m ys) out) d = nth j ys d.
Proof.
  induction m as [|b m IH]; intros [|y ys] [|o out] j d L1 L2 H; simpl in *; try lia; [destruct j; discriminate|].
  destruct j as [|j].
  - subst b. reflexivity.
  - destruct b; simpl; apply IH; auto.
Qed.

Lemma flagged_negb l i : i < length l -> flagged (map negb l) i <-> ~ flagged l i.
Proof.
  intros H. unfold flagged. rewrite (nth_indep _ false (negb false)) by (now rewrite map_length). rewrite map_nth.
  destruct (nth i l false); simpl; intuition congruence.
Qed.
Lemma flagged_repeat n i : flagged (repeat true n) i <-> i < n.
Proof.
  split; [intros H; apply flagged_lt in H; now rewrite repeat_length in H|]. intros H. unfold flagged.
  revert i H. induction n as [|n IH]; intros i H; [lia|]. destruct i; simpl; [reflexivity|]. apply IH. lia.
Qed.
Lemma flagged_repeat_false n i : ~ flagged (repeat false n) i.
Proof. unfold flagged. revert i. induction n as [|n IH]; intros [|i]; simpl; auto. Qed.

Lemma count_all l : count (map negb l) = 0 <-> count l = length l.
Proof. pose proof (count_negb l). lia. Qed.

Lemma nth_mapR {A} (f : A -> R) X j d0 : j < length X -> nth j (map f X) 0%R = f (nth j X d0).
Proof. intros H. rewrite (nth_indep _ 0%R (f d0)) by (now rewrite map_length). apply map_nth. Qed.

Section D.
  Context {Row Est : Type}.
  Variable fitE : list Row -> list val -> res Est.
  Variable predictE : Est -> Row -> val.
  Variable decisionE : Est -> Row -> R.
  Variable leqb : val -> val -> bool.
  Hypothesis leqb_eq : forall a b, leqb a b = true <-> a = b.

  Lemma get_decision_spec e X ind : length ind = length X -> exists d, get_decision Row Est decisionE e X ind = Ok d /\
    ((count ind = length X /\ d = Dec1 (repeat 1%R (length X))) \/
     (count ind < length X /\ exists v, length v = length X /\
        d = Dec2 (map (fun t => - t + 1)%R v) (map (fun t => t + 1)%R v) /\
        forall j d0, j < length X -> ~ flagged ind j -> nth j v 0%R = decisionE e (nth j X d0))).
  Proof.
    intros L. unfold get_decision. pose proof (count_negb ind) as CN.
    destruct (Nat.ltb_spec 0 (count (map negb ind))) as [H|H].
    - rewrite np_select_ok by (now rewrite map_length). cbn [bind]. rewrite <- select_map.
      rewrite np_setmask_ok.
      + cbn [bind]. eexists. split; [reflexivity|]. right. split; [lia|]. eexists. split; [|split; [reflexivity|]].
        * now rewrite place_length, repeat_length.
        * intros j d0 Hj NF. rewrite place_at.
          -- now apply nth_mapR.
          -- now rewrite !map_length.
          -- now rewrite repeat_length, map_length.
          -- apply flagged_negb; auto; lia.
      + rewrite map_length, repeat_length. auto.
      + rewrite select_length by (now rewrite !map_length). reflexivity.
    - eexists. split; [reflexivity|]. left. split; [lia|reflexivity].
  Qed.

  Lemma unadd_spec new old Xt added j d0 : length added = length Xt ->
    (flagged (unadd Row Est predictE leqb new old Xt added) j <->
     flagged added j /\ predictE new (nth j Xt d0) = predictE old (nth j Xt d0)).
  Proof.
    unfold flagged, unadd. revert added j. induction Xt as [|x Xt IH]; intros [|a added] j L; simpl in *; try lia.
    - destruct j; intuition discriminate.
    - destruct j as [|j]; [|apply IH; lia]. destruct a; [rewrite leqb_eq; tauto|intuition discriminate].
  Qed.
  Lemma unadd_length new old Xt added : length added = length Xt -> length (unadd Row Est predictE leqb new old Xt added) = length Xt.
  Proof. intros L. unfold unadd. now rewrite map2_length. Qed.

  Lemma inside_iff t : inside t = true <-> (0 < t < 1)%R.
  Proof. unfold inside. rewrite andb_true_iff, !Rltb_iff. tauto. Qed.

  Lemma margin_spec (f g : R -> R) v j : (forall t, (0 < f t < 1 \/ 0 < g t < 1)%R <-> within_margin t) ->
    (flagged (map2 (fun s t => inside s || inside t) (map f v) (map g v)) j <-> j < length v /\ within_margin (nth j v 0%R)).
  Proof.
    intros H. unfold flagged. revert j. induction v as [|x v IH]; intros j; simpl.
    - destruct j; split; intros Q; [discriminate|lia|discriminate|lia].
    - destruct j as [|j].
      + rewrite orb_true_iff, !inside_iff, H. split; [intros; split; [lia|auto]|tauto].
      + rewrite IH. split; intros [A B]; split; auto; lia.
  Qed.
  Lemma margin_first t : (0 < - t < 1 \/ 0 < t < 1)%R <-> within_margin t.
  Proof. unfold within_margin, Rabs. destruct (Rcase_abs t); lra. Qed.
  Lemma margin_later t : (0 < - t + 1 < 1 \/ 0 < t + 1 < 1)%R <-> within_margin t.
  Proof. unfold within_margin, Rabs. destruct (Rcase_abs t); lra. Qed.

  (** Two columns that order the candidates by the value and by its opposite. *)
  Lemma two_columns (c : nat -> Prop) (val : nat -> R) c0 c1 i :
    (forall j k, c j -> c k -> (nth j c0 0 <= nth k c0 0)%R <-> (- val j <= - val k)%R) ->
    (forall j k, c j -> c k -> (nth j c1 0 <= nth k c1 0)%R <-> (val j <= val k)%R) ->
    ((exists col, In col [c0; c1] /\ best c (fun j => nth j col 0%R) i) <-> extreme c val i).
  Proof.
    intros H0 H1. unfold extreme.
    pose proof (best_mono c (fun j => nth j c0 0%R) (fun j => - val j)%R i H0) as B0.
    pose proof (best_mono c (fun j => nth j c1 0%R) val i H1) as B1. split.
    - intros (col & [<-|[<-|[]]] & B); [right|left]; [now apply B0|now apply B1].
    - intros [B|B]; [exists c1|exists c0]; (split; [simpl; auto|]); [now apply B1|now apply B0].
  Qed.
  Lemma extreme_ext (c c' : nat -> Prop) (d d' : nat -> R) i : (forall j, c j <-> c' j) -> (forall j, c j -> d j = d' j) -> extreme c d i <-> extreme c' d' i.
  Proof. intros H E. unfold extreme. rewrite (best_ext c c' d d'), (best_ext c c' (fun j => - d j)%R (fun j => - d' j)%R); auto; [tauto|]. intros j Hj. now rewrite E. Qed.
  Lemma extreme_empty (c : nat -> Prop) d i : (forall j, ~ c j) -> ~ extreme c d i.
  Proof. intros H [(C & _)|(C & _)]; eapply H; eauto. Qed.

  Lemma first_spec k Xs Xt ys e (d0 : Row) : 1 <= k -> fitE Xs ys = Ok e ->
    exists s, dasvm_first Row Est fitE decisionE k Xs Xt ys = Ok s /\ d_est _ s = e /\
      length (d_deleted _ s) = length Xs /\ length (d_added _ s) = length Xt /\ count (d_added _ s) <= 2 /\
      (forall i, flagged (d_deleted _ s) i <-> extreme (fun j => j < length Xs) (fun j => decisionE e (nth j Xs d0)) i) /\
      (forall i, flagged (d_added _ s) i <->
         extreme (fun j => j < length Xt /\ within_margin (decisionE e (nth j Xt d0))) (fun j => decisionE e (nth j Xt d0)) i) /\
      (forall i, flagged (d_margin _ s) i <-> i < length Xt /\ within_margin (decisionE e (nth i Xt d0))).
  Proof.
    intros Hk E. unfold dasvm_first. rewrite E. cbn [bind]. cbv zeta.
    set (ds := map (decisionE e) Xs). set (dt := map (decisionE e) Xt).
    assert (Ls : length ds = length Xs) by apply map_length. assert (Lt : length dt = length Xt) by apply map_length.
    destruct (find_points_spec k (repeat false (length Xs)) [map Ropp ds; ds] (repeat true (length Xs))) as (del & E1 & L1 & _ & F1);
      [auto|now rewrite !repeat_length|repeat constructor; rewrite ?map_length, repeat_length; auto|].
    rewrite E1. cbn [bind in_margin].
    set (mg := map2 (fun s t => inside s || inside t) (map Ropp dt) dt).
    assert (MG : forall j, flagged mg j <-> j < length Xt /\ within_margin (decisionE e (nth j Xt d0))).
    { intros j. pose proof (margin_spec Ropp (fun t => t) dt j margin_first) as Q. rewrite map_id, Lt in Q. unfold mg. rewrite Q.
      split; intros [A B]; split; auto; unfold dt in *; rewrite (nth_mapR _ _ _ d0) in * by auto; auto. }
    assert (Lmg : length mg = length Xt) by (unfold mg; rewrite map2_length; rewrite map_length; auto).
    destruct (find_points_spec k (repeat false (length Xt))
      [map (fun t => - Rabs (- t - 2 + 1))%R dt; map (fun t => - Rabs (t - 2 + 1))%R dt] mg) as (add & E2 & L2 & C2 & F2);
      [auto|now rewrite repeat_length|repeat constructor; rewrite ?map_length, repeat_length; auto|].
    rewrite E2. cbn [bind]. eexists. split; [reflexivity|]. cbn [d_est d_deleted d_added d_margin].
    rewrite repeat_length in L1, L2. rewrite count_repeat_false in C2. cbn [length] in C2.
    split; [reflexivity|]. split; [auto|]. split; [auto|]. split; [lia|]. split; [|split; [|exact MG]].
    - intros i. rewrite F1.
      assert (T : (exists col, In col [map Ropp ds; ds] /\
        best (fun j => flagged (repeat true (length Xs)) j /\ ~ flagged (repeat false (length Xs)) j) (fun j => nth j col 0%R) i) <->
        extreme (fun j => j < length Xs) (fun j => decisionE e (nth j Xs d0)) i).
      { rewrite (two_columns _ (fun j => nth j ds 0%R)).
        - apply extreme_ext.
          + intros j. rewrite flagged_repeat. pose proof (flagged_repeat_false (length Xs) j). tauto.
          + intros j [Hj _]. apply flagged_repeat in Hj. now apply nth_mapR.
        - intros j q [Hj _] [Hq _]. apply flagged_repeat in Hj. apply flagged_repeat in Hq. rewrite !nth_map0 by lia. tauto.
        - tauto. }
      rewrite <- T. pose proof (flagged_repeat_false (length Xs) i). tauto.
    - intros i. rewrite F2.
      assert (T : (exists col, In col [map (fun t => - Rabs (- t - 2 + 1))%R dt; map (fun t => - Rabs (t - 2 + 1))%R dt] /\
        best (fun j => flagged mg j /\ ~ flagged (repeat false (length Xt)) j) (fun j => nth j col 0%R) i) <->
        extreme (fun j => j < length Xt /\ within_margin (decisionE e (nth j Xt d0))) (fun j => decisionE e (nth j Xt d0)) i).
      { rewrite (two_columns _ (fun j => nth j dt 0%R)).
        - apply extreme_ext.
          + intros j. rewrite MG. pose proof (flagged_repeat_false (length Xt) j). tauto.
          + intros j [Hj _]. apply MG in Hj as [Hj _]. now apply nth_mapR.
        - intros j q [Hj _] [Hq _]. apply MG in Hj as [Hj Mj]. apply MG in Hq as [Hq Mq]. rewrite !nth_map0 by lia.
          unfold dt. rewrite !(nth_mapR _ _ _ d0) by auto. unfold within_margin in *.
          set (a := decisionE e (nth j Xt d0)) in *. set (b := decisionE e (nth q Xt d0)) in *. clearbody a b.
          assert (-1 < a < 1)%R by (unfold Rabs in Mj; destruct (Rcase_abs a); lra).
          assert (-1 < b < 1)%R by (unfold Rabs in Mq; destruct (Rcase_abs b); lra).
          rewrite !(Rabs_left (- _ - 2 + 1)) by lra. lra.
        - intros j q [Hj _] [Hq _]. apply MG in Hj as [Hj Mj]. apply MG in Hq as [Hq Mq]. rewrite !nth_map0 by lia.
          unfold dt. rewrite !(nth_mapR _ _ _ d0) by auto. unfold within_margin in *.
          set (a := decisionE e (nth j Xt d0)) in *. set (b := decisionE e (nth q Xt d0)) in *. clearbody a b.
          assert (-1 < a < 1)%R by (unfold Rabs in Mj; destruct (Rcase_abs a); lra).
          assert (-1 < b < 1)%R by (unfold Rabs in Mq; destruct (Rcase_abs b); lra).
          rewrite !(Rabs_left (_ - 2 + 1)) by lra. lra. }
      rewrite <- T. pose proof (flagged_repeat_false (length Xt) i). tauto.
  Qed.
End D.
