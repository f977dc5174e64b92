(** Lemmas about the iterations of DASVM: one iteration, the loop, termination. *)
From Coq Require Import String List ZArith QArith Bool Arith Lia Reals Lra.
From Verif Require Import Np NpFacts Labels UtilsModel Spec SpecFacts UtilsProofs RVec RVecFacts OTProofs SelfModel SelfSpec SelfProofs SelfProofs2.
Import ListNotations.
Local Open Scope nat_scope.
Local Open Scope list_scope.

Section D.
  Context {Row Est : Type}.
  Variable fitE : list Row -> list val -> res Est.
  Variable predictE : Est -> Row -> val.
  Variable decisionE : Est -> Row -> R.
  Variable leqb : val -> val -> bool.
  Hypothesis leqb_eq : forall a b, leqb a b = true <-> a = b.
  Notation iter := (dasvm_iter Row Est fitE predictE decisionE leqb).
  Notation loop := (dasvm_loop Row Est fitE predictE decisionE leqb).

  Definition still_added (new old : Est) (Xt : list Row) (added : list bool) (d0 : Row) (j : nat) : Prop :=
    flagged added j /\ predictE new (nth j Xt d0) = predictE old (nth j Xt d0).

  Definition shapes (Xs Xt : list Row) (ys : list val) (s : dstate Est) : Prop :=
    length ys = length Xs /\ length (d_deleted _ s) = length Xs /\ length (d_added _ s) = length Xt.

  (** Training set of the next classifier. *)
  Lemma get_X_y_ok e added deleted Xs Xt (ys : list val) : length ys = length Xs -> length deleted = length Xs -> length added = length Xt ->
    get_X_y Row Est predictE e added deleted Xs Xt ys =
    Ok (picked (map negb deleted) Xs ++ picked added Xt, picked (map negb deleted) ys ++ map (predictE e) (picked added Xt)).
  Proof.
    intros L1 L2 L3. unfold get_X_y. rewrite !np_select_ok by (rewrite ?map_length; lia). cbn [bind]. now rewrite !picked_select.
  Qed.

  (** Columns of a later decision array. *)
  Lemma later_columns v (val : nat -> R) (c : nat -> Prop) i : (forall j, c j -> j < length v /\ nth j v 0%R = val j) ->
    ((exists col, In col [map (fun t => - t + 1)%R v; map (fun t => t + 1)%R v] /\ best c (fun j => nth j col 0%R) i) <-> extreme c val i).
  Proof.
    intros H. apply two_columns.
    - intros j q Hj Hq. destruct (H j Hj) as [A1 B1]. destruct (H q Hq) as [A2 B2]. rewrite !nth_map0, B1, B2 by lia. lra.
    - intros j q Hj Hq. destruct (H j Hj) as [A1 B1]. destruct (H q Hq) as [A2 B2]. rewrite !nth_map0, B1, B2 by lia. lra.
  Qed.

  Lemma iter_spec k Xs Xt ys s e' (d0 : Row) : 1 <= k -> shapes Xs Xt ys s ->
    fitE (picked (map negb (d_deleted _ s)) Xs ++ picked (d_added _ s) Xt)
         (picked (map negb (d_deleted _ s)) ys ++ map (predictE (d_est _ s)) (picked (d_added _ s) Xt)) = Ok e' ->
    let kept := still_added e' (d_est _ s) Xt (d_added _ s) d0 in
    ((forall j, j < length Xt -> kept j) /\ iter k Xs Xt ys s = Err ValueError) \/
    exists s', iter k Xs Xt ys s = Ok s' /\ d_est _ s' = e' /\ shapes Xs Xt ys s' /\
      (exists j, j < length Xt /\ ~ kept j) /\
      count (d_added _ s') <= count (d_added _ s) + 2 /\
      (forall i, flagged (d_deleted _ s') i <-> flagged (d_deleted _ s) i \/
         extreme (fun j => j < length Xs /\ ~ flagged (d_deleted _ s) j) (fun j => decisionE e' (nth j Xs d0)) i) /\
      (forall i, flagged (d_added _ s') i <-> kept i \/
         extreme (fun j => j < length Xt /\ ~ kept j /\ within_margin (decisionE e' (nth j Xt d0))) (fun j => decisionE e' (nth j Xt d0)) i) /\
      (forall i, flagged (d_margin _ s') i <-> i < length Xt /\ ~ kept i /\ within_margin (decisionE e' (nth i Xt d0))).
  Proof.
    intros Hk (L1 & L2 & L3) E. cbv zeta. set (kept := still_added e' (d_est Est s) Xt (d_added Est s) d0).
    unfold dasvm_iter. rewrite get_X_y_ok by auto. cbn [bind fst snd]. rewrite E. cbn [bind]. cbv zeta.
    set (un := unadd Row Est predictE leqb e' (d_est Est s) Xt (d_added Est s)).
    assert (Lu : length un = length Xt) by (now apply unadd_length).
    assert (UK : forall j, flagged un j <-> kept j) by (intros j; apply unadd_spec; auto).
    destruct (get_decision_spec decisionE e' Xs (d_deleted Est s) L2) as (ds & E1 & HS). rewrite E1. cbn [bind].
    destruct (get_decision_spec decisionE e' Xt un Lu) as (dt & E2 & HT). rewrite E2. cbn [bind].
    destruct (find_points_spec k (d_deleted Est s) (dec_cols ds) (repeat true (length (d_deleted Est s)))) as (del & E3 & L4 & _ & F3);
      [auto|now rewrite repeat_length| |].
    { destruct HS as [(_ & ->)|(_ & v & Lv & -> & _)]; repeat constructor; rewrite ?repeat_length, ?map_length; lia. }
    rewrite E3. cbn [bind].
    assert (FULL : count un = length Xt <-> forall j, j < length Xt -> kept j).
    { split.
      - intros C j Hj. apply UK. destruct (nth j un false) eqn:Q; [exact Q|]. exfalso. pose proof (count_negb un).
        assert (0 < count (map negb un)); [|lia]. apply count_pos. exists j. apply flagged_negb; [lia|]. unfold flagged. congruence.
      - intros A. pose proof (count_negb un) as CN. pose proof (count_le un). destruct (Nat.eq_dec (count (map negb un)) 0) as [Q|Q]; [lia|].
        assert (P : 0 < count (map negb un)) by lia. apply count_pos in P as [j Hj]. pose proof (flagged_lt _ _ Hj) as Hl.
        rewrite map_length in Hl. apply flagged_negb in Hj; [|auto]. exfalso. apply Hj, UK, A. lia. }
    destruct HT as [(CT & ->)|(CT & v & Lv & -> & Vv)].
    - left. split; [now apply FULL|]. reflexivity.
    - right. cbn [in_margin bind].
      set (mg := map2 (fun s t => inside s || inside t) (map (fun t => - t + 1)%R v) (map (fun t => t + 1)%R v)).
      assert (MG0 : forall j, flagged mg j <-> j < length v /\ within_margin (nth j v 0%R)).
      { intros j. apply (margin_spec (fun t => - t + 1)%R (fun t => t + 1)%R v j margin_later). }
      assert (Lmg : length mg = length Xt) by (unfold mg; rewrite map2_length; rewrite !map_length; auto).
      destruct (find_points_spec k un (dec_cols (Dec2 (map (fun t => - t + 1)%R v) (map (fun t => t + 1)%R v))) mg) as (add & E4 & L5 & C5 & F5);
        [auto|lia|repeat constructor; rewrite map_length; lia|].
      rewrite E4. cbn [bind]. eexists. split; [reflexivity|]. cbn [d_est d_deleted d_added d_margin].
      split; [reflexivity|]. split; [repeat split; cbn [d_est d_deleted d_added d_margin]; lia|].
      assert (CU : count un <= count (d_added Est s)).
      { assert (Q : count un <= count (d_added Est s) + length (@nil nat)); [|simpl in Q; lia].
        apply count_flag_le. intros i Hi. left. apply UK in Hi. apply Hi. }
      assert (VX : forall j, j < length Xt -> ~ kept j -> nth j v 0%R = decisionE e' (nth j Xt d0)).
      { intros j Hj K. apply Vv; auto. now rewrite UK. }
      split.
      { assert (P : 0 < count (map negb un)) by (pose proof (count_negb un); lia). apply count_pos in P as [j Hj].
        pose proof (flagged_lt _ _ Hj) as Hl. rewrite map_length in Hl. apply flagged_negb in Hj; [|auto]. exists j. rewrite <- UK. split; [lia|auto]. }
      split; [cbn [dec_cols length] in C5; lia|].
      assert (VK : forall j, kept j -> nth j v 0%R = 1%R).
      { intros j K. apply UK in K. unfold get_decision in E2.
        destruct (Nat.ltb_spec 0 (count (map negb un))) as [H|H]; [|discriminate].
        rewrite np_select_ok in E2 by (now rewrite map_length). cbn [bind] in E2. rewrite <- select_map in E2.
        rewrite np_setmask_ok in E2.
        - cbn [bind] in E2. injection E2 as _ E2.
          assert (EQ : v = place (map negb un) (select (map negb un) (map (decisionE e') Xt)) (repeat 1%R (length Xt))).
          { apply (f_equal (map (fun t => t - 1)%R)) in E2. rewrite !map_map in E2.
            assert (ID : forall l, map (fun x => x + 1 - 1)%R l = l).
            { intros l. rewrite <- (map_id l) at 2. apply map_ext. intros; lra. }
            rewrite !ID in E2. now symmetry. }
          rewrite EQ. clear -K Lu. assert (Lr : length (repeat 1%R (length Xt)) = length un) by (now rewrite repeat_length).
          assert (A1 : Forall (fun x => x = 1%R) (repeat 1%R (length Xt))) by (apply Forall_forall; intros x Hx; now apply repeat_spec in Hx).
          revert A1 Lr. generalize (repeat 1%R (length Xt)) as out. generalize (select (map negb un) (map (decisionE e') Xt)) as vals.
          pose proof (flagged_lt _ _ K) as Hl. unfold flagged in K. clear Lu. revert j K Hl.
          induction un as [|b un IH]; intros j K Hl vals out A1 L; simpl in *; [lia|].
          destruct out as [|o out]; simpl in L; [lia|]. inversion A1; subst. destruct j as [|j].
          + subst b. simpl. destruct vals; reflexivity.
          + destruct b; simpl; [apply IH; auto; lia|]. destruct vals; simpl.
            * apply IH; auto; lia.
            * apply IH; auto; lia.
        - rewrite map_length, repeat_length. auto.
        - rewrite select_length by (now rewrite !map_length). reflexivity. }
      assert (MG : forall j, flagged mg j <-> j < length Xt /\ ~ kept j /\ within_margin (decisionE e' (nth j Xt d0))).
      { intros j. rewrite MG0, Lv. split.
        - intros [Hj W]. assert (NK : ~ kept j).
          { intros K. rewrite (VK j K) in W. unfold within_margin in W. rewrite Rabs_R1 in W. lra. }
          rewrite VX in W by auto. auto.
        - intros (Hj & NK & W). rewrite VX by auto. auto. }
      split; [|split; [|exact MG]].
      + intros i. rewrite F3. apply or_iff_compat_l. destruct HS as [(CS & ->)|(CS & w & Lw & -> & Vw)].
        * assert (FS : forall j, j < length Xs -> flagged (d_deleted Est s) j).
          { intros j Hj. destruct (nth j (d_deleted Est s) false) eqn:Q; [exact Q|]. exfalso. pose proof (count_negb (d_deleted Est s)).
            assert (0 < count (map negb (d_deleted Est s))); [|lia]. apply count_pos. exists j. apply flagged_negb; [lia|]. unfold flagged. congruence. }
          split.
          -- intros (col & _ & ((C1 & C2) & _)). exfalso. apply C2, FS. apply flagged_repeat in C1. lia.
          -- intros H. apply extreme_empty in H; [easy|]. intros j [Hj NF]. auto.
        * cbn [dec_cols]. rewrite (later_columns w (fun j => decisionE e' (nth j Xs d0))).
          -- apply extreme_ext; [|auto]. intros j. rewrite flagged_repeat, L2. tauto.
          -- intros j [Hj NF]. apply flagged_repeat in Hj. split; [lia|]. apply Vw; [lia|auto].
      + intros i. rewrite F5, UK. apply or_iff_compat_l. cbn [dec_cols].
        rewrite (later_columns v (fun j => decisionE e' (nth j Xt d0))).
        * apply extreme_ext; [|auto]. intros j. rewrite MG, UK. tauto.
        * intros j [Hj NK]. apply MG in Hj as (Hj & _). rewrite UK in NK. split; [lia|]. now apply VX.
  Qed.

  Lemma loop_self_trained k Xs Xt ys fuel : 1 <= k -> forall s s' n, shapes Xs Xt ys s -> self_trained fitE predictE Xs Xt ys n (d_est _ s) ->
    loop fuel k Xs Xt ys s = Ok s' -> exists n', n' <= n + fuel /\ self_trained fitE predictE Xs Xt ys n' (d_est _ s').
  Proof.
    intros Hk. induction fuel as [|f IH]; intros s s' n SH ST H; cbn [dasvm_loop] in H.
    - injection H as <-. exists n. split; [lia|auto].
    - destruct (count (d_margin Est s) =? 0); [injection H as <-; exists n; split; [lia|auto]|].
      apply bind_ok in H as (s1 & H1 & H). destruct SH as (L1 & L2 & L3).
      pose proof H1 as H1'. unfold dasvm_iter in H1'. rewrite get_X_y_ok in H1' by auto. cbn [bind fst snd] in H1'.
      apply bind_ok in H1' as (e' & HF & _).
      destruct Xt as [|d0 Xt0].
      + (* no target: the iteration still needs a default row *)
        exfalso. unfold dasvm_iter in H1. rewrite get_X_y_ok in H1 by auto. cbn [bind fst snd] in H1. rewrite HF in H1. cbn [bind] in H1.
        cbv zeta in H1. apply bind_ok in H1 as (ds & _ & H1). apply bind_ok in H1 as (dt & HD & H1).
        destruct (d_added Est s); [|discriminate]. cbn in HD. injection HD as <-.
        apply bind_ok in H1 as (del & _ & H1). apply bind_ok in H1 as (mg & HM & _). discriminate.
      + destruct (iter_spec k Xs (d0 :: Xt0) ys s e' d0 Hk (conj L1 (conj L2 L3)) HF) as [(_ & Q)|(s1' & Q & E1 & SH1 & _)]; [congruence|].
        rewrite Q in H1. injection H1 as <-.
        destruct (IH s1' s' (S n) SH1) as (n' & Hn & ST').
        * rewrite E1. eapply st_next; [exact ST| |exact L3|exact HF]. now rewrite map_length.
        * exact H.
        * exists n'. split; [lia|auto].
  Qed.

  Lemma loop_total k Xs Xt ys fuel (d0 : Row) : 1 <= k -> (forall A b, exists e, fitE A b = Ok e) -> forall s, shapes Xs Xt ys s ->
    (fuel = 0 \/ count (d_added _ s) + 2 * (fuel - 1) < length Xt) -> exists s', loop fuel k Xs Xt ys s = Ok s'.
  Proof.
    intros Hk HF. induction fuel as [|f IH]; intros s SH HC; cbn [dasvm_loop]; [eauto|].
    destruct (count (d_margin Est s) =? 0); [eauto|].
    destruct (HF (picked (map negb (d_deleted _ s)) Xs ++ picked (d_added _ s) Xt)
         (picked (map negb (d_deleted _ s)) ys ++ map (predictE (d_est _ s)) (picked (d_added _ s) Xt))) as [e' E].
    destruct (iter_spec k Xs Xt ys s e' d0 Hk SH E) as [(A & _)|(s1 & Q & _ & SH1 & _ & C & _)].
    - exfalso. destruct SH as (_ & _ & L3). destruct HC as [HC|HC]; [lia|].
      assert (length Xt <= count (d_added Est s)); [|lia].
      rewrite <- L3, <- (count_negb (d_added Est s)).
      destruct (Nat.eq_dec (count (map negb (d_added Est s))) 0) as [Z|NZ]; [lia|]. exfalso.
      assert (P : 0 < count (map negb (d_added Est s))) by lia. apply count_pos in P as [j Hj]. pose proof (flagged_lt _ _ Hj) as Hl.
      rewrite map_length in Hl. apply flagged_negb in Hj; auto. destruct (A j ltac:(lia)) as [K _]. auto.
    - rewrite Q. cbn [bind]. apply IH; auto. destruct f; [left; auto|right]. destruct HC; [lia|]. lia.
  Qed.
End D.
