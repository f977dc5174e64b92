(** C217: a sample of weight zero counts as absent. *)
From Coq Require Import List ZArith Bool Arith Lia Reals Lra Psatz.
From Verif Require Import Np NpFacts Labels Spec SpecFacts UtilsModel SelectModel RVec RVecFacts OTModel OTSpec OTProofs OTProofs2 OTProofs3 ThmOT
  MapModel RMat ThmJdot ThmSame ThmAttain DeepModel ThmDeep.
From Verif Require Import ThmUnit.
Import ListNotations.
Local Open Scope nat_scope.
Local Open Scope list_scope.

(** ** Specification *)
(** Leaving out some sources, all of them of weight zero: [keep] says which samples stay. *)
Definition only_zero_sources (keep : list bool) (sd : list Z) (w : list R) : Prop :=
  length keep = length sd /\ length w = length sd /\ forall i, i < length sd -> nth i keep true = false -> is_source (nth i sd 0%Z) = true /\ nth i w 0%R = 0%R.
(** A solver of optimal transport that does not care about sources without mass. *)
Definition ignores_empty {Xrow} (plan : list Xrow -> list Xrow -> list R -> list R -> res (list (list R))) : Prop :=
  forall Xs Xt a b G K, length K = length a -> length Xs = length a -> (forall i, i < length a -> nth i K true = false -> nth i a 0%R = 0%R) ->
    plan Xs Xt a b = Ok G -> plan (select K Xs) Xt (select K a) b = Ok (select K G).

(** ** Facts *)
Lemma rows_of_cons {A} p s sd (x : A) xs : rows_of p (s :: sd) (x :: xs) = if p s then x :: rows_of p sd xs else rows_of p sd xs.
Proof. unfold rows_of. cbn. destruct (p s); reflexivity. Qed.
Lemma rows_of_keep {A} p : forall keep sd (xs : list A), length keep = length sd -> length xs = length sd ->
  rows_of p (select keep sd) (select keep xs) = select (rows_of p sd keep) (rows_of p sd xs).
Proof.
  induction keep as [|b keep IH]; intros [|s sd] [|x xs] L1 L2; try discriminate; [reflexivity|]. cbn in L1, L2. rewrite !rows_of_cons. cbn [select].
  destruct b; [rewrite rows_of_cons|]; destruct (p s); cbn [select]; rewrite IH by lia; reflexivity.
Qed.
Lemma select_all {A} : forall K (l : list A), length K = length l -> (forall b, In b K -> b = true) -> select K l = l.
Proof. induction K as [|b K IH]; intros [|x l] L H; try discriminate; [reflexivity|]. cbn. rewrite (H b) by (now left). f_equal. apply IH; [cbn in L; lia|]. intros c Hc. apply H. now right. Qed.
Lemma only_rows {keep sd w} p : only_zero_sources keep sd w -> 
  (forall i, i < length (rows_of p sd keep) -> nth i (rows_of p sd keep) true = false -> nth i (rows_of p sd w) 0%R = 0%R) /\
  length (rows_of p sd keep) = length (rows_of p sd w) /\ ((forall s, p s = true -> is_source s = false) -> forall b, In b (rows_of p sd keep) -> b = true).
Proof.
  revert sd w. induction keep as [|b keep IH]; intros [|s sd] [|x w] (L1 & L2 & H); try discriminate; [repeat split; cbn; try lia; easy|]. cbn in L1, L2.
  destruct (IH sd w) as (A & B & C). { split; [lia|]. split; [lia|]. intros i Hi. apply (H (S i)). cbn. lia. }
  specialize (H 0 ltac:(cbn; lia)). cbn in H. rewrite !rows_of_cons. destruct (p s) eqn:Ep; [|auto]. split; [|split].
  - intros [|i] Hi; cbn [nth length] in *; [intros Hb; now apply H|]. apply A. lia.
  - cbn. lia.
  - intros Hp c [<-|Hc]; [|now apply C]. destruct b; [reflexivity|]. destruct (H eq_refl) as [Hs _]. rewrite (Hp s Ep) in Hs. discriminate.
Qed.
Lemma vsum_keep : forall K w, length K = length w -> (forall i, i < length K -> nth i K true = false -> nth i w 0%R = 0%R) -> vsum (select K w) = vsum w.
Proof.
  induction K as [|b K IH]; intros [|x w] L H; try discriminate; [reflexivity|]. cbn in L. specialize (IH w ltac:(lia) (fun i Hi => H (S i) ltac:(cbn; lia))).
  specialize (H 0 ltac:(cbn; lia)). cbn in H. destruct b; cbn; [now rewrite IH|]. rewrite (H eq_refl), IH. lra.
Qed.
Lemma select_map {A B} (f : A -> B) : forall K l, select K (map f l) = map f (select K l).
Proof. induction K as [|b K IH]; intros [|x l]; try reflexivity. cbn. destruct b; cbn; now rewrite IH. Qed.
Lemma msum_zero : forall n f, (forall i, i < n -> (0 <= f i)%R) -> msum n f = 0%R -> forall i, i < n -> f i = 0%R.
Proof.
  induction n as [|n IH]; intros f P H i Hi; [lia|]. cbn in H. assert (Q : (0 <= msum n f)%R) by (apply msum_nonneg; intros; apply P; lia).
  assert (f n = 0)%R by (specialize (P n ltac:(lia)); lra). destruct (Nat.eq_dec i n) as [->|]; [auto|]. apply IH; try lia; [intros; apply P; lia|]. lra.
Qed.
Lemma moved_keep j b : forall K (ys : list R) G, length K = length ys -> length G = length ys -> (forall i, i < length K -> nth i K true = false -> at2 G i j = 0%R) ->
  moved_label (select K G) (select K ys) b j = moved_label G ys b j.
Proof.
  intros K ys G L1 L2 H. unfold moved_label. f_equal. revert ys G L1 L2 H. induction K as [|c K IH]; intros [|y ys] [|g G] L1 L2 H; try discriminate; [reflexivity|]. cbn in L1, L2.
  specialize (IH ys G ltac:(lia) ltac:(lia) (fun i Hi => H (S i) ltac:(cbn; lia))). specialize (H 0 ltac:(cbn; lia)). unfold at2 in H. cbn in H.
  destruct c; cbn; [now rewrite IH|]. rewrite (H eq_refl), IH. lra.
Qed.
Lemma mass_keep c j : forall K ys G, length K = length ys -> length G = length ys -> (forall i, i < length K -> nth i K true = false -> at2 G i j = 0%R) ->
  mass_of (select K G) (select K ys) c j = mass_of G ys c j.
Proof.
  intros K ys G L1 L2 H. unfold mass_of. revert ys G L1 L2 H. induction K as [|e K IH]; intros [|y ys] [|g G] L1 L2 H; try discriminate; [reflexivity|]. cbn in L1, L2.
  specialize (IH ys G ltac:(lia) ltac:(lia) (fun i Hi => H (S i) ltac:(cbn; lia))). specialize (H 0 ltac:(cbn; lia)). unfold at2 in H. cbn in H.
  destruct e; cbn; destruct (y =? c)%Z; cbn; rewrite ?IH; try reflexivity. rewrite (H eq_refl). lra.
Qed.
Lemma empty_rows a b G K : coupling a b G -> length K = length a -> (forall i, i < length a -> nth i K true = false -> nth i a 0%R = 0%R) ->
  forall j i, i < length K -> nth i K true = false -> at2 G i j = 0%R.
Proof.
  intros (M & P & Rw & _) L H j i Hi Hk. rewrite L in Hi. destruct (Nat.lt_ge_cases j (length b)) as [Hj|Hj].
  - apply (msum_zero (length b) (fun j => at2 G i j)); auto. rewrite (Rw i Hi). now apply H.
  - unfold at2. apply nth_overflow. destruct M as [LG F]. rewrite Forall_forall in F. rewrite (F (nth i G [])); [lia|]. apply nth_In. lia.
Qed.
Lemma in_select {A} (x : A) : forall K l, In x (select K l) -> In x l.
Proof. induction K as [|b K IH]; intros [|y l] H; try easy. cbn in H. destruct b; [destruct H as [<-|H]; [now left|]|]; right; auto. Qed.
(** The mass of all classes together is what the target receives. *)
Lemma some_mass j : forall ys G, length G = length ys -> Forall (fun g => (0 <= nth j g 0)%R) G -> (0 < vsum (map (fun g => nth j g 0) G))%R -> exists c, In c ys /\ (0 < mass_of G ys c j)%R.
Proof.
  induction ys as [|y ys IH]; intros [|g G] L F H; try discriminate; [cbn in H; lra|]. inversion F as [|? ? F1 F2]; subst. cbn in H, L.
  assert (N : forall c, (0 <= mass_of G ys c j)%R).
  { intros c. unfold mass_of. assert (W : forall u : list (Z * list R), (forall p, In p u -> (0 <= nth j (snd p) 0)%R) -> (0 <= vsum (map (fun p => nth j (snd p) 0%R) u))%R).
    { induction u as [|p u IHu]; intros Hu; cbn; [lra|]. specialize (Hu p (or_introl eq_refl)) as Hp. assert (0 <= vsum (map (fun p => nth j (snd p) 0%R) u))%R by (apply IHu; intros; apply Hu; now right). lra. }
    apply W. intros p Hp. apply filter_In in Hp as [Hp _]. destruct p as [z r]. apply in_combine_r in Hp. rewrite Forall_forall in F2. now apply F2. }
  destruct (Rlt_dec 0 (nth j g 0%R)) as [P|P].
  - exists y. split; [now left|]. unfold mass_of. cbn. rewrite Z.eqb_refl. cbn. specialize (N y). unfold mass_of in N. lra.
  - destruct (IH G) as (c & Hc & Pc); [lia|auto|lra|]. exists c. split; [now right|]. unfold mass_of in *. cbn. destruct (y =? c)%Z; cbn; lra.
Qed.

(** ** Label propagation *)
Section Propagation.
  Context {Xrow : Type}.
  Variable plan : list Xrow -> list Xrow -> list R -> list R -> res (list (list R)).
  Hypothesis Hc : forall Xs Xt a b G, plan Xs Xt a b = Ok G -> coupling a b G.
  Hypothesis Hi : ignores_empty plan.
  Variable X : list Xrow.
  Variable sd : list Z.
  Variable w : list R.
  Variable keep : list bool.
  Hypothesis HX : length X = length sd.
  Hypothesis Hk : only_zero_sources keep sd w.
  Hypothesis Hsd : select keep sd <> [].
  Let a := proportions (how_many is_source sd) (opt_rows is_source sd (Some w)).
  Let b := proportions (how_many is_target sd) (opt_rows is_target sd (Some w)).
  Let K := rows_of is_source sd keep.
  Lemma kept_targets {A} (l : list A) : length l = length sd -> rows_of is_target (select keep sd) (select keep l) = rows_of is_target sd l.
  Proof.
    destruct Hk as (Lk & Lw & _). intros L. rewrite rows_of_keep by auto. apply select_all; [rewrite !rows_of_length by auto; reflexivity|].
    apply (only_rows is_target Hk). intros s. unfold is_target, is_source. destruct (Z.ltb_spec s 0), (Z.leb_spec 0 s); auto; try lia; discriminate.
  Qed.
  Lemma kept_sources {A} (l : list A) : length l = length sd -> rows_of is_source (select keep sd) (select keep l) = select K (rows_of is_source sd l).
  Proof. destruct Hk as (Lk & Lw & _). intros L. now apply rows_of_keep. Qed.
  Lemma K_len : length K = how_many is_source sd.
  Proof. apply rows_of_length. symmetry. apply Hk. Qed.
  Lemma a_len : length a = how_many is_source sd.
  Proof. unfold a. cbn. rewrite map_length. apply rows_of_length. symmetry. apply Hk. Qed.
  Lemma K_zero i : i < length a -> nth i K true = false -> nth i a 0%R = 0%R.
  Proof.
    intros H E. unfold a in *. cbn in *. rewrite map_length in H. rewrite (map_nth' _ 0%R) by auto. destruct (only_rows is_source Hk) as (Z & L & _). rewrite (Z i); [unfold Rdiv; ring| |exact E]. rewrite L. exact H.
  Qed.
  Lemma same_b : proportions (how_many is_target (select keep sd)) (opt_rows is_target (select keep sd) (Some (select keep w))) = b.
  Proof. unfold b. cbn [opt_rows proportions]. rewrite kept_targets by apply Hk. reflexivity. Qed.
  Lemma kept_a : proportions (how_many is_source (select keep sd)) (opt_rows is_source (select keep sd) (Some (select keep w))) = select K a.
  Proof.
    unfold a. cbn [opt_rows proportions]. rewrite kept_sources by apply Hk. rewrite vsum_keep; [now rewrite select_map| |]; destruct (only_rows is_source Hk) as (Z & L & _); auto.
  Qed.
  Lemma parts_kept {L} (y : list L) : length y = length sd ->
    otlp_parts (select keep X) (select keep y) (Some (select keep w)) (select keep sd) =
    Ok (select K (rows_of is_source sd X), rows_of is_target sd X, select K (rows_of is_source sd y), select K a, b).
  Proof.
    intros Ly. destruct Hk as (Lk & Lw & _). assert (LS : forall A (l : list A), length l = length sd -> length (select keep l) = length (select keep sd)).
    { intros A l Hl. rewrite !select_length by lia. reflexivity. }
    rewrite otlp_parts_ok; auto; [|intros v [= <-]; auto]. rewrite kept_a, same_b, kept_targets, !kept_sources by auto. reflexivity.
  Qed.
  Lemma sd_ne : sd <> [].
  Proof. intros E. apply Hsd. rewrite E. destruct keep; reflexivity. Qed.

  Lemma regression_kept (y : list R) out : length y = length sd -> Forall (fun x => 0 < x)%R b -> otlp_regression plan X y (Some w) sd = Ok out ->
    exists out', otlp_regression plan (select keep X) (select keep y) (Some (select keep w)) (select keep sd) = Ok out' /\
      rows_of is_target (select keep sd) out' = rows_of is_target sd out.
  Proof.
    intros Ly Hb E. assert (E2 := E). unfold otlp_regression in E. rewrite otlp_parts_ok in E by (auto using sd_ne; intros v [= <-]; apply Hk). cbn [bind] in E. fold a b in E.
    destruct (plan _ _ a b) as [G|] eqn:EG; [|discriminate]. assert (HG := Hc _ _ _ _ _ EG).
    assert (EG' : plan (select K (rows_of is_source sd X)) (rows_of is_target sd X) (select K a) b = Ok (select K G)).
    { refine (Hi _ _ _ _ _ _ _ _ K_zero EG); [now rewrite K_len, a_len|]. rewrite a_len. apply rows_of_length. auto. }
    assert (LG : length G = how_many is_source sd) by (rewrite <- a_len; apply HG).
    destruct (C52_regression_labels plan X y (Some w) sd G) as (o1 & F1 & (_ & _ & T1)); auto using sd_ne; [intros v [= <-]; apply Hk|]. assert (o1 = out) as -> by congruence.
    assert (LS : forall A (l : list A), length l = length sd -> length (select keep l) = length (select keep sd)) by (intros A l Hl; destruct Hk as (Lk & _); rewrite !select_length by lia; reflexivity).
    destruct (C52_regression_labels plan (select keep X) (select keep y) (Some (select keep w)) (select keep sd) (select K G)) as (o2 & F2 & (_ & _ & T2)); auto.
    - intros v [= <-]. apply LS, Hk.
    - rewrite kept_a, same_b, kept_targets, kept_sources by auto. exact EG'.
    - rewrite <- (rows_of_length is_source (select keep sd) (select keep X)) by (symmetry; now apply LS). rewrite kept_sources by auto. rewrite !select_length; rewrite ?K_len; auto. symmetry. now apply rows_of_length.
    - exists o2. split; [exact F2|]. rewrite T2, T1. rewrite same_b, kept_sources by auto.
      assert (HM : how_many is_target (select keep sd) = how_many is_target sd).
      { transitivity (length (rows_of is_target (select keep sd) (select keep X))); [symmetry; apply rows_of_length; symmetry; now apply LS|].
        rewrite kept_targets by auto. apply rows_of_length. auto. }
      rewrite HM. apply map_ext. intros j. f_equal. apply moved_keep.
      + rewrite K_len. symmetry. now apply rows_of_length.
      + rewrite LG. symmetry. now apply rows_of_length.
      + intros i Hl He. apply (empty_rows a b G K); auto using K_zero. now rewrite K_len, a_len.
  Qed.

  Lemma heaviest_kept G ys j c c' : coupling a b G -> length ys = length a -> j < length b -> (0 < nth j b 0)%R ->
    heaviest G ys j c -> heaviest (select K G) (select K ys) j c' -> c' = c.
  Proof.
    intros HG Ly Hj Hb (I1 & M1 & T1) (I2 & M2 & T2). assert (LG : length G = length ys) by (rewrite Ly; apply HG). assert (LK : length K = length ys) by (rewrite K_len, Ly, a_len; reflexivity).
    assert (ZE : forall i, i < length K -> nth i K true = false -> at2 G i j = 0%R) by (intros i; apply (empty_rows a b G K); auto using K_zero; now rewrite K_len, a_len).
    assert (MK : forall e, mass_of (select K G) (select K ys) e j = mass_of G ys e j) by (intros e; now apply mass_keep).
    assert (P : (0 < mass_of G ys c' j)%R).
    { destruct (some_mass j (select K ys) (select K G)) as (e & Ie & Pe).
      - rewrite !select_length by congruence. reflexivity.
      - apply Forall_forall. intros g Hg. apply in_select in Hg. destruct HG as ((LG' & F) & P & _). destruct (In_nth _ _ [] Hg) as (i & Hi' & <-). apply (P i j); lia.
      - assert (V : vsum (map (fun g => nth j g 0%R) (select K G)) = vsum (map (fun g => nth j g 0%R) G)).
        { rewrite <- select_map. apply vsum_keep; [now rewrite map_length, LG|]. intros i Hi' He. rewrite (map_nth' _ []) by lia. now apply ZE. }
        rewrite V. destruct HG as ((LG' & _) & _ & _ & C). specialize (C j Hj). rewrite <- C in Hb. rewrite <- LG' in Hb. unfold at2 in Hb. clear - Hb.
        replace (vsum (map (fun g => nth j g 0%R) G)) with (msum (length G) (fun i => nth j (nth i G []) 0%R)); [exact Hb|]. clear. induction G as [|g G IH]; [reflexivity|]. cbn [length map vsum]. rewrite msum_S. cbn [nth]. now rewrite IH.
      - specialize (M2 e Ie). rewrite !MK in M2. rewrite MK in Pe. lra. }
    assert (In c (select K ys)).
    { destruct (in_dec Z.eq_dec c (select K ys)) as [|N]; [auto|exfalso]. assert (mass_of G ys c j = 0)%R.
      { rewrite <- MK. unfold mass_of. assert (E : filter (fun p : Z * list R => (fst p =? c)%Z) (combine (select K ys) (select K G)) = []); [|now rewrite E].
        clear - N. revert N. generalize (select K G). generalize (select K ys). induction l as [|y l IH]; intros [|g u] N; try reflexivity. cbn. destruct (Z.eqb_spec y c) as [->|]; [elim N; now left|]. apply IH. intros H. apply N. now right. }
      specialize (M1 c' (in_select _ _ _ I2)). lra. }
    assert (E : mass_of G ys c' j = mass_of G ys c j) by (specialize (M1 c' (in_select _ _ _ I2)); specialize (M2 c H); rewrite !MK in M2; lra).
    specialize (T1 c' (in_select _ _ _ I2) E). specialize (T2 c H ltac:(rewrite !MK; lra)). lia.
  Qed.
  Lemma discrete_kept (y : list Z) out : length y = length sd -> Forall (fun x => 0 < x)%R b -> 0 < how_many is_source (select keep sd) -> otlp_discrete plan X y (Some w) sd = Ok out ->
    exists out', otlp_discrete plan (select keep X) (select keep y) (Some (select keep w)) (select keep sd) = Ok out' /\
      rows_of is_target (select keep sd) out' = rows_of is_target sd out.
  Proof.
    intros Ly Hb Hs E. assert (E2 := E). unfold otlp_discrete in E. rewrite otlp_parts_ok in E by (auto using sd_ne; intros v [= <-]; apply Hk). cbn [bind] in E. fold a b in E.
    destruct (plan _ _ a b) as [G|] eqn:EG; [|discriminate]. assert (HG := Hc _ _ _ _ _ EG).
    assert (EG' : plan (select K (rows_of is_source sd X)) (rows_of is_target sd X) (select K a) b = Ok (select K G)).
    { refine (Hi _ _ _ _ _ _ _ _ K_zero EG); [now rewrite K_len, a_len|]. rewrite a_len. apply rows_of_length. auto. }
    assert (LG : length G = how_many is_source sd) by (rewrite <- a_len; apply HG).
    assert (LS : forall A (l : list A), length l = length sd -> length (select keep l) = length (select keep sd)) by (intros A l Hl; destruct Hk as (Lk & _); rewrite !select_length by lia; reflexivity).
    assert (HS : 0 < how_many is_source sd).
    { pose proof (rows_of_length is_source (select keep sd) (select keep X) (eq_sym (LS _ _ HX))) as H1. rewrite kept_sources in H1 by auto. rewrite <- (rows_of_length is_source sd X) by auto.
      destruct (rows_of is_source sd X) as [|x u] eqn:Eu; [|cbn; lia]. destruct K; cbn in H1; lia. }
    destruct (C52_discrete_labels plan X y (Some w) sd G) as (l1 & o1 & F1 & (_ & _ & T1) & L1 & Q1); auto using sd_ne; [intros v [= <-]; apply Hk|]. assert (o1 = out) as -> by congruence.
    destruct (C52_discrete_labels plan (select keep X) (select keep y) (Some (select keep w)) (select keep sd) (select K G)) as (l2 & o2 & F2 & (_ & _ & T2) & L2 & Q2); auto.
    - intros v [= <-]. apply LS, Hk.
    - rewrite kept_a, same_b, kept_targets, kept_sources by auto. exact EG'.
    - rewrite <- (rows_of_length is_source (select keep sd) (select keep X)) by (symmetry; now apply LS). rewrite kept_sources by auto. rewrite !select_length; rewrite ?K_len; auto. symmetry. now apply rows_of_length.
    - exists o2. split; [exact F2|]. rewrite T2, T1.
      assert (HM : how_many is_target (select keep sd) = how_many is_target sd).
      { transitivity (length (rows_of is_target (select keep sd) (select keep X))); [symmetry; apply rows_of_length; symmetry; now apply LS|].
        rewrite kept_targets by auto. apply rows_of_length. auto. }
      rewrite HM in *. assert (Lb : length b = how_many is_target sd) by (unfold b; cbn; rewrite map_length; apply rows_of_length; symmetry; apply Hk).
      apply (nth_ext _ _ 0%Z 0%Z); [congruence|]. intros j Hj. rewrite L2 in Hj. specialize (Q1 j Hj). specialize (Q2 j Hj). rewrite kept_sources in Q2 by auto.
      eapply heaviest_kept; eauto; [|lia|].
      + rewrite a_len. now apply rows_of_length.
      + rewrite Forall_forall in Hb. apply Hb, nth_In. lia.
  Qed.
End Propagation.

(** Leaving out sources of weight zero changes no propagated label, for classes and for numbers. *)
Theorem C217_propagation : forall Xrow (plan : list Xrow -> list Xrow -> list R -> list R -> res (list (list R))) X sd w keep,
  (forall Xs Xt a b G, plan Xs Xt a b = Ok G -> coupling a b G) -> ignores_empty plan -> length X = length sd -> only_zero_sources keep sd w ->
  0 < how_many is_source (select keep sd) -> Forall (fun x => 0 < x)%R (proportions (how_many is_target sd) (opt_rows is_target sd (Some w))) ->
  (forall (y : list Z) out, length y = length sd -> otlp_discrete plan X y (Some w) sd = Ok out ->
     exists out', otlp_discrete plan (select keep X) (select keep y) (Some (select keep w)) (select keep sd) = Ok out' /\
       rows_of is_target (select keep sd) out' = rows_of is_target sd out) /\
  (forall (y : list R) out, length y = length sd -> otlp_regression plan X y (Some w) sd = Ok out ->
     exists out', otlp_regression plan (select keep X) (select keep y) (Some (select keep w)) (select keep sd) = Ok out' /\
       rows_of is_target (select keep sd) out' = rows_of is_target sd out).
Proof.
  intros Xrow plan X sd w keep Hc Hi HX Hk Hs Hb. assert (select keep sd <> []) by (intros E; rewrite E in Hs; cbn in Hs; lia). split; intros y out Ly E.
  - eapply discrete_kept; eauto.
  - eapply regression_kept; eauto.
Qed.
(** A plan that spreads every source evenly over the targets meets the hypotheses; sources 1 and 3, with a third of weight zero, give
    both targets the label 2. *)
Definition even_plan (_ _ : list nat) (a b : list R) : res (list (list R)) :=
  if ClassicalDedekindReals.sig_not_dec (Forall (fun x => 0 <= x)%R a /\ Forall (fun x => 0 <= x)%R b /\ vsum a = 1%R /\ vsum b = 1%R) then Ok (map (fun x => map (Rmult x) b) a) else Err ValueError.
Lemma even_spec Xs Xt a b : (Forall (fun x => 0 <= x)%R a /\ Forall (fun x => 0 <= x)%R b /\ vsum a = 1%R /\ vsum b = 1%R) -> even_plan Xs Xt a b = Ok (map (fun x => map (Rmult x) b) a).
Proof. intros H. unfold even_plan. destruct (ClassicalDedekindReals.sig_not_dec _) as [N|N]; [reflexivity|]. elim N. exact H. Qed.
Lemma even_inv Xs Xt a b G : even_plan Xs Xt a b = Ok G -> (Forall (fun x => 0 <= x)%R a /\ Forall (fun x => 0 <= x)%R b /\ vsum a = 1%R /\ vsum b = 1%R) /\ G = map (fun x => map (Rmult x) b) a.
Proof. intros H. unfold even_plan in H. destruct (ClassicalDedekindReals.sig_not_dec _) as [N|N]; [|discriminate]. injection H as <-. split; [now apply Classical_Prop.NNPP|reflexivity]. Qed.
Lemma msum_vsum_at l : msum (length l) (fun j => nth j l 0%R) = vsum l.
Proof. induction l as [|x l IH]; [reflexivity|]. cbn [length]. rewrite msum_S. cbn [nth vsum]. now rewrite IH. Qed.
Lemma even_coupling Xs Xt a b G : even_plan Xs Xt a b = Ok G -> coupling a b G.
Proof.
  intros H. apply even_inv in H as ((Pa & Pb & Sa & Sb) & ->). rewrite Forall_forall in Pa, Pb.
  assert (V : forall i j, i < length a -> j < length b -> at2 (map (fun x => map (Rmult x) b) a) i j = (nth i a 0 * nth j b 0)%R).
  { intros i j Hi Hj. unfold at2. rewrite (map_nth' _ 0%R) by auto. now rewrite (map_nth' _ 0%R) by auto. }
  split; [split; [apply map_length|]|]; [apply Forall_forall; intros r Hr; apply in_map_iff in Hr as (x & <- & _); apply map_length|]. split; [|split].
  - intros i j Hi Hj. rewrite V by auto. apply Rmult_le_pos; [apply Pa|apply Pb]; now apply nth_In.
  - intros i Hi. rewrite (msum_ext _ _ (fun j => nth i a 0 * nth j b 0)%R) by (intros; now apply V). rewrite (msum_scal (length b) (nth i a 0)%R (fun j => nth j b 0%R)), msum_vsum_at, Sb. ring.
  - intros j Hj. rewrite (msum_ext _ _ (fun i => nth j b 0 * nth i a 0)%R) by (intros; rewrite V by auto; ring). rewrite (msum_scal (length a) (nth j b 0)%R (fun i => nth i a 0%R)), msum_vsum_at, Sa. ring.
Qed.
Lemma even_ignores : ignores_empty even_plan.
Proof.
  intros Xs Xt a b G K LK LX HK H. apply even_inv in H as ((Pa & Pb & Sa & Sb) & ->). rewrite select_map. apply even_spec. split; [|split; [auto|split; [|auto]]].
  - apply Forall_forall. intros x Hx. rewrite Forall_forall in Pa. apply Pa. now apply in_select in Hx.
  - rewrite <- Sa. apply vsum_keep; auto. intros i Hi. apply HK. lia.
Qed.
Example C217_propagation_ex : let X := [0; 1; 2; 3; 4] in let sd := [1; 1; 1; -2; -2]%Z in let w := [1; 1; 0; 1; 1]%R in let keep := [true; true; false; true; true] in
  (forall Xs Xt a b G, even_plan Xs Xt a b = Ok G -> coupling a b G) /\ ignores_empty even_plan /\ only_zero_sources keep sd w /\
  0 < how_many is_source (select keep sd) /\ Forall (fun x => 0 < x)%R (proportions (how_many is_target sd) (opt_rows is_target sd (Some w))) /\
  otlp_regression even_plan X [1; 3; 9; 0; 0]%R (Some w) sd = Ok [None; None; None; Some 2; Some 2]%R.
Proof.
  intros X sd w keep. split; [exact even_coupling|]. split; [exact even_ignores|]. split; [|split; [cbn; lia|split]].
  - split; [reflexivity|]. split; [reflexivity|]. intros [|[|[|[|[|i]]]]] Hi; cbn in *; try discriminate; try lia. auto.
  - cbn. repeat constructor; lra.
  - unfold otlp_regression. rewrite otlp_parts_ok; [|discriminate|reflexivity|reflexivity|intros l [= <-]; reflexivity]. cbn [bind]. rewrite even_spec.
    + cbn. assert (E : forall u v : R, u = 2%R -> v = 2%R -> Ok [@None R; None; None; Some u; Some v] = Ok [None; None; None; Some 2; Some 2]%R) by (intros; now subst). apply E; field; lra.
    + cbn. repeat split; try (repeat constructor; lra); lra.
Qed.

(** ** JDOT: a source without weight has its say in the mean distance by which the distances are divided *)
(** An exact solver for one more source, without mass, is one for the others. *)
Definition one_less (solve : list (list R) -> list R -> list R -> res (list (list R) * R)) (z : list R) (M : list (list R)) (a b : list R) : res (list (list R) * R) :=
  if length b =? length z then r <- solve (M ++ [z]) (a ++ [0%R]) b ;; Ok (firstn (length a) (fst r), snd r) else Err ValueError.
Lemma msum_last n f : msum (S n) f = (msum n f + f n)%R.
Proof. reflexivity. Qed.
Lemma msum_none n f : (forall i, i < n -> f i = 0%R) -> msum n f = 0%R.
Proof. induction n as [|n IH]; intros H; [reflexivity|]. rewrite msum_last, IH, H by auto. lra. Qed.
Lemma at2_firstn T n i j : i < n -> at2 (firstn n T) i j = at2 T i j.
Proof. intros H. unfold at2. revert T i H. induction n as [|n IH]; intros [|t T] [|i] H; try lia; try reflexivity. cbn. apply IH. lia. Qed.
Lemma at2_app1 M z i j : i < length M -> at2 (M ++ [z]) i j = at2 M i j.
Proof. intros H. unfold at2. now rewrite app_nth1. Qed.
Lemma forall_firstn {A} (P : A -> Prop) : forall n l, Forall P l -> Forall P (firstn n l).
Proof. induction n as [|n IH]; intros [|x l] H; cbn; constructor; inversion H; auto. Qed.
Lemma one_less_exact solve z : exact_ot solve -> exact_ot (one_less solve z).
Proof.
  intros Ex M a b T v (LM & FM) H. unfold one_less in H. destruct (Nat.eqb_spec (length b) (length z)) as [Lb|]; [|discriminate]. apply bind_ok in H as ([T0 v0] & H & E). cbn in E. injection E as <- <-.
  assert (La : length (a ++ [0%R]) = S (length a)) by (rewrite app_length; cbn; lia).
  destruct (Ex (M ++ [z]) (a ++ [0%R]) b T0 v0) as (((LT & FT) & P & Rw & C) & V & O); auto.
  { rewrite La. split; [rewrite app_length; cbn; lia|]. apply Forall_app. split; [auto|]. constructor; [congruence|constructor]. }
  rewrite La in *.
  assert (Z : forall j, j < length b -> at2 T0 (length a) j = 0%R).
  { intros j Hj. refine (msum_zero (length b) (fun j => at2 T0 (length a) j) _ _ j Hj); [intros i Hi; apply P; lia|]. rewrite Rw, app_nth2, Nat.sub_diag by lia. reflexivity. }
  assert (SP : spent (S (length a)) (length b) (at2 (M ++ [z])) T0 = spent (length a) (length b) (at2 M) (firstn (length a) T0)).
  { unfold spent. rewrite msum_last. rewrite (msum_none (length b) (fun j => at2 (M ++ [z]) (length a) j * _)%R) by (intros j Hj; rewrite Z by auto; ring). rewrite Rplus_0_r. apply msum_ext. intros i Hi. apply msum_ext. intros j Hj. rewrite at2_firstn, at2_app1 by lia. reflexivity. }
  split; [|split; [congruence|]].
  - split; [split; [rewrite firstn_length; lia|now apply forall_firstn]|]. split; [|split].
    + intros i j Hi Hj. rewrite at2_firstn by auto. apply P; lia.
    + intros i Hi. rewrite (msum_ext _ _ (fun j => at2 T0 i j)) by (intros j Hj; now apply at2_firstn). rewrite Rw by lia. now rewrite app_nth1.
    + intros j Hj. rewrite (msum_ext _ _ (fun i => at2 T0 i j)) by (intros i Hi; now apply at2_firstn). rewrite <- (C j Hj), msum_last, Z by auto. ring.
  - intros T' ((LT' & FT') & P' & Rw' & C'). 
    assert (Z' : forall j, at2 (T' ++ [repeat 0%R (length b)]) (length a) j = 0%R) by (intros j; unfold at2; rewrite app_nth2, LT', Nat.sub_diag by lia; cbn; apply nth_repeat).
    specialize (O (T' ++ [repeat 0%R (length b)])). unfold spent in O. rewrite msum_last in O. rewrite (msum_none (length b) (fun j => at2 (M ++ [z]) (length a) j * _)%R) in O by (intros j Hj; rewrite Z'; ring).
    rewrite Rplus_0_r in O. unfold spent. rewrite (msum_ext (length a) _ (fun i => msum (length b) (fun j => at2 (M ++ [z]) i j * at2 (T' ++ [repeat 0%R (length b)]) i j)%R)).
    + apply O. split; [split; [rewrite app_length; cbn; lia|]|]; [apply Forall_app; split; [auto|constructor; [apply repeat_length|constructor]]|]. split; [|split].
      * rewrite La. intros i j Hi Hj. destruct (Nat.eq_dec i (length a)) as [->|]; [rewrite Z'; lra|]. rewrite at2_app1 by lia. apply P'; lia.
      * rewrite La. intros i Hi. destruct (Nat.eq_dec i (length a)) as [->|]; [rewrite app_nth2, Nat.sub_diag by lia; cbn; apply msum_none; intros; apply Z'|].
        rewrite app_nth1 by lia. rewrite <- (Rw' i) by lia. apply msum_ext. intros j Hj. apply at2_app1. lia.
      * rewrite La. intros j Hj. rewrite msum_last, Z', Rplus_0_r, <- (C' j Hj). apply msum_ext. intros i Hi. apply at2_app1. lia.
    + intros i Hi. apply msum_ext. intros j Hj. rewrite !at2_app1 by lia. reflexivity.
Qed.
(** The distances of [unit_dist] with a third source far from all targets. *)
Definition far_dist : list (list R) := unit_dist ++ [[20; 20; 20]]%R.
Lemma far_mean : mean (concat far_dist) = 8%R.
Proof. unfold mean, far_dist, unit_dist. cbn. lra. Qed.
Lemma far_iteration solve prev T v est yp lot llab : exact_ot solve -> match prev with Some p => length p = 3 | None => True end ->
  reg_iteration solve line_fit (1/2) far_dist [0; 1/2; 0]%R [1/2; 1/2; 0]%R [1/3; 1/3; 1/3]%R None prev T v est yp lot llab ->
  let key := fun j m => (m / 16 + match prev with None => 0 | Some p => 1/2 * ((1/2 - nth j p 0) * (1/2 - nth j p 0) - nth j p 0 * nth j p 0) end)%R in
  ((key 0%nat (- 168 / 49) < key 1%nat (- 56 / 49) < key 2%nat (- 84 / 49))%R -> est = [1/2; 1/4; 0]%R /\ yp = est) /\
  ((key 0%nat (- 168 / 49) < key 2%nat (- 84 / 49) < key 1%nat (- 56 / 49))%R -> est = [3/8; 1/4; 1/8]%R /\ yp = est).
Proof.
  intros Ex Lp (Es & Ef & _) key. rewrite far_mean in Es.
  assert (LT : length T = 3).
  { refine (proj1 (proj1 (proj1 (Ex _ _ _ _ _ _ Es)))). destruct prev as [[|p0 [|p1 [|p2 [|]]]]|]; try discriminate; split; cbn; auto; repeat constructor. }
  assert (Y : forall j, j < 3 -> moved_label T [0; 1/2; 0]%R [1/3; 1/3; 1/3]%R j = (3 / 2 * at2 T 1 j)%R).
  { intros j Hj. rewrite moved_msum by auto. cbn [length msum nth]. destruct j as [|[|[|j]]]; cbn [nth]; try lia; field. }
  cbn [length seq map] in Ef. rewrite !Y in Ef by lia. cbn in Ef. injection Ef as <- <-.
  assert (L3 : forall x x' y y' z z' : R, x = x' -> y = y' -> z = z' -> [x; y; z] = [x'; y'; z']) by (intros; now subst).
  assert (AF : forall j, at2 (firstn 2 T) 1 j = at2 T 1 j) by (intros; apply at2_firstn; lia).
  assert (OL : forall r0 r1 r2, length r2 = 3 -> solve [r0; r1; r2] [1/2; 1/2; 0]%R [1/3; 1/3; 1/3]%R = Ok (T, v) -> one_less solve r2 [r0; r1] [1/2; 1/2]%R [1/3; 1/3; 1/3]%R = Ok (firstn 2 T, v)).
  { intros r0 r1 r2 L2 H. unfold one_less. rewrite L2. cbn [length Nat.eqb app]. rewrite H. reflexivity. }
  destruct prev as [[|p0 [|p1 [|p2 [|]]]]|]; try discriminate; cbn in Es; apply OL in Es; try reflexivity;
    destruct (solved_2_3 _ _ _ _ _ _ _ _ _ (one_less_exact _ _ Ex) Es) as (S1 & S2); rewrite !AF in *; unfold key; cbn [nth]; clear key OL.
  - split; intros K.
    + destruct (S1 ltac:(lra)) as (-> & -> & ->). split; [apply L3; field|reflexivity].
    + destruct (S2 ltac:(lra)) as (-> & -> & ->). split; [apply L3; field|reflexivity].
  - split; intros K.
    + destruct (S1 ltac:(lra)) as (-> & -> & ->). split; [apply L3; field|reflexivity].
    + destruct (S2 ltac:(lra)) as (-> & -> & ->). split; [apply L3; field|reflexivity].
Qed.
Lemma zero_list : proportions 3 (Some [1; 1; 0]%R) = [1 / 2; 1 / 2; 0]%R.
Proof. cbn. repeat apply (f_equal2 (@cons R)); try reflexivity; field; lra. Qed.

(** A third source of weight zero changes the predictions of the fitted estimator from 3/8, 1/4, 1/8 to 1/2, 1/4, 0, with an exact
    solver and whatever the tolerance and the number of iterations (at least two). *)
Theorem C217_jdot_refuted : forall solve tol n est lot llab T w est' lot' llab' T' w', exact_ot solve -> plans_fit solve -> 2 <= n ->
  solve_jdot_regression solve line_fit (1/2) tol n unit_dist [0; 1/2]%R 3 None None = Ok (est, lot, llab, T, w) ->
  solve_jdot_regression solve line_fit (1/2) tol n far_dist [0; 1/2; 0]%R 3 (Some [1; 1; 0]%R) None = Ok (est', lot', llab', T', w') ->
  est = [3/8; 1/4; 1/8]%R /\ est' = [1/2; 1/4; 0]%R.
Proof.
  intros solve tol n est lot llab T w est' lot' llab' T' w' Ex Pf Hn E E'.
  apply C54_regression_run in E as ((_ & L & _ & St & _) & Ts & vs & es & yps & I & -> & _); auto; try discriminate; try lia.
  apply C54_regression_run in E' as ((_ & L' & _ & St' & _) & Ts' & vs' & es' & yps' & I' & -> & _); auto; try discriminate; try lia; [|intros l [= <-]; reflexivity].
  assert (N2 : 2 <= length lot') by (destruct (Nat.eq_dec (length lot') n); [lia|]; destruct (St' ltac:(lia)) as [[? _]|[? _]]; lia).
  change (length [0; 1/2]%R) with 2 in I. change (length [0; 1/2; 0]%R) with 3 in I'. rewrite third_list in I, I'. rewrite half_list in I. rewrite zero_list in I'.
  assert (A0 : es' 0 = [3/8; 1/4; 1/8]%R /\ yps' 0 = es' 0).
  { refine (proj2 (far_iteration _ None _ _ _ _ _ _ Ex Logic.I (I' 0 ltac:(lia))) _). lra. }
  assert (A1 : forall j, S j < length lot' -> es' (S j) = [1/2; 1/4; 0]%R /\ yps' (S j) = es' (S j)).
  { induction j as [|j IH]; intros Hj.
    - specialize (I' 1 Hj). cbn beta iota in I'. destruct A0 as (A0 & B0). rewrite B0, A0 in I'.
      refine (proj1 (far_iteration solve (Some _) _ _ _ _ _ _ Ex _ I') _); [reflexivity|]. cbn [nth]. lra.
    - specialize (I' (S (S j)) Hj). cbn beta iota in I'. destruct (IH ltac:(lia)) as (A2 & B2). rewrite B2, A2 in I'.
      refine (proj1 (far_iteration solve (Some _) _ _ _ _ _ _ Ex _ I') _); [reflexivity|]. cbn [nth]. lra. }
  assert (A2 : forall j, j < length lot -> es j = [3 * (1 / 2) / 4; 1 / 2 / 2; 1 / 2 / 4]%R /\ yps j = es j).
  { induction j as [|j IH]; intros Hj.
    - refine (proj2 (unit_iteration _ _ None _ _ _ _ _ _ Ex Logic.I (I 0 ltac:(lia))) _). lra.
    - specialize (I (S j) Hj). cbn beta iota in I. destruct (IH ltac:(lia)) as (A2 & B2). rewrite B2, A2 in I.
      refine (proj2 (unit_iteration solve (1/2) (Some _) _ _ _ _ _ _ Ex _ I) _); [reflexivity|]. cbn [nth]. lra. }
  destruct (length lot') as [|[|k]] eqn:EL; try lia. replace (S (S k) - 1) with (S k) by lia. rewrite (proj1 (A1 k ltac:(lia))), (proj1 (A2 (length lot - 1) ltac:(lia))).
  split; [|reflexivity]. repeat apply (f_equal2 (@cons R)); try reflexivity; lra.
Qed.
(** Such runs exist. *)
Example C217_jdot_ex : exists solve, exact_ot solve /\ plans_fit solve /\
  (exists r, solve_jdot_regression solve line_fit (1/2) (1/100000) 100 unit_dist [0; 1/2]%R 3 None None = Ok r) /\
  (exists r, solve_jdot_regression solve line_fit (1/2) (1/100000) 100 far_dist [0; 1/2; 0]%R 3 (Some [1; 1; 0]%R) None = Ok r).
Proof.
  assert (Co : forall M a b T v, best_solver M a b = Ok (T, v) -> coupling a b T /\ v = spent (length a) (length b) (at2 M) T /\ forall T', coupling a b T' -> (v <= spent (length a) (length b) (at2 M) T')%R).
  { intros M a b T v H. unfold best_solver in H. destruct (ClassicalDedekindReals.sig_not_dec _) as [N|]; [|discriminate]. destruct (best_plan M a b _ _ _) as (T0 & C & O). cbn in H. injection H as <- <-. auto. }
  assert (Tot : forall M a b, masses a -> masses b -> vsum a = vsum b -> exists r, best_solver M a b = Ok r).
  { intros M a b Ha Hb Hs. unfold best_solver. destruct (ClassicalDedekindReals.sig_not_dec _) as [N|N]; [eauto|]. exfalso. apply N. auto. }
  exists best_solver. split; [intros M a b T v _ H; now apply Co|]. split; [intros M a b T v H; apply (Co _ _ _ _ _ H)|].
  split; apply run_exists; change (length [0; 1/2]%R) with 2; change (length [0; 1/2; 0]%R) with 3; rewrite ?third_list, ?half_list, ?zero_list; auto; try lia;
    try (intros M T v H; apply (Co _ _ _ _ _ H)); try (intros M; apply Tot; [unfold masses; repeat constructor; lra|unfold masses; repeat constructor; lra|cbn; lra]);
    intros yth L; destruct yth as [|u [|v [|t [|]]]]; try discriminate; repeat eexists.
Qed.

(** ** Deep models: the weights multiply the losses, and the mean is over all source samples *)
Lemma weighted_keep K : forall w l, length K = length w -> length l = length w -> (forall i, i < length w -> nth i K true = false -> nth i w 0%R = 0%R) ->
  vsum (map2 Rmult (select K w) (select K l)) = vsum (map2 Rmult w l).
Proof.
  induction K as [|b K IH]; intros [|x w] [|y l] L1 L2 H; try discriminate; [reflexivity|]. cbn in L1, L2. assert (Q := IH w l ltac:(lia) ltac:(lia) (fun i Hi => H (S i) ltac:(cbn; lia))).
  destruct b; cbn; [now rewrite Q|]. specialize (H 0 ltac:(cbn; lia) eq_refl). cbn in H. subst. rewrite Q. ring.
Qed.
(** The losses of the source samples, in a batch and in the same batch without some samples of weight zero: the reported losses
    differ by the ratio of the numbers of source samples. *)
Theorem C217_deep : forall l w sd keep, length l = how_many is_source sd -> (forall s, In s sd -> s <> 0%Z) -> only_zero_sources keep sd w -> 0 < how_many is_source (select keep sd) ->
  exists r, get_loss (Vec l) (Some w) sd = Ok (Some r) /\
    get_loss (Vec (select (rows_of is_source sd keep) l)) (Some (select keep w)) (select keep sd) = Ok (Some (INR (how_many is_source sd) / INR (how_many is_source (select keep sd)) * r)%R).
Proof.
  intros l w sd keep Ll HZ Hk Hs. assert (Hk' := Hk). destruct Hk' as (L1 & L2 & _). destruct (only_rows is_source Hk) as (A & B & _).
  assert (LK : length (rows_of is_source sd keep) = how_many is_source sd) by (apply rows_of_length; auto). assert (LW : length (rows_of is_source sd w) = how_many is_source sd) by (apply rows_of_length; auto).
  assert (LS : length (select keep w) = length (select keep sd)) by (rewrite !select_length by lia; reflexivity).
  assert (RK : rows_of is_source (select keep sd) (select keep w) = select (rows_of is_source sd keep) (rows_of is_source sd w)) by (apply rows_of_keep; auto).
  assert (N : how_many is_source (select keep sd) = length (select (rows_of is_source sd keep) l)) by (rewrite <- (rows_of_length is_source _ _ (eq_sym LS)), RK, !select_length by lia; reflexivity).
  assert (H0 : 0 < how_many is_source sd) by (destruct (how_many is_source sd); [|lia]; destruct (rows_of is_source sd keep); [cbn in N; lia|discriminate]).
  exists (mean (map2 Rmult (rows_of is_source sd w) l)). split; [apply C64_aligned; auto|]. rewrite C64_aligned; auto.
  - do 2 f_equal. rewrite RK. unfold mean. rewrite weighted_keep by (try lia; intros i Hi; apply A; lia). rewrite !map2_length, <- N, LW, Ll, Nat.min_id.
    rewrite <- RK, rows_of_length, Nat.min_id by auto. field. split; apply not_0_INR; lia.
  - intros s H. apply HZ. now apply in_select in H.
Qed.
(** Two source samples with losses 3 and 5: with the third, of weight zero, the loss is 8/3 instead of 4. *)
Theorem C217_deep_refuted : get_loss (Vec [3; 5; 7]%R) (Some [1; 1; 0; 1]%R) [1; 1; 1; -1]%Z = Ok (Some (8 / 3)%R) /\
  get_loss (Vec [3; 5]%R) (Some [1; 1; 1]%R) [1; 1; -1]%Z = Ok (Some 4%R).
Proof. split; rewrite C64_aligned; try reflexivity; try (cbn; lia); try (intros s H; cbn in H; lia); do 2 f_equal; unfold mean; cbn; field. Qed.
