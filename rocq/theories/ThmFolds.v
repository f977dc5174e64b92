(** Theorem C209: every fold can be trained on and scored. *)
From Coq Require Import List ZArith QArith Bool Arith Lia Sorting.Permutation Sorting.Sorted.
From Verif Require Import Np NpFacts Labels Spec SpecFacts UtilsModel UtilsSpec SelectModel SplitModel SplitSpec
  SplitProofs SplitProofs2 ThmSplit FoldSpec.
Import ListNotations.
Local Open Scope nat_scope.

Lemma how_many_pos {A} (p : A -> bool) l : 0 < how_many p l -> exists a, In a l /\ p a = true.
Proof.
  unfold how_many. intros H. destruct (filter p l) as [|a t] eqn:E; simpl in H; [lia|].
  exists a. apply filter_In. rewrite E. now left.
Qed.
Lemma how_many_zero {A} (p : A -> bool) l : how_many p l = 0 -> forall a, In a l -> p a = false.
Proof.
  intros H a Ha. destruct (p a) eqn:E; auto. unfold how_many in H.
  assert (F : In a (filter p l)) by now apply filter_In. destruct (filter p l); [destruct F|discriminate].
Qed.

Lemma counts_both sd l : Forall (fun i => i < length sd) l ->
  0 < count_in is_source sd l -> 0 < count_in is_target sd l -> both_sides sd l.
Proof.
  intros B H1 H2. rewrite Forall_forall in B.
  apply how_many_pos in H1 as [i [Hi1 Hi2]]. apply how_many_pos in H2 as [j [Hj1 Hj2]].
  split; [exists i|exists j]; repeat split; auto.
  - now apply Z.leb_le.
  - now apply Z.ltb_lt.
Qed.

(** SourceTargetShuffleSplit: every fold it returns. *)
Theorem C209_shuffle_split : forall n sda test_size train_size perms r,
  let sd := eff_domain n sda in
  (forall p, In p perms -> is_perm (how_many is_source sd) (fst p) /\ is_perm (how_many is_target sd) (snd p)) ->
  source_target_shuffle_split n sda test_size train_size perms = Ok r ->
  length sd = n /\ Forall (whole_fold sd) r.
Proof.
  intros n sda ts tr perms r sd HP H. apply C28_shuffle_split_exact in H as (L & _ & F); auto. split; auto.
  eapply Forall_impl; [|exact F]. intros [train test] ((_ & B) & S1 & S2 & _). fold sd in B, S1, S2.
  apply Forall_app in B as [B1 B2]. unfold exact_on, sizes in S1, S2. split; apply counts_both; simpl; tauto.
Qed.

(** DomainShuffleSplit. *)
Theorem C209_domain_shuffle : forall n sda u test_size train_size draws r,
  let sd := eff_domain n sda in
  Forall (dom_draw_ok sd u) draws ->
  domain_shuffle_split n sda u test_size train_size draws = Ok r ->
  length sd = n /\ Forall (whole_fold sd) r.
Proof.
  intros n sda u ts tr draws r sd HD H. apply C32_domain_shuffle_split in H as (L & _ & F); auto. split; auto.
  eapply Forall_impl; [|exact F]. intros [train test] ((_ & B) & S & _ & _ & _ & _ & S1 & S2 & _). fold sd in B, S1, S2.
  apply Forall_app in B as [B1 B2]. unfold sizes in S1, S2. split; apply counts_both; simpl; tauto.
Qed.

(** LeaveOneDomainOut; the target samples of a fold are those of the held-out domain. *)
Theorem C209_lodo : forall n sda max_n_splits test_size train_size dperm perms r doms,
  let sd := eff_domain n sda in
  labels_where is_source sd doms -> is_perm (length doms) dperm ->
  length perms <= Nat.min max_n_splits (length doms) ->
  (forall k i d p, nth_error dperm k = Some i -> nth_error doms i = Some d -> nth_error perms k = Some p ->
     is_perm (how_many (other_source d) sd) (fst p) /\ is_perm (how_many (Z.eqb (- d)) sd) (snd p)) ->
  leave_one_domain_out n sda max_n_splits test_size train_size dperm perms = Ok r ->
  Forall (whole_fold sd) r.
Proof.
  intros n sda mx ts tr dperm perms r doms sd HD HP HL HPP H. pose proof H as H0.
  apply (C30_leave_one_domain_out n sda mx ts tr dperm perms r doms HD HP HL HPP) in H as (ds & _ & I & _ & F).
  fold sd in F. clear - F I HD.
  assert (Key : forall d train test, In d doms -> lodo_split sd ts tr d (train, test) -> whole_fold sd (train, test)).
  { intros d train test Hd ((_ & B) & H1 & _ & S1 & S2 & _). apply Forall_app in B as [B1 B2].
    rewrite Forall_forall in B1, B2. unfold exact_on, sizes in S1, S2.
    apply (proj2 HD) in Hd as [_ Hd]. apply Z.leb_le in Hd.
    assert (G : forall l, (forall i, In i l -> i < length sd) -> (forall i, In i l -> label sd i <> d) ->
      0 < count_in (other_source d) sd l -> 0 < count_in (Z.eqb (- d)) sd l -> both_sides sd l).
    { intros l B N P1 P2. apply how_many_pos in P1 as [i [Hi1 Hi2]]. apply how_many_pos in P2 as [j [Hj1 Hj2]].
      split; [exists i|exists j]; repeat split; auto.
      - unfold other_source in Hi2. apply andb_true_iff in Hi2 as [Hi2 _]. now apply Z.leb_le.
      - apply Z.eqb_eq in Hj2. specialize (N _ Hj1). lia. }
    split; apply G; simpl; try tauto; intros i Hi; apply H1; apply in_or_app; auto. }
  revert I. induction F as [|d [train test] ds r H F IH]; intros I; constructor.
  - apply (Key d); [apply I; now left|exact H].
  - apply IH. intros x Hx. apply I. now right.
Qed.

Example C209_ex :
  (exists r, source_target_shuffle_split 7 (SDArr sd28) SzNone (SzFrac (1 # 2)) [([2; 0; 3; 1], [1; 2; 0])] = Ok r /\
     r = [([5; 2; 1], [4; 0; 3; 6])]) /\
  whole_fold sd28 ([5; 2; 1], [4; 0; 3; 6]) /\ ~ whole_fold sd28 ([5; 2; 1], [4; 0]).
Proof.
  split; [eexists; split; reflexivity|]. split.
  - split; split; cbn.
    + exists 5; cbn; intuition lia.
    + exists 1; cbn; intuition lia.
    + exists 4; cbn; intuition lia.
    + exists 3; cbn; intuition lia.
  - intros [_ [_ (j & Hj & _ & Hl)]]. cbn in Hj. destruct Hj as [<-|[<-|[]]]; cbn in Hl; lia.
Qed.

(** ** StratifiedDomainShuffleSplit *)

Lemma total_cons a l : total (a :: l) = a + total l.
Proof. reflexivity. Qed.

Lemma nth_group_sizes (rows : list (Z * Z)) gs k g : nth_error gs k = Some g -> nth k (map (group_size rows) gs) 0 = group_size rows g.
Proof.
  revert k. induction gs as [|h gs IH]; intros [|k] H; simpl in *; try discriminate; [congruence|auto].
Qed.

Lemma nth_remaining (rows : list (Z * Z)) gs ns k g : length ns = length gs -> nth_error gs k = Some g ->
  nth k (map (fun p => group_size rows (fst p) - snd p) (combine gs ns)) 0 = group_size rows g - nth k ns 0.
Proof.
  revert ns k. induction gs as [|h gs IH]; intros [|n ns] [|k] L H; simpl in *; try discriminate; [congruence|].
  apply IH; auto.
Qed.

Lemma total_groups (rows gs : list (Z * Z)) : NoDup gs -> (forall g, In g rows -> In g gs) ->
  total (map (group_size rows) gs) = length rows.
Proof.
  intros N. unfold group_size. induction rows as [|a rows IH]; intros I.
  - clear. induction gs; simpl; auto.
  - assert (Ha : In a gs) by (apply I; now left).
    assert (E : total (map (fun g => how_many (eq_pair g) (a :: rows)) gs) =
                total (map (fun g => how_many (eq_pair g) rows) gs) + 1).
    { clear I IH. revert Ha. induction gs as [|g gs IHg]; intros Ha; [destruct Ha|].
      inversion N as [|? ? Hg N']; subst. cbn [map]. rewrite !total_cons.
      assert (HM : forall h, how_many (eq_pair h) (a :: rows) = (if eq_pair h a then 1 else 0) + how_many (eq_pair h) rows).
      { intros h. unfold how_many. simpl. destruct (eq_pair h a); reflexivity. }
      assert (EQ : forall h, eq_pair h a = true <-> h = a).
      { intros [x y]. destruct a as [u v]. unfold eq_pair. simpl. rewrite andb_true_iff, !Z.eqb_eq.
        split; [intros [-> ->]; auto|intros E; injection E; auto]. }
      destruct (eq_pair g a) eqn:Ega.
      - rewrite HM, Ega. apply EQ in Ega. subst g.
        replace (map (fun g => how_many (eq_pair g) (a :: rows)) gs) with (map (fun g => how_many (eq_pair g) rows) gs); [lia|].
        apply map_ext_in. intros h Hh. rewrite HM. destruct (eq_pair h a) eqn:E; auto. apply EQ in E. subst h. tauto.
      - rewrite HM, Ega. destruct Ha as [->|Ha]; [apply not_true_iff_false in Ega; exfalso; apply Ega, EQ; auto|].
        rewrite (IHg N' Ha). lia. }
    rewrite E, IH by (intros g Hg; apply I; now right). simpl. lia.
Qed.

Lemma total_minus (rows gs : list (Z * Z)) ns : length ns = length gs ->
  Forall2 (fun g n => n <= group_size rows g) gs ns ->
  total (map (fun p => group_size rows (fst p) - snd p) (combine gs ns)) + total ns = total (map (group_size rows) gs).
Proof. intros _ F. induction F as [|g n gs ns H F IH]; simpl in *; lia. Qed.

(** A group whose share of the training part is at least one sample is represented there. *)
Theorem C209_stratified_train : forall y sda test_size train_size draws r gs n_train n_test,
  let sd := eff_domain (length y) sda in
  groups_of (combine y sd) gs -> sizes (length y) test_size train_size n_train n_test ->
  Forall (fair_draw (combine y sd) gs n_train n_test) draws ->
  stratified_domain_shuffle_split y sda test_size train_size draws = Ok r ->
  forall g, In g (combine y sd) -> length y <= n_train * group_size (combine y sd) g ->
  Forall (fun f => exists i, In i (fst f) /\ nth_error (combine y sd) i = Some g) r.
Proof.
  intros y sda ts tr draws r gs n_train n_test sd HG HS HD H g Hg Hshare.
  apply (C31_stratified_groups_exact y sda ts tr draws r gs n_train n_test HG HS) in H as [L F].
  2:{ eapply Forall_impl; [|exact HD]. now intros d [H1 _]. }
  fold sd in F, L. assert (Lr : length (combine y sd) = length y) by (rewrite combine_length; lia).
  pose proof (groups_NoDup _ _ HG) as N. apply (proj2 HG) in Hg as Hg'. apply In_nth_error in Hg' as [k Hk].
  induction F as [|d [train test] draws r Hd F IH]; constructor.
  2:{ apply IH. now apply Forall_inv_tail in HD. }
  apply Forall_inv in HD as (_ & (M1 & M2 & ex & M3 & M4 & _) & _).
  assert (Kk : k < length (map (group_size (combine y sd)) gs)) by (rewrite map_length; apply nth_error_Some; congruence).
  apply M4 in Kk as [_ Kk]. rewrite (nth_group_sizes _ _ _ _ Hk) in Kk.
  rewrite (total_groups _ _ N) in Kk by (intros; now apply HG). rewrite Lr in Kk.
  assert (P : 0 < n_train * group_size (combine y sd) g / length y).
  { apply Nat.div_str_pos. split; [|exact Hshare]. destruct y; [destruct Hg|simpl; lia]. }
  destruct Hd as ((_ & B) & _ & _ & G). apply G in Hk as [G1 _]. rewrite Kk in G1.
  assert (P2 : 0 < group_in (combine y sd) g train) by (rewrite G1; lia).
  apply how_many_pos in P2 as (i & Hi & E).
  exists i. split; auto. cbn [fst]. rewrite Forall_forall in B.
  assert (Bi : i < length (combine y sd)) by (apply B, in_or_app; now left).
  rewrite (nth_error_nth' _ (0, 0)%Z Bi). f_equal. unfold eq_pair in E. apply andb_true_iff in E as [E1 E2].
  apply Z.eqb_eq in E1, E2. destruct g, (nth i (combine y sd) (0, 0)%Z); simpl in *; congruence.
Qed.

(** With complementary sizes a group whose share of the test part is more than one sample is represented there. *)
Theorem C209_stratified_test : forall y sda test_size train_size draws r gs n_train n_test,
  let sd := eff_domain (length y) sda in
  groups_of (combine y sd) gs -> sizes (length y) test_size train_size n_train n_test ->
  complementary test_size train_size ->
  Forall (fair_draw (combine y sd) gs n_train n_test) draws ->
  stratified_domain_shuffle_split y sda test_size train_size draws = Ok r ->
  forall g, In g (combine y sd) -> length y < n_test * group_size (combine y sd) g ->
  Forall (fun f => exists i, In i (snd f) /\ nth_error (combine y sd) i = Some g) r.
Proof.
  intros y sda ts tr draws r gs n_train n_test sd HG HS HC HD H g Hg Hshare.
  assert (Hn : n_train + n_test = length y /\ 0 < n_test).
  { destruct HS as (_ & P & _ & H1 & H2 & _). destruct HC as [-> | ->]; auto. }
  destruct Hn as [Hn Pt].
  apply (C31_stratified_groups_exact y sda ts tr draws r gs n_train n_test HG HS) in H as [L F].
  2:{ eapply Forall_impl; [|exact HD]. now intros d [H1 _]. }
  fold sd in F, L. assert (Lr : length (combine y sd) = length y) by (rewrite combine_length; lia).
  pose proof (groups_NoDup _ _ HG) as N. apply (proj2 HG) in Hg as Hg'. apply In_nth_error in Hg' as [k Hk].
  induction F as [|d [train test] draws r Hd F IH]; constructor.
  2:{ apply IH. now apply Forall_inv_tail in HD. }
  apply Forall_inv in HD as ((D1 & D2 & D3 & D4 & _) & (M1 & M2 & ex & M3 & M4 & _) & (T1 & T2 & ex' & T3 & T4 & _)).
  assert (Kl : k < length gs) by (apply nth_error_Some; congruence).
  assert (Kk : k < length (map (group_size (combine y sd)) gs)) by (rewrite map_length; exact Kl).
  apply M4 in Kk as [K0 Kk]. rewrite (nth_group_sizes _ _ _ _ Hk) in Kk.
  rewrite (total_groups _ _ N) in Kk by (intros; now apply HG). rewrite Lr in Kk.
  assert (Tk : k < length (map (fun p => group_size (combine y sd) (fst p) - snd p) (combine gs (dr_n d)))).
  { rewrite map_length, combine_length, D1. lia. }
  apply T4 in Tk as [_ Tk]. rewrite (nth_remaining _ _ _ _ _ D1 Hk) in Tk.
  assert (Tt : total (map (fun p => group_size (combine y sd) (fst p) - snd p) (combine gs (dr_n d))) = n_test).
  { assert (E := total_minus (combine y sd) gs (dr_n d) D1).
    rewrite (total_groups _ _ N), Lr, D4 in E by (intros; now apply HG).
    enough (Forall2 (fun g n => n <= group_size (combine y sd) g) gs (dr_n d)) by (specialize (E H); lia).
    clear - D1 D2 D3. revert D3. generalize (dr_t d) as b, (dr_n d) as a, D1, D2.
    clear. induction gs as [|g gs IH]; intros b a La Lb D; destruct a, b; simpl in *; try discriminate; [constructor|].
    inversion D; subst. constructor; [simpl in *; lia|]. apply (IH b a); auto. }
  rewrite Tt in Tk.
  set (c := group_size (combine y sd) g) in *.
  assert (Q1 : n_train * c / length y + 2 <= c).
  { destruct c as [|[|c]]; [lia| |].
    - lia.
    - enough (n_train * S (S c) / length y < S c) by lia. apply Nat.div_lt_upper_bound; nia. }
  assert (P : 0 < nth k (dr_t d) 0).
  { rewrite Tk. rewrite (Nat.mul_comm n_test), Nat.div_mul by lia. lia. }
  destruct Hd as ((_ & B) & _ & _ & G). apply G in Hk as [_ G1].
  assert (P2 : 0 < group_in (combine y sd) g test) by (rewrite G1; lia).
  apply how_many_pos in P2 as (i & Hi & E).
  exists i. split; auto. rewrite Forall_forall in B.
  assert (Bi : i < length (combine y sd)) by (apply B, in_or_app; now right).
  rewrite (nth_error_nth' _ (0, 0)%Z Bi). f_equal. unfold eq_pair in E. apply andb_true_iff in E as [E1 E2].
  apply Z.eqb_eq in E1, E2. destruct g, (nth i (combine y sd) (0, 0)%Z); simpl in *; congruence.
Qed.

(** The witness: one class, two target samples and eighteen source samples, default sizes. *)
Definition y209 : list Z := repeat 0%Z 20.
Definition sd209 : list Z := [-2; -2]%Z ++ repeat 1%Z 18.
Definition gs209 : list (Z * Z) := [(0, -2); (0, 1)]%Z.
Definition draw209 : strat_draw := mkDraw [2; 16] [0; 2] [seq 0 2; seq 0 18] (seq 0 18) (seq 0 2).

Lemma groups209 : groups_of (combine y209 sd209) gs209.
Proof.
  split.
  - repeat (constructor; [|repeat (constructor; [unfold pair_lt; simpl; lia|]); constructor]). constructor.
  - intros g. unfold gs209, y209, sd209. simpl. intuition congruence.
Qed.
Lemma sizes209 : sizes (length y209) SzNone SzNone 18 2.
Proof. unfold sizes, is_ceil, times. vm_compute. repeat split; try lia; intros; try discriminate; repeat split; intros; discriminate. Qed.
Lemma perm_seq n : is_perm n (seq 0 n).
Proof. apply Permutation_refl. Qed.
Lemma fair209 : fair_draw (combine y209 sd209) gs209 18 2 draw209.
Proof.
  split; [|split].
  - unfold draw_ok. cbn [dr_n dr_t dr_perms dr_train dr_test draw209].
    split; [reflexivity|]. split; [reflexivity|]. split; [repeat constructor|]. split; [reflexivity|]. split; [reflexivity|].
    split; [|split; apply perm_seq]. constructor; [apply (perm_seq 2)|]. constructor; [apply (perm_seq 18)|constructor].
  - split; [reflexivity|]. split; [reflexivity|]. exists [1; 0]. split; [reflexivity|].
    split.
    + intros [|[|k]] Hk; cbn in Hk; [..|lia]; split; try (cbn; lia); vm_compute; reflexivity.
    + intros [|[|k]] [|[|l]] Hk Hl; cbn in Hk, Hl; try lia; intros; try discriminate; vm_compute; lia.
  - split; [reflexivity|]. split; [reflexivity|]. exists [0; 0]. split; [reflexivity|].
    split.
    + intros [|[|k]] Hk; cbn in Hk; [..|lia]; split; try (cbn; lia); vm_compute; reflexivity.
    + intros [|[|k]] [|[|l]] Hk Hl; cbn in Hk, Hl; try lia; intros; discriminate.
Qed.

(** REFUTED for StratifiedDomainShuffleSplit: on this data the request is accepted, and whatever the generator draws no
    test part of any fold contains a target sample. *)
Theorem C209_stratified_refuted :
  exists y sd gs n_train n_test,
    groups_of (combine y sd) gs /\ sizes (length y) SzNone SzNone n_train n_test /\ length sd = length y /\
    (exists i, i < length sd /\ (0 <= label sd i)%Z) /\ (exists j, j < length sd /\ (label sd j < 0)%Z) /\
    (exists draw r, fair_draw (combine y sd) gs n_train n_test draw /\
       stratified_domain_shuffle_split y (SDArr sd) SzNone SzNone [draw] = Ok [r]) /\
    (forall draws r, Forall (fair_draw (combine y sd) gs n_train n_test) draws ->
       stratified_domain_shuffle_split y (SDArr sd) SzNone SzNone draws = Ok r ->
       Forall (fun f => ~ both_sides sd (snd f)) r).
Proof.
  exists y209, sd209, gs209, 18, 2. split; [apply groups209|]. split; [apply sizes209|]. split; [reflexivity|].
  split; [exists 2; cbn; lia|]. split; [exists 0; cbn; lia|]. split.
  - exists draw209. eexists. split; [apply fair209|]. vm_compute. reflexivity.
  - intros draws r HD H.
    apply (C31_stratified_groups_exact y209 (SDArr sd209) SzNone SzNone draws r gs209 18 2 groups209 sizes209) in H as [_ F].
    2:{ eapply Forall_impl; [|exact HD]. now intros d [H1 _]. }
    induction F as [|d [train test] draws r Hd F IH]; constructor; [|apply IH; now apply Forall_inv_tail in HD].
    apply Forall_inv in HD as ((D1 & _) & (M1 & M2 & ex & M3 & M4 & M5) & (T1 & T2 & ex' & T3 & T4 & T5)).
    cbn [eff_domain] in *.
    destruct (dr_n d) as [|a [|b [|? ?]]] eqn:En; try discriminate.
    destruct (dr_t d) as [|a' [|b' [|? ?]]] eqn:Ed; try discriminate.
    pose proof (M4 0 ltac:(cbn; lia)) as [X0 Y0]. pose proof (M4 1 ltac:(cbn; lia)) as [X1 Y1].
    assert (Ea : a = 1 + nth 0 ex 0) by exact Y0. assert (Eb : b = 16 + nth 1 ex 0) by exact Y1.
    assert (Et : a + (b + 0) = 18) by exact M2.
    assert (Ha : a = 2).
    { assert (nth 0 ex 0 = 0 \/ nth 0 ex 0 = 1) as [Z0|Z0] by lia; [|lia].
      assert (Z1 : nth 1 ex 0 = 1) by lia.
      pose proof (M5 1 0 ltac:(cbn; lia) ltac:(cbn; lia) Z1 Z0) as C. vm_compute in C. lia. }
    assert (Hb : b = 16) by lia. clear Ea Eb. subst a b. clear - Hd T2 T4 Ed.
    pose proof (T4 1 ltac:(cbn; lia)) as [_ W1]. assert (Eb' : b' = 2 + nth 1 ex' 0) by exact W1.
    assert (Et' : a' + (b' + 0) = 2) by exact T2. assert (a' = 0) by lia. subst a'.
    destruct Hd as (_ & _ & _ & G). pose proof (G 0 (0, -2)%Z eq_refl) as [_ G0].
    assert (G0' : group_in (combine y209 sd209) (0, -2)%Z test = 0).
    { rewrite G0, Ed. reflexivity. }
    intros [_ (j & Hj & Bj & Lj)]. cbn [snd] in Hj. apply how_many_zero with (a := j) in G0'; auto.
    assert (Cj : j < 2).
    { destruct (Nat.lt_ge_cases j 2); auto. exfalso. unfold label, sd209 in Lj. rewrite app_nth2 in Lj by (simpl; lia).
      destruct (nth_in_or_default (j - length [-2; -2]%Z) (repeat 1%Z 18) 0%Z) as [I|I]; [apply repeat_spec in I|]; lia. }
    destruct j as [|[|j]]; [discriminate|discriminate|lia].
Qed.
