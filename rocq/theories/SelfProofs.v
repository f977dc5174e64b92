(** Lemmas about the DASVM model. *)
From Coq Require Import String List ZArith QArith Bool Arith Lia Reals Lra.
From Verif Require Import Np NpFacts Labels UtilsModel Spec SpecFacts UtilsProofs RVec RVecFacts OTProofs SelfModel SelfSpec.
Import ListNotations.
Local Open Scope nat_scope.
Local Open Scope list_scope.

Lemma picked_select {A} m : forall xs : list A, select m xs = picked m xs.
Proof. induction m as [|[] m IH]; intros [|x xs]; unfold picked; cbn; auto; [f_equal|]; apply IH. Qed.

Lemma flags_count_eq l : flags_count l = count l.
Proof. unfold flags_count. induction l as [|[] l IH]; simpl; auto. Qed.

(** The shifting loop. *)
Definition shift1 (l : list (nat * bool)) (i : nat) : nat :=
  fold_left (fun i lc => if snd lc : bool then i else if fst lc <=? i then S i else i) l i.
Lemma shift_map l : forall idx, fold_left (fun idx lc => if snd lc : bool then idx else map (fun i => if fst lc <=? i then S i else i) idx) l idx
  = map (shift1 l) idx.
Proof.
  induction l as [|[a b] l IH]; intros idx; simpl.
  - unfold shift1. simpl. now rewrite map_id.
  - rewrite IH. unfold shift1. destruct b; simpl; [reflexivity|]. rewrite map_map. reflexivity.
Qed.
Lemma shift1_below c : forall k j, j < k -> shift1 (combine (seq k (length c)) c) j = j.
Proof.
  induction c as [|b c IH]; intros k j Hj; [reflexivity|]. unfold shift1. simpl. destruct b; simpl.
  - apply (IH (S k)). lia.
  - destruct (Nat.leb_spec k j); [lia|]. apply (IH (S k)). lia.
Qed.
Lemma shift1_spec c : forall k i, i < count c -> shift1 (combine (seq k (length c)) c) (k + i) = nth i (where_from k c) 0.
Proof.
  induction c as [|b c IH]; intros k i Hi; simpl in Hi; [lia|]. unfold shift1. simpl. destruct b; simpl in *.
  - destruct i as [|i]; simpl.
    + rewrite Nat.add_0_r. apply shift1_below. lia.
    + replace (k + S i) with (S k + i) by lia. apply IH. lia.
  - destruct (Nat.leb_spec k (k + i)); [|lia]. replace (S (k + i)) with (S k + i) by lia. apply IH. lia.
Qed.
Lemma shift_indices_spec c idx : Forall (fun i => i < count c) idx ->
  shift_indices c idx = map (fun i => nth i (flatnonzero c) 0) idx.
Proof.
  intros H. unfold shift_indices. rewrite shift_map. apply map_ext_in. intros i Hi.
  rewrite Forall_forall in H. exact (shift1_spec c 0 i (H i Hi)).
Qed.

Lemma nth_select {A} (m : list bool) (xs : list A) a d : length m = length xs -> a < count m ->
  nth a (select m xs) d = nth (nth a (flatnonzero m) 0) xs d.
Proof.
  intros L Ha. assert (E := np_take_flatnonzero m xs L).
  rewrite (np_take_ok _ _ d) in E.
  - injection E as <-. rewrite (nth_indep _ d ((fun i => nth i xs d) 0)) by (now rewrite map_length, flatnonzero_length).
    now rewrite (map_nth (fun i => nth i xs d)).
  - apply Forall_forall. intros i Hi. apply flatnonzero_lt in Hi. lia.
Qed.

Lemma flatnonzero_flagged m i : In i (flatnonzero m) <-> i < length m /\ flagged m i.
Proof.
  rewrite flatnonzero_In. unfold flagged. split.
  - intros H. split; [apply nth_error_Some; congruence|]. now apply nth_error_nth.
  - intros [Hi H]. rewrite <- H. now apply nth_error_nth'.
Qed.

Lemma sorted_lt_nth (l : list nat) i j : Sorted.StronglySorted lt l -> i < j < length l -> nth i l 0 < nth j l 0.
Proof.
  intros S. revert i j. induction S as [|x l S IH F]; intros i j [H1 H2]; simpl in H2; [lia|].
  destruct j as [|j]; [lia|]. destruct i as [|i]; simpl.
  - rewrite Forall_forall in F. apply F, nth_In. lia.
  - apply IH. lia.
Qed.
Lemma sorted_lt_le (l : list nat) i j : Sorted.StronglySorted lt l -> i < length l -> j < length l -> nth i l 0 <= nth j l 0 -> i <= j.
Proof.
  intros S Hi Hj H. destruct (Nat.le_gt_cases i j) as [|G]; [assumption|]. pose proof (sorted_lt_nth l j i S ltac:(lia)). lia.
Qed.

(** The best position of one column. *)
Lemma argmax_best c col a : length col = length c -> np_argmax (select c col) = Ok a ->
  a < count c /\ best (fun j => j < length c /\ flagged c j) (fun j => nth j col 0%R) (nth a (flatnonzero c) 0).
Proof.
  intros L H. apply np_argmax_spec in H as (H1 & H2 & H3). rewrite select_length in * by congruence.
  split; [exact H1|]. assert (LF := flatnonzero_length c).
  assert (In' : forall j, j < length c /\ flagged c j -> exists b, b < count c /\ nth b (flatnonzero c) 0 = j).
  { intros j Hj. apply flatnonzero_flagged in Hj. apply (In_nth _ _ 0) in Hj as (b & Hb & E). exists b. split; [lia|exact E]. }
  split; [|split].
  - apply flatnonzero_flagged, nth_In. lia.
  - intros j Hj. destruct (In' j Hj) as (b & Hb & <-). specialize (H2 b Hb). now rewrite !nth_select in H2 by (auto; lia).
  - intros j Hj E. destruct (In' j Hj) as (b & Hb & <-).
    destruct (Nat.le_gt_cases a b) as [Q|Q].
    + destruct (Nat.eq_dec a b) as [->|N]; [lia|]. pose proof (sorted_lt_nth _ a b (flatnonzero_sorted c) ltac:(lia)). lia.
    + specialize (H3 b Q). rewrite !nth_select in H3 by (auto; lia). rewrite E in H3. lra.
Qed.

Lemma best_unique cand d i j : best cand d i -> best cand d j -> i = j.
Proof.
  intros (C1 & M1 & F1) (C2 & M2 & F2). assert (d i = d j) by (apply Rle_antisym; auto).
  assert (i <= j) by (apply F1; auto). assert (j <= i) by (apply F2; auto). lia.
Qed.

Lemma best_ext (c c' : nat -> Prop) (d d' : nat -> R) i : (forall j, c j <-> c' j) -> (forall j, c j -> d j = d' j) -> best c d i <-> best c' d' i.
Proof.
  intros H E. split; intros (C & M & F).
  - assert (c' i) by (now apply H). split; [auto|split].
    + intros j Hj. apply H in Hj. rewrite <- !E by auto. auto.
    + intros j Hj. apply H in Hj. rewrite <- !E by auto. auto.
  - assert (c i) by (now apply H). split; [auto|split].
    + intros j Hj. rewrite !E by auto. apply M. now apply H.
    + intros j Hj. rewrite !E by auto. apply F. now apply H.
Qed.
(** Only the order of the values matters. *)
Lemma best_mono (c : nat -> Prop) (d d' : nat -> R) i : (forall j k, c j -> c k -> (d j <= d k <-> d' j <= d' k)%R) -> best c d i <-> best c d' i.
Proof.
  intros H. split; intros (C & M & F); (split; [auto|split]).
  - intros j Hj. apply H; auto.
  - intros j Hj E. apply F; auto. apply Rle_antisym; [apply H; auto; lra|apply H; auto; lra].
  - intros j Hj. apply H; auto.
  - intros j Hj E. apply F; auto. apply Rle_antisym; [apply H; auto; lra|apply H; auto; lra].
Qed.

Lemma insert_uniq_length z l : length (insert_uniq z l) <= S (length l).
Proof. induction l as [|y l IH]; simpl; [lia|]. destruct (z <? y)%Z; simpl; [lia|]. destruct (z =? y)%Z; simpl; lia. Qed.
Lemma unique_length l : length (unique l) <= length l.
Proof. induction l as [|y l IH]; simpl; [lia|]. unfold unique in *. simpl. pose proof (insert_uniq_length y (fold_right insert_uniq [] l)). lia. Qed.

Lemma unique_nat_In l i : In i (map Z.to_nat (unique (map Z.of_nat l))) <-> In i l.
Proof.
  rewrite in_map_iff. split.
  - intros (z & <- & H). apply (proj1 (unique_In _ _)) in H. apply in_map_iff in H as (k & <- & H). now rewrite Nat2Z.id.
  - intros H. exists (Z.of_nat i). split; [apply Nat2Z.id|]. apply (proj2 (unique_In _ _)). now apply in_map.
Qed.

Lemma candidates_ok c cols : 0 < count c -> Forall (fun col => length col = length c) cols ->
  exists idx, candidates c cols = Ok idx /\ length idx <= length cols /\ Forall (fun i => i < length c) idx /\
    forall i, In i idx <-> exists col, In col cols /\ best (fun j => j < length c /\ flagged c j) (fun j => nth j col 0%R) i.
Proof.
  intros Hc HL. rewrite Forall_forall in HL. unfold candidates.
  assert (E1 : mapM (np_select c) cols = Ok (map (select c) cols)).
  { rewrite <- mapM_pure. apply mapM_ext. intros col Hcol. apply np_select_ok. symmetry. auto. }
  rewrite E1. cbn [bind].
  destruct (mapM_total np_argmax (map (select c) cols)) as [am Eam].
  { intros s Hs. apply in_map_iff in Hs as (col & <- & Hcol). apply np_argmin_total. intros E. apply (f_equal (@length R)) in E.
    rewrite map_length, select_length in E by (symmetry; auto). simpl in E. lia. }
  rewrite Eam. cbn [bind].
  assert (Lam := mapM_ok_length _ _ _ Eam). rewrite map_length in Lam.
  assert (V : forall j, j < length cols -> np_argmax (select c (nth j cols [])) = Ok (nth j am 0)).
  { intros j Hj. rewrite <- (mapM_nth np_argmax _ _ j [] 0 Eam) by (now rewrite map_length).
    f_equal. rewrite (nth_indep (map (select c) cols) [] (select c [])) by (now rewrite map_length). now rewrite (map_nth (select c)). }
  set (u := map Z.to_nat (unique (map Z.of_nat am))).
  assert (B : Forall (fun i => i < count c) u).
  { apply Forall_forall. intros i Hi. apply (proj1 (unique_nat_In _ _)) in Hi. apply (In_nth _ _ 0) in Hi as (j & Hj & <-). rewrite Lam in Hj.
    apply (argmax_best c (nth j cols [])); [apply HL, nth_In; lia|auto]. }
  rewrite shift_indices_spec by exact B. eexists. split; [reflexivity|]. split; [|split].
  - rewrite map_length. unfold u. rewrite map_length. pose proof (unique_length (map Z.of_nat am)) as Q. rewrite map_length in Q. lia.
  - apply Forall_forall. intros i Hi. apply in_map_iff in Hi as (a & <- & Ha). rewrite Forall_forall in B. specialize (B a Ha).
    apply (flatnonzero_lt c), nth_In. now rewrite flatnonzero_length.
  - intros i. rewrite in_map_iff. split.
    + intros (a & <- & Ha). apply (proj1 (unique_nat_In _ _)) in Ha. apply (In_nth _ _ 0) in Ha as (j & Hj & <-). rewrite Lam in Hj.
      exists (nth j cols []). split; [now apply nth_In|]. apply argmax_best; [apply HL, nth_In; lia|auto].
    + intros (col & Hcol & Hb). apply (In_nth _ _ []) in Hcol as (j & Hj & <-).
      exists (nth j am 0). split; [|apply unique_nat_In, nth_In; lia].
      eapply best_unique; [|exact Hb]. apply argmax_best; [apply HL, nth_In; lia|auto].
Qed.

Lemma place_true idx : forall ind i, i < length ind ->
  (nth i (place_idx idx (repeat true (length idx)) ind) false = true <-> nth i ind false = true \/ In i idx).
Proof.
  induction idx as [|k idx IH]; intros ind i Hi; simpl; [tauto|]. rewrite IH by (now rewrite update_length).
  destruct (Nat.eq_dec i k) as [->|N].
  - assert (E : nth_error (update k true ind) k = Some true).
    { rewrite NpFacts.update_nth, Nat.eqb_refl. destruct (Nat.ltb_spec k (length ind)); [reflexivity|lia]. }
    apply nth_error_nth with (d := false) in E. tauto.
  - assert (E : nth i (update k true ind) false = nth i ind false).
    { assert (Q : nth_error (update k true ind) i = nth_error ind i).
      { rewrite NpFacts.update_nth. destruct (Nat.eqb_spec i k); [lia|reflexivity]. }
      rewrite (nth_error_nth' ind false Hi) in Q. now apply nth_error_nth. }
    rewrite E. intuition congruence.
Qed.

Lemma flag_ext (a b : list bool) : length a = length b -> (forall i, i < length a -> (flagged a i <-> flagged b i)) -> a = b.
Proof.
  intros L H. apply nth_ext with (d := false) (d' := false); [exact L|]. intros i Hi. specialize (H i Hi). unfold flagged in H.
  destruct (nth i a false), (nth i b false); intuition congruence.
Qed.

Lemma repeat_select_ok k : forall c cols idx ind, candidates c cols = Ok idx -> Forall (fun i => i < length ind) idx ->
  repeat_select (S k) c cols ind = Ok (place_idx idx (repeat true (length idx)) ind).
Proof.
  assert (SET : forall idx ind, Forall (fun i => i < length ind) idx ->
    np_setidx idx (repeat true (length idx)) ind = Ok (place_idx idx (repeat true (length idx)) ind)).
  { intros idx ind F. unfold np_setidx. replace (forallb (fun i => i <? length ind) idx) with true.
    - now rewrite repeat_length, Nat.eqb_refl.
    - symmetry. apply forallb_forall. intros i Hi. rewrite Forall_forall in F. apply Nat.ltb_lt. auto. }
  induction k as [|k IH]; intros c cols idx ind E F.
  - cbn [repeat_select]. rewrite E. cbn [bind]. now rewrite SET.
  - remember (S k) as k1. cbn [repeat_select]. rewrite E. cbn [bind]. rewrite SET by auto. cbn [bind]. subst k1.
    rewrite (IH c cols idx) by (auto; now rewrite place_idx_length). f_equal.
    apply flag_ext; [now rewrite !place_idx_length|]. intros i Hi. rewrite !place_idx_length in Hi. unfold flagged.
    rewrite !place_true by (rewrite ?place_idx_length; auto). tauto.
Qed.

Lemma flagged_lt l i : flagged l i -> i < length l.
Proof. intros H. destruct (Nat.lt_ge_cases i (length l)); auto. unfold flagged in H. rewrite nth_overflow in H by auto. discriminate. Qed.

Lemma count_pos c : 0 < count c <-> exists i, flagged c i.
Proof.
  rewrite <- flatnonzero_length. split.
  - intros H. exists (nth 0 (flatnonzero c) 0). apply flatnonzero_flagged, nth_In. auto.
  - intros [i Hi]. assert (In i (flatnonzero c)) by (apply flatnonzero_flagged; split; auto using flagged_lt).
    destruct (flatnonzero c); simpl in *; [easy|lia].
Qed.

Lemma nth_and_not ind cond i : length ind = length cond -> i < length ind ->
  (flagged (map2 andb (map negb ind) cond) i <-> flagged cond i /\ ~ flagged ind i).
Proof.
  unfold flagged. revert cond i. induction ind as [|b ind IH]; intros [|c cond] i L Hi; simpl in *; try lia.
  destruct i as [|i]; [destruct b, c; simpl; intuition congruence|]. apply IH; lia.
Qed.

Lemma count_flag_le (a b : list bool) idx : (forall i, flagged b i -> flagged a i \/ In i idx) -> count b <= count a + length idx.
Proof.
  intros H. rewrite <- !flatnonzero_length, <- app_length. apply NoDup_incl_length; [apply flatnonzero_NoDup|].
  intros i Hi. apply flatnonzero_flagged in Hi as [_ Hi]. apply in_or_app. destruct (H i Hi) as [Q|Q]; [left|right; auto].
  apply flatnonzero_flagged. split; auto using flagged_lt.
Qed.

(** One call of [find_points]. *)
Lemma find_points_spec k ind cols cond : 1 <= k -> length cond = length ind -> Forall (fun col => length col = length ind) cols ->
  exists ind', find_points k ind cols cond = Ok ind' /\ length ind' = length ind /\ count ind' <= count ind + length cols /\
    forall i, flagged ind' i <-> flagged ind i \/
      exists col, In col cols /\ best (fun j => flagged cond j /\ ~ flagged ind j) (fun j => nth j col 0%R) i.
Proof.
  intros Hk L HC. unfold find_points. rewrite np_map2_eq by (now rewrite map_length). cbn [bind].
  set (c := map2 andb (map negb ind) cond).
  assert (Lc : length c = length ind) by (unfold c; rewrite map2_length; rewrite map_length; auto).
  assert (FC : forall j, j < length c /\ flagged c j <-> flagged cond j /\ ~ flagged ind j).
  { intros j. split.
    - intros [Hj H]. rewrite Lc in Hj. now apply nth_and_not in H.
    - intros H. assert (j < length ind) by (destruct H as [H _]; apply flagged_lt in H; lia).
      split; [lia|]. apply nth_and_not; auto. }
  destruct (Nat.eq_dec (count c) 0) as [Z|NZ].
  - rewrite Z. replace (Nat.min k ((0 + 1) / 2)) with 0 by (simpl; lia). cbn [repeat_select]. exists ind.
    split; [reflexivity|]. split; [reflexivity|]. split; [lia|]. intros i. split; [auto|]. intros [H|(col & _ & H & _)]; [auto|].
    apply FC in H. exfalso. assert (0 < count c) by (apply count_pos; exists i; tauto). lia.
  - destruct (candidates_ok c cols) as (idx & E & LI & B & IFF); [lia|now rewrite Lc|].
    assert (Hhalf : 1 <= (count c + 1) / 2).
    { change 1 with (2 / 2) at 1. apply Nat.div_le_mono; lia. }
    destruct (Nat.min k ((count c + 1) / 2)) as [|q] eqn:Q; [lia|].
    rewrite Lc in B. rewrite (repeat_select_ok q c cols idx ind E B).
    eexists. split; [reflexivity|]. split; [apply place_idx_length|].
    assert (M : forall i, flagged (place_idx idx (repeat true (length idx)) ind) i <-> flagged ind i \/ In i idx).
    { intros i. split.
      - intros H. pose proof (flagged_lt _ _ H) as Hi. rewrite place_idx_length in Hi. now apply place_true in H.
      - intros H. apply place_true; auto. destruct H as [H|H]; [now apply flagged_lt|]. rewrite Forall_forall in B. auto. }
    split.
    + apply Nat.le_trans with (count ind + length idx); [|lia]. apply count_flag_le. intros i Hi. now apply M.
    + intros i. rewrite M, IFF. apply or_iff_compat_l. split; intros (col & Hc & Hb); exists col; split; auto.
      * eapply best_ext; [| |exact Hb]; [intros j; symmetry; apply FC|auto].
      * eapply best_ext; [| |exact Hb]; [intros j; apply FC|auto].
Qed.

Lemma best_exists (cand : nat -> Prop) (d : nat -> R) n : (forall j, cand j \/ ~ cand j) -> (exists j, cand j) -> (forall j, cand j -> j < n) -> exists i, best cand d i.
Proof.
  intros DEC EX B.
  assert (Q : forall m, (exists j, cand j /\ j < m) ->
      exists i, i < m /\ cand i /\ (forall j, cand j -> j < m -> (d j <= d i)%R) /\ (forall j, cand j -> j < m -> d j = d i -> i <= j)).
  { induction m as [|m IH]; intros (j & Hj & Hl); [lia|].
    destruct (DEC m) as [C|C].
    - assert (EX' : (exists j, cand j /\ j < m) \/ ~ (exists j, cand j /\ j < m)).
      { clear IH EX B C j Hj Hl. induction m as [|m [(j & H1 & H2)|N]]; [right; intros (j & _ & H); lia|left; exists j; split; auto|].
        destruct (DEC m) as [C|C]; [left; exists m; auto|right]. intros (j & H1 & H2). apply N. exists j. split; auto.
        assert (j <> m) by congruence. lia. }
      destruct EX' as [E|E].
      + destruct (IH E) as (i & Hi & Ci & Mi & Fi). destruct (Rlt_dec (d i) (d m)) as [H|H].
        * exists m. split; [lia|]. split; [auto|]. split.
          -- intros q Cq Hq. destruct (Nat.eq_dec q m) as [->|]; [lra|]. specialize (Mi q Cq ltac:(lia)). lra.
          -- intros q Cq Hq Eq. destruct (Nat.eq_dec q m) as [->|]; [lia|]. specialize (Mi q Cq ltac:(lia)). lra.
        * exists i. split; [lia|]. split; [auto|]. split.
          -- intros q Cq Hq. destruct (Nat.eq_dec q m) as [->|]; [lra|]. apply Mi; auto. lia.
          -- intros q Cq Hq Eq. destruct (Nat.eq_dec q m) as [->|]; [lia|]. apply Fi; auto. lia.
      + exists m. split; [lia|]. split; [auto|]. split.
        * intros q Cq Hq. destruct (Nat.eq_dec q m) as [->|]; [lra|]. exfalso. apply E. exists q. split; auto. lia.
        * intros q Cq Hq Eq. destruct (Nat.eq_dec q m) as [->|]; [lia|]. exfalso. apply E. exists q. split; auto. lia.
    - assert (j <> m) by congruence. destruct IH as (i & Hi & Ci & Mi & Fi); [exists j; split; auto; lia|].
      exists i. split; [lia|]. split; [auto|]. split.
      + intros q Cq Hq. apply Mi; auto. assert (q <> m) by congruence. lia.
      + intros q Cq Hq Eq. apply Fi; auto. assert (q <> m) by congruence. lia. }
  destruct EX as [j0 H0]. destruct (Q n) as (i & Hi & Ci & Mi & Fi); [exists j0; auto|].
  exists i. split; [auto|]. split; intros j Hj; auto.
Qed.
