(** Proofs about OTModel: label costs, weights, JCPOT. *)
From Coq Require Import String List ZArith QArith Bool Arith Lia Reals Lra Sorted.
From Verif Require Import Np NpFacts Labels UtilsModel Spec SpecFacts UtilsSpec UtilsProofs UtilsProofs2 RVec RVecFacts OTModel OTSpec OTProofs OTProofs2.
Import ListNotations.
Local Open Scope nat_scope.
Local Open Scope list_scope.

Lemma onehot_nth labels y r k : NoDup labels -> nth_error labels r = Some y -> k < length labels ->
  nth k (onehot labels y) 0%R = if k =? r then 1%R else 0%R.
Proof.
  intros ND E Hk. unfold onehot. rewrite (nth_indep _ 0%R ((fun c => if (y =? c)%Z then 1%R else 0%R) 0%Z)) by now rewrite map_length.
  rewrite (map_nth (fun c => if (y =? c)%Z then 1%R else 0%R)).
  assert (Hr : r < length labels) by (apply nth_error_Some; congruence).
  apply nth_error_nth with (d := 0%Z) in E.
  destruct (Nat.eqb_spec k r) as [->|N].
  - now rewrite E, Z.eqb_refl.
  - destruct (Z.eqb_spec y (nth k labels 0%Z)) as [K|K]; auto. rewrite NoDup_nth with (d := 0%Z) in ND. exfalso. apply N.
    apply ND; auto. congruence.
Qed.

Lemma onehot_update labels y r : NoDup labels -> nth_error labels r = Some y ->
  onehot labels y = update r 1%R (repeat 0%R (length labels)).
Proof.
  intros ND E. apply vec_ext.
  - rewrite RVecFacts.update_length, repeat_length. unfold onehot. now rewrite map_length.
  - unfold onehot at 1. rewrite map_length. intros k Hk. rewrite (onehot_nth _ _ r) by auto.
    assert (G : forall n i j, i < n -> nth j (update i 1%R (repeat 0%R n)) 0%R = if j =? i then 1%R else 0%R).
    { induction n as [|n IH]; intros i j Hi; [lia|]. destruct i as [|i], j as [|j]; cbn [repeat update nth Nat.eqb]; auto.
      - now rewrite nth_repeat.
      - apply IH. lia. }
    symmetry. apply G. apply nth_error_Some. congruence.
Qed.

Lemma onehot_dot labels y r f : NoDup labels -> nth_error labels r = Some y -> length f = length labels ->
  vsum (map2 Rmult (onehot labels y) f) = nth r f 0%R.
Proof.
  intros ND E HL. change (vsum (map2 Rmult (onehot labels y) f)) with (dot (onehot labels y) f).
  rewrite dot_comm, (onehot_update _ _ r) by auto. rewrite dot_update_zeros; auto; [lra|]. apply nth_error_Some. congruence.
Qed.

Lemma combine_seq0_nth (l : list R) : combine (seq 0 (length l)) l = map (fun j => (j, nth j l 0%R)) (seq 0 (length l)).
Proof. rewrite combine_seq_nth. apply map_ext. intros j. now rewrite Nat.sub_0_r. Qed.

Lemma hinge_row labels y r f : NoDup labels -> nth_error labels r = Some y -> length f = length labels ->
  row_loss MHinge (onehot labels y) f = hinge_cost r f.
Proof.
  intros ND E HL. unfold row_loss, hinge_cost. f_equal. rewrite combine_seq0_nth, map_map.
  assert (LO : length (onehot labels y) = length labels) by (unfold onehot; now rewrite map_length).
  apply vec_ext.
  - rewrite map2_length by (rewrite map_length; congruence). rewrite !map_length, seq_length. congruence.
  - rewrite map2_length by (rewrite map_length; congruence). rewrite map_length. intros k Hk.
    rewrite nth_map2 by (rewrite map_length; congruence). rewrite nth_map_seq by lia. cbn [fst snd].
    rewrite nth_map0 by lia. rewrite (onehot_nth _ _ r) by (auto; lia).
    destruct (k =? r); f_equal; ring.
Qed.

Definition hgap (x : R) : R := (Rmax 0 (1 - x) - Rmax 0 (1 + x))%R.

Lemma hgap_strict x y : (x < y)%R -> (hgap y < hgap x)%R.
Proof. intros H. unfold hgap, Rmax. repeat destruct Rle_dec; lra. Qed.

Lemma hinge_cost_gap r f : r < length f -> hinge_cost r f = (vsum (map (fun x => Rmax 0 (1 + x)) f) + hgap (nth r f 0))%R.
Proof.
  unfold hinge_cost.
  assert (G : forall f k, (r < k -> vsum (map (fun kf => if fst kf =? r then Rmax 0 (1 - snd kf) else Rmax 0 (1 + snd kf))%R (combine (seq k (length f)) f))
             = vsum (map (fun x => Rmax 0 (1 + x))%R f)) /\
            (k <= r -> r - k < length f ->
             vsum (map (fun kf => if fst kf =? r then Rmax 0 (1 - snd kf) else Rmax 0 (1 + snd kf))%R (combine (seq k (length f)) f))
             = (vsum (map (fun x => Rmax 0 (1 + x)) f) + hgap (nth (r - k) f 0))%R)).
  { clear f. induction f as [|x f IH]; intros k; split; intros H; try (intros H'; simpl in H'; lia); try reflexivity.
    - cbn [length seq combine map vsum fst snd]. destruct (Nat.eqb_spec k r); [lia|]. rewrite (proj1 (IH (S k))) by lia. reflexivity.
    - intros Hr. cbn [length seq combine map vsum fst snd]. destruct (Nat.eqb_spec k r) as [->|N].
      + rewrite (proj1 (IH (S r))) by lia. rewrite Nat.sub_diag. cbn [nth]. unfold hgap. lra.
      + simpl in Hr. rewrite (proj2 (IH (S k))) by lia. replace (r - k) with (S (r - S k)) by lia. cbn [nth]. lra. }
  intros H. rewrite (proj2 (G f 0)) by lia. now rewrite Nat.sub_0_r.
Qed.

(** Entry of the cost matrix. *)
Lemma class_cost_entry metric ys p P : pred_matrix metric p = Ok P -> Forall (fun f => length f = length (unique ys)) P ->
  class_cost metric (map (onehot (unique ys)) ys) p = Ok (map (fun y => map (row_loss metric (onehot (unique ys) y)) P) ys).
Proof.
  intros E F. unfold class_cost. rewrite E. cbn [bind].
  assert (forallb (fun y => forallb (fun f => length y =? length f) P) (map (onehot (unique ys)) ys) = true) as ->.
  { apply forallb_forall. intros z Hz. apply in_map_iff in Hz as (y & <- & _). apply forallb_forall. intros f Hf.
    rewrite Forall_forall in F. rewrite (F f Hf). unfold onehot. rewrite map_length. apply Nat.eqb_refl. }
  now rewrite map_map.
Qed.

Lemma nth_map2d {A B} (g : A -> list B) l i d d' : i < length l -> nth i (map g l) d = g (nth i l d').
Proof. intros H. rewrite (nth_indep _ d (g d')) by now rewrite map_length. apply map_nth. Qed.

(** ** Weights *)
Lemma vsum_map_div l s : vsum (map (fun t => t / s)%R l) = (vsum l / s)%R.
Proof. induction l as [|x l IH]; cbn [map vsum]; [unfold Rdiv; ring|]. rewrite IH. unfold Rdiv. ring. Qed.

Lemma proportions_distribution n w : 0 < n -> (forall l, w = Some l -> length l = n /\ vsum l <> 0%R) -> distribution n w (proportions n w).
Proof.
  intros Hn Hw. destruct w as [l|]; cbn [proportions].
  - destruct (Hw l eq_refl) as [HL Hs]. repeat split.
    + now rewrite map_length.
    + rewrite vsum_map_div. now apply Rinv_r.
    + intros i j Hi Hj. rewrite !(nth_map0 (fun t => t / vsum l)%R) by lia. unfold Rdiv. ring.
  - repeat split.
    + now rewrite repeat_length.
    + rewrite vsum_repeat. apply Rinv_r. apply not_0_INR. lia.
    + intros i j Hi Hj. 
      assert (G : forall k, k < n -> nth k (repeat (/ INR n)%R n) 0%R = (/ INR n)%R).
      { intros k Hk. rewrite (nth_indep _ 0%R (/ INR n)%R) by now rewrite repeat_length. apply nth_repeat. }
      now rewrite !G.
Qed.

(** ** JCPOT *)
Lemma values_domain {A} (xs : list A) sd doms :
  values_of (map (fun d => (d, map (domain_rows sd d) [Some xs])) doms) = domain_by_domain doms sd xs.
Proof. unfold values_of, domain_by_domain. rewrite map_map. reflexivity. Qed.

Lemma flat_map_ext_in {A B} (f g : A -> list B) l : (forall x, In x l -> f x = g x) -> flat_map f l = flat_map g l.
Proof. induction l as [|x l IH]; intros H; [reflexivity|]. cbn [flat_map]. rewrite H by now left. f_equal. apply IH. intros; apply H; now right. Qed.

Lemma filter_filter {A} (p q : A -> bool) l : filter p (filter q l) = filter (fun x => q x && p x) l.
Proof. induction l as [|x l IH]; [reflexivity|]. cbn [filter]. destruct (q x); cbn [filter andb]; now rewrite IH. Qed.

Lemma StronglySorted_filter {A} (le : A -> A -> Prop) p l : StronglySorted le l -> StronglySorted le (filter p l).
Proof.
  induction 1 as [|x l S IH F]; [constructor|]. cbn [filter]. destruct (p x); auto. constructor; auto.
  rewrite Forall_forall in *. intros y Hy. apply filter_In in Hy as [Hy _]. auto.
Qed.

Lemma flat_filter_sorted {A} (ps : list (Z * A)) : forall ds, StronglySorted Z.lt ds -> StronglySorted (fun p q => (fst p <= fst q)%Z) ps ->
  (forall p, In p ps -> In (fst p) ds) -> flat_map (fun d => filter (fun p => (d =? fst p)%Z) ps) ds = ps.
Proof.
  intros ds S. revert ps. induction S as [|d ds S IH F]; intros ps P Hin.
  - destruct ps as [|p ps]; [reflexivity|]. destruct (Hin p (or_introl eq_refl)).
  - cbn [flat_map]. rewrite Forall_forall in F.
    assert (E : ps = filter (fun p => (d =? fst p)%Z) ps ++ filter (fun p => (d <? fst p)%Z) ps).
    { assert (Hge : forall p, In p ps -> (d <= fst p)%Z).
      { intros p Hp. destruct (Hin p Hp) as [->|H]; [lia|]. apply Z.lt_le_incl, F, H. }
      clear -P Hge. induction P as [|p ps P IH F]; [reflexivity|]. cbn [filter].
      assert (d <= fst p)%Z by (apply Hge; now left).
      assert (IH' := IH (fun q Hq => Hge q (or_intror Hq))).
      destruct (Z.eqb_spec d (fst p)) as [E|N].
      - destruct (Z.ltb_spec d (fst p)); [lia|]. cbn [app]. f_equal. exact IH'.
      - destruct (Z.ltb_spec d (fst p)); [|lia].
        assert (G : filter (fun p => (d =? fst p)%Z) ps = []).
        { rewrite Forall_forall in F. clear -F H0. induction ps as [|q ps IH]; [reflexivity|]. cbn [filter].
          assert (fst p <= fst q)%Z by (apply F; now left). destruct (Z.eqb_spec d (fst q)); [lia|]. apply IH. intros; apply F; now right. }
        rewrite G in *. cbn [app] in *. f_equal. exact IH'. }
    transitivity (filter (fun p => (d =? fst p)%Z) ps ++ filter (fun p => (d <? fst p)%Z) ps); [f_equal|symmetry; exact E].
    rewrite <- (IH (filter (fun p => (d <? fst p)%Z) ps)).
    + apply flat_map_ext_in. intros d' Hd'. rewrite filter_filter. apply filter_ext. intros p.
      specialize (F d' Hd'). destruct (Z.eqb_spec d' (fst p)); [|now rewrite andb_false_r]. destruct (Z.ltb_spec d (fst p)); [reflexivity|lia].
    + now apply StronglySorted_filter.
    + intros p Hp. apply filter_In in Hp as [Hp Hd]. destruct (Hin p Hp) as [->|H]; auto. apply Z.ltb_lt in Hd. lia.
Qed.

Lemma sorted_targets_order {A} sd (xs : list A) : length sd = length xs -> StronglySorted Z.le (filter is_target sd) ->
  concat (domain_by_domain (filter is_target (unique sd)) sd xs) = rows_of is_target sd xs.
Proof.
  intros HL S. unfold domain_by_domain.
  rewrite <- flat_map_concat_map.
  set (ps := filter (fun q => is_target (fst q)) (combine sd xs)).
  assert (K : map fst ps = filter is_target sd).
  { unfold ps. clear S ps. revert xs HL. induction sd as [|d sd IH]; intros [|x xs] HL; try discriminate; [reflexivity|].
    cbn [combine filter fst]. destruct (is_target d); cbn [map]; rewrite IH; auto. }
  transitivity (flat_map (fun d => map snd (filter (fun p => (d =? fst p)%Z) ps)) (filter is_target (unique sd))).
  - apply flat_map_ext_in. intros d Hd. apply filter_In in Hd as [_ Hd]. unfold rows_of, ps. f_equal. rewrite filter_filter.
    apply filter_ext. intros p. destruct (Z.eqb_spec d (fst p)) as [<-|]; [now rewrite Hd|now rewrite andb_false_r].
  - change (rows_of is_target sd xs) with (map snd ps).
    transitivity (map snd (flat_map (fun d => filter (fun p => (d =? fst p)%Z) ps) (filter is_target (unique sd))));
      [|f_equal; apply flat_filter_sorted].
    + generalize (filter is_target (unique sd)). intros ds. induction ds as [|d ds IH]; [reflexivity|].
      cbn [flat_map]. now rewrite map_app, IH.
    + apply StronglySorted_filter, unique_sorted.
    + rewrite <- K in S. clear -S. induction ps as [|p ps IH]; [constructor|]. cbn [map] in S. inversion S; subst. constructor; auto.
      rewrite Forall_forall in *. intros q Hq. apply H2. now apply in_map.
    + intros p Hp. apply (in_map fst) in Hp. rewrite K in Hp. apply filter_In in Hp as [H1 H2]. apply filter_In. split; auto.
      now apply (proj2 (unique_In _ _)).
Qed.

Lemma domain_rows_count {A} sd (xs : list A) : length sd = length xs ->
  length (concat (domain_by_domain (filter is_target (unique sd)) sd xs)) = how_many is_target sd.
Proof.
  intros HL. unfold domain_by_domain. rewrite <- flat_map_concat_map.
  assert (G : forall ds, NoDup ds -> (forall d, In d ds -> is_target d = true) ->
     length (flat_map (fun d => rows_of (Z.eqb d) sd xs) ds) = how_many (fun z => existsb (Z.eqb z) ds) sd).
  { induction ds as [|d ds IH]; intros ND HT.
    - simpl. symmetry. apply how_many_0. reflexivity.
    - cbn [flat_map]. rewrite app_length, rows_of_length by auto. inversion ND; subst. rewrite IH by (auto; intros; apply HT; now right).
      clear -H1. induction sd as [|z sd IH]; [reflexivity|]. unfold how_many in *. cbn [existsb] in *. cbn [filter].
      rewrite (Z.eqb_sym d z). destruct (Z.eqb_spec z d) as [->|N]; cbn [orb].
      + assert (existsb (Z.eqb d) ds = false) as ->.
        { destruct (existsb (Z.eqb d) ds) eqn:E; auto. apply existsb_exists in E as (w & W & Ew). apply Z.eqb_eq in Ew. now subst. }
        cbn [length]. lia.
      + destruct (existsb (Z.eqb z) ds); cbn [length]; lia. }
  rewrite G.
  - assert (E : forall sd' : list Z, incl sd' sd -> how_many (fun z => existsb (Z.eqb z) (filter is_target (unique sd))) sd' = how_many is_target sd').
    { induction sd' as [|z sd' IH]; intros I; [reflexivity|]. unfold how_many in *. cbn [filter].
      assert (existsb (Z.eqb z) (filter is_target (unique sd)) = is_target z) as ->.
      { destruct (is_target z) eqn:T.
        - apply existsb_exists. exists z. split; [|apply Z.eqb_refl]. apply filter_In. split; auto. apply (proj2 (unique_In _ _)). apply I. now left.
        - destruct (existsb _ _) eqn:E; auto. apply existsb_exists in E as (w & W & Ew). apply Z.eqb_eq in Ew. subst w.
          apply filter_In in W as [_ W]. congruence. }
      assert (J : incl sd' sd) by (intros w Hw; apply I; now right). specialize (IH J). destruct (is_target z); cbn [length]; lia. }
    apply E, incl_refl.
  - apply NoDup_filter, unique_NoDup.
  - intros d Hd. now apply filter_In in Hd.
Qed.
