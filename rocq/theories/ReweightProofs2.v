(** Proofs about the reweighting adapters, continued: kernels, neighbours, KMM. *)
From Coq Require Import String List ZArith Bool Arith Lia Reals Lra Permutation Psatz.
From Verif Require Import Np NpFacts Labels Spec SpecFacts UtilsModel UtilsSpec UtilsProofs UtilsProofs2 SelectModel
  RVec RVecFacts FWModel FWSpec FWProofs ReweightModel ReweightSpec ReweightProofs.
Import ListNotations.
Local Open Scope nat_scope.
Local Open Scope list_scope.

Lemma kernel_row {Row} (kern : Row -> Row -> R) x : forall centers alpha,
  dot (map (kern x) centers) alpha = kernel_sum kern alpha centers x.
Proof.
  induction centers as [|c cs IH]; intros [|a alpha]; try reflexivity.
  cbn [map]. rewrite dot_cons, IH. reflexivity.
Qed.

Lemma kernel_matvec {Row} (kern : Row -> Row -> R) Xs centers alpha :
  matvec (kernel_matrix Row kern Xs centers) alpha = map (kernel_sum kern alpha centers) Xs.
Proof. unfold matvec, kernel_matrix. rewrite map_map. apply map_ext. intros. apply kernel_row. Qed.

Lemma kernel_rows {Row} (kern : Row -> Row -> R) Xs centers :
  Forall (fun r => length r = length centers) (kernel_matrix Row kern Xs centers).
Proof. apply Forall_map, Forall_forall. intros. apply map_length. Qed.

Lemma nth_map_seq (f : nat -> R) k i : i < k -> nth i (map f (seq 0 k)) 0%R = f i.
Proof. intros H. rewrite nth_indep with (d' := f 0) by now rewrite map_length, seq_length. rewrite map_nth, seq_nth; auto. Qed.

Lemma col_means_nonneg k M : (forall r, In r M -> nonneg r) -> nonneg (col_means k M).
Proof.
  intros H. apply Forall_map, Forall_forall. intros j _. apply mean_nonneg. apply Forall_map, Forall_forall.
  intros r Hr. specialize (H r Hr). destruct (Nat.lt_ge_cases j (length r)).
  - now apply (proj1 (Forall_nth_R _ _) H).
  - rewrite nth_overflow by lia. lra.
Qed.

Lemma kernel_means_pos {Row} (kern : Row -> Row -> R) Xs centers x c :
  (forall a b, 0 <= kern a b)%R -> In x Xs -> In c centers -> (0 < kern x c)%R ->
  nonneg (col_means (length centers) (kernel_matrix Row kern Xs centers)) /\
  dot (col_means (length centers) (kernel_matrix Row kern Xs centers))
      (col_means (length centers) (kernel_matrix Row kern Xs centers)) <> 0%R.
Proof.
  intros Hk Hx Hc Hp. set (b := col_means _ _).
  assert (Nb : nonneg b).
  { apply col_means_nonneg. intros r Hr. apply in_map_iff in Hr as (y & <- & _). apply Forall_map, Forall_forall. auto. }
  split; [auto|].
  destruct (In_nth_error centers c Hc) as [j Hj].
  assert (Lj : j < length centers) by (apply nth_error_Some; congruence).
  assert (P : (0 < nth j b 0)%R).
  { unfold b, col_means. rewrite nth_map_seq by auto. unfold mean.
    apply Rmult_lt_0_compat.
    - assert (G : forall Xs', In x Xs' -> (0 < vsum (col (kernel_matrix Row kern Xs' centers) j))%R).
      { induction Xs' as [|y Xs' IH]; simpl; [easy|]. intros Hin.
        assert (Hnth : forall z, nth j (map (kern z) centers) 0%R = kern z c).
        { intros z. apply nth_error_nth. rewrite nth_error_map, Hj. reflexivity. }
        assert (Q : (0 <= vsum (col (kernel_matrix Row kern Xs' centers) j))%R).
        { apply vsum_nonneg. apply Forall_map, Forall_map, Forall_forall. intros z _. rewrite Hnth. auto. }
        unfold kernel_matrix, col in *. rewrite Hnth. destruct Hin as [->|Hin]; [lra|]. specialize (IH Hin). pose proof (Hk y c). lra. }
      now apply G.
    - apply Rinv_0_lt_compat. apply lt_0_INR. unfold col, kernel_matrix. rewrite !map_length. destruct Xs; [easy|simpl; lia]. }
  assert (Lb : j < length b) by (unfold b, col_means; now rewrite map_length, seq_length).
  enough (0 < dot b b)%R by lra. clear -Nb P Lb. revert j P Lb. induction Nb as [|t b Ht Nb IH]; intros j P Lb; simpl in Lb; [lia|].
  rewrite dot_cons. assert (0 <= dot b b)%R by now apply dot_nonneg. destruct j as [|j]; simpl in P.
  - nra.
  - specialize (IH j P ltac:(lia)). nra.
Qed.

(** Neighbours *)
Lemma mirror_take {A} (X : list A) idx d : Forall (fun i => i < length X) idx ->
  np_take_z (map (fun i => (- Z.of_nat i - 1)%Z) idx) X = Ok (map (fun i => nth (length X - 1 - i) X d) idx).
Proof.
  intros H. unfold np_take_z.
  assert (E : mapM (py_index (length X)) (map (fun i => (- Z.of_nat i - 1)%Z) idx) = Ok (map (fun i => length X - 1 - i) idx)).
  { induction H as [|i idx Hi H IH]; auto. cbn [map mapM]. rewrite IH. unfold py_index.
    destruct (0 <=? - Z.of_nat i - 1)%Z eqn:E1; [apply Z.leb_le in E1; lia|]. cbn [andb].
    destruct (- Z.of_nat i - 1 <? 0)%Z eqn:E2; [|apply Z.ltb_ge in E2; lia].
    destruct (- Z.of_nat (length X) <=? - Z.of_nat i - 1)%Z eqn:E3; [|apply Z.leb_gt in E3; lia]. cbn [andb bind].
    do 2 f_equal. lia. }
  rewrite E. cbn [bind]. rewrite np_take_ok with (d := d).
  - now rewrite map_map.
  - apply Forall_map. eapply Forall_impl; [|exact H]. simpl. intros; lia.
Qed.

Lemma count_occ_how_many (l : list nat) k : count_occ Nat.eq_dec l k = how_many (Nat.eqb k) l.
Proof.
  unfold how_many. induction l as [|x l IH]; simpl; auto. destruct (Nat.eq_dec x k) as [->|N].
  - rewrite Nat.eqb_refl. simpl. congruence.
  - rewrite (proj2 (Nat.eqb_neq k x)) by auto. auto.
Qed.

Lemma how_many_map' {A B} (p : B -> bool) (f : A -> B) l : how_many p (map f l) = how_many (fun x => p (f x)) l.
Proof. unfold how_many. induction l; simpl; auto. destruct (p (f a)); simpl; auto. Qed.

Lemma how_many_Permutation {A} (p : A -> bool) l l' : Permutation l l' -> how_many p l = how_many p l'.
Proof. unfold how_many. induction 1; simpl; auto; try (destruct (p x); simpl; lia). - destruct (p x), (p y); simpl; auto. - congruence. Qed.

Lemma sum_counts (l : list nat) n : Forall (fun i => i < n) l ->
  vsum (map (fun k => INR (how_many (Nat.eqb k) l)) (seq 0 n)) = INR (length l).
Proof.
  induction 1 as [|i l Hi H IH].
  - simpl. clear. assert (G : forall s, vsum (map (fun _ : nat => 0%R) (seq s n)) = 0%R) by (induction n; intros; simpl; auto; rewrite IHn; lra). apply G.
  - cbn [length]. rewrite S_INR, <- IH. clear IH H.
    assert (G : forall s m, (s <= i < s + m -> vsum (map (fun k => INR (how_many (Nat.eqb k) (i :: l))) (seq s m)) =
        (vsum (map (fun k => INR (how_many (Nat.eqb k) l)) (seq s m)) + 1)%R) /\
       (i < s \/ s + m <= i -> vsum (map (fun k => INR (how_many (Nat.eqb k) (i :: l))) (seq s m)) =
        vsum (map (fun k => INR (how_many (Nat.eqb k) l)) (seq s m)))).
    { intros s m. revert s. induction m as [|m IH]; intros s; split; intros Hr; try (simpl; lia); try reflexivity.
      - cbn [seq map vsum]. destruct (IH (S s)) as [I1 I2]. unfold how_many at 1. cbn [filter].
        destruct (Nat.eqb_spec s i) as [->|Ns].
        + cbn [length]. rewrite S_INR, I2 by lia. unfold how_many. lra.
        + rewrite I1 by lia. unfold how_many. lra.
      - cbn [seq map vsum]. destruct (IH (S s)) as [I1 I2]. unfold how_many at 1. cbn [filter].
        rewrite (proj2 (Nat.eqb_neq s i)) by lia. rewrite I2 by lia. unfold how_many. lra. }
    apply (G 0 n). lia.
Qed.

Lemma nth_rows_of_positions {A} (p : Z -> bool) sd (X : list A) d : length sd = length X ->
  rows_of p sd X = map (fun i => nth i X d) (positions p sd).
Proof.
  intros L. pose proof (np_take_flatnonzero (map p sd) X) as H. rewrite map_length in H. specialize (H L).
  rewrite np_take_ok with (d := d) in H.
  - injection H as H. rewrite rows_of_select, <- H. now rewrite positions_flatnonzero.
  - apply Forall_forall. intros i Hi. apply flatnonzero_lt in Hi. rewrite map_length in Hi. lia.
Qed.

Lemma NoDup_map_inj {A B} (f : A -> B) l : (forall x y, In x l -> In y l -> f x = f y -> x = y) -> NoDup l -> NoDup (map f l).
Proof.
  intros H N. induction N as [|x l Hx N IH]; simpl; constructor.
  - intros Hin. apply in_map_iff in Hin as (y & E & Hy). apply H in E; [subst; auto|right; auto|left; auto].
  - apply IH. intros a b Ha Hb. apply H; right; auto.
Qed.

Lemma mirrored_rows {A} sd (X : list A) d : length sd = length X -> mirrored sd ->
  Permutation (map (fun i => nth (length X - 1 - i) X d) (positions is_source sd)) (rows_of is_target sd X).
Proof.
  intros L HM. rewrite (nth_rows_of_positions is_target sd X d) by auto.
  rewrite <- (map_map (fun i => length X - 1 - i) (fun i => nth i X d)). apply Permutation_map.
  apply NoDup_Permutation.
  - apply NoDup_map_inj.
    + intros i j Hi Hj E. apply positions_In in Hi as (x & Hx & _). apply positions_In in Hj as (y & Hy & _).
      assert (i < length sd) by (apply nth_error_Some; congruence). assert (j < length sd) by (apply nth_error_Some; congruence). lia.
    + apply positions_NoDup.
  - apply positions_NoDup.
  - intros k. rewrite in_map_iff. split.
    + intros (i & <- & Hi). apply positions_In in Hi as (x & Hx & Sx). apply positions_In.
      assert (Hi : i < length sd) by (apply nth_error_Some; congruence).
      destruct (nth_error sd (length X - 1 - i)) as [e|] eqn:E; [|apply nth_error_None in E; lia].
      exists e. split; auto. rewrite <- L in E. rewrite <- (HM i x e Hx E). auto.
    + intros Hk. apply positions_In in Hk as (e & He & Te).
      assert (Hk : k < length sd) by (apply nth_error_Some; congruence).
      exists (length X - 1 - k). split; [lia|]. apply positions_In.
      destruct (nth_error sd (length X - 1 - k)) as [x|] eqn:E; [|apply nth_error_None in E; lia].
      exists x. split; auto. rewrite <- L in E. rewrite (HM (length sd - 1 - k) x e); auto.
      replace (length sd - 1 - (length sd - 1 - k)) with k by lia. auto.
Qed.

Lemma nn_placed sd sw w : length sw = how_many is_source sd ->
  np_setidx (flatnonzero (map is_source sd)) sw (repeat 1%R (length sd)) = Ok w ->
  length w = length sd /\ rows_of is_source sd w = sw /\ Forall (fun t => t = 1%R) (rows_of is_target sd w).
Proof.
  intros Hl H. rewrite np_setidx_flatnonzero in H.
  2:{ now rewrite map_length, repeat_length. }
  2:{ rewrite Hl. symmetry. apply count_map. }
  injection H as <-. split; [|split].
  - now rewrite place_length, repeat_length.
  - rewrite rows_of_select. apply place_select.
    + now rewrite map_length, repeat_length.
    + rewrite Hl. symmetry. apply count_map.
  - rewrite (rows_of_ext is_target (fun d => negb (is_source d))) by (intros; apply is_target_negb).
    rewrite rows_of_select. rewrite <- (map_map is_source negb). rewrite place_select_neg by now rewrite map_length, repeat_length.
    apply Forall_forall. intros t Ht. apply select_incl in Ht. apply repeat_spec in Ht. auto.
Qed.

(** KMM *)
Lemma opp_ones n : map Ropp (map Ropp (repeat 1%R n)) = repeat 1%R n.
Proof. rewrite map_map. induction n; simpl; auto. rewrite IHn. f_equal. lra. Qed.

Lemma Forall_rows_of {A} sd (w : list A) P : length sd = length w ->
  Forall P w <-> Forall P (rows_of is_source sd w) /\ Forall P (rows_of is_target sd w).
Proof.
  revert w. unfold rows_of. induction sd as [|d sd IH]; intros [|x w] L; simpl in L; try discriminate; simpl.
  - repeat split; auto.
  - specialize (IH w ltac:(lia)). rewrite (is_target_negb d). rewrite Forall_cons_iff, IH. destruct (is_source d); simpl; rewrite Forall_cons_iff; tauto.
Qed.

Lemma app_eq_len {A} (a a' b b' : list A) : length a = length a' -> a' ++ b' = a ++ b -> a = a' /\ b = b'.
Proof.
  revert a'. induction a as [|x a IH]; intros [|x' a'] L E; simpl in *; try discriminate; auto.
  injection E as -> E. destruct (IH a' ltac:(lia) E). subst. auto.
Qed.

Lemma F2_length {A B} (P : A -> B -> Prop) l m : Forall2 P l m -> length l = length m.
Proof. induction 1; simpl; auto. Qed.
