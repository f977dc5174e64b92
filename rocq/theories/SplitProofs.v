(** Lemmas for the splitters. *)
From Coq Require Import List ZArith QArith Qround Bool Arith Lia Lqa Sorting.Permutation Sorting.Sorted.
From Verif Require Import Np NpFacts Labels Spec SpecFacts UtilsModel UtilsSpec UtilsProofs UtilsProofs2 SelectModel
  SplitModel SplitSpec.
Import ListNotations.
Local Open Scope nat_scope.

(** ** Sizes *)

Lemma ceil_spec q k : (0 <= q)%Q -> is_ceil q k <-> Z.of_nat k = Qceiling q.
Proof.
  intros Hq. unfold is_ceil. split.
  - intros [H1 H2].
    assert (Qceiling q <= Z.of_nat k)%Z.
    { rewrite <- (Qceiling_Z (Z.of_nat k)). now apply Qceiling_resp_le. }
    assert (Z.of_nat k - 1 < Qceiling q)%Z; [|lia].
    { rewrite Zlt_Qlt. eapply Qlt_le_trans; [|apply Qle_ceiling].
      unfold Zminus. rewrite inject_Z_plus, inject_Z_opp. exact H1. }
  - intros ->. split; [|apply Qle_ceiling].
    pose proof (Qceiling_lt q) as H. unfold Zminus in H. rewrite inject_Z_plus, inject_Z_opp in H. exact H.
Qed.

Lemma floor_spec q k : is_floor q k <-> Z.of_nat k = Qfloor q.
Proof.
  unfold is_floor. split.
  - intros [H1 H2].
    assert (Z.of_nat k <= Qfloor q)%Z.
    { rewrite <- (Qfloor_Z (Z.of_nat k)). now apply Qfloor_resp_le. }
    assert (Qfloor q < Z.of_nat k + 1)%Z; [|lia].
    { rewrite Zlt_Qlt. eapply Qle_lt_trans; [apply Qfloor_le|]. rewrite inject_Z_plus. exact H2. }
  - intros ->. split; [apply Qfloor_le|].
    pose proof (Qlt_floor q) as H. rewrite inject_Z_plus in H. exact H.
Qed.

Lemma inject_nonneg n : (0 <= inject_Z (Z.of_nat n))%Q.
Proof. change 0%Q with (inject_Z 0). rewrite <- Zle_Qle. lia. Qed.

Lemma Qle_bool_false a b : Qle_bool a b = false <-> (b < a)%Q.
Proof.
  split; intros H.
  - apply Qnot_le_lt. intros C. apply Qle_bool_iff in C. congruence.
  - destruct (Qle_bool a b) eqn:E; auto. apply Qle_bool_iff in E. exfalso. eapply Qlt_not_le; eauto.
Qed.

Lemma sz_bad_false n s : sz_bad n s = false <-> in_range_size n s.
Proof.
  destruct s as [|z|q]; simpl; [tauto| |].
  - rewrite orb_false_iff, Z.leb_gt, Z.leb_gt. lia.
  - rewrite orb_false_iff, !Qle_bool_false. tauto.
Qed.

Lemma ceil_bounds q n : (0 < q)%Q -> (q < 1)%Q -> 0 < n ->
  (0 < Qceiling (q * inject_Z (Z.of_nat n)) <= Z.of_nat n)%Z.
Proof.
  intros H1 H2 Hn.
  assert (Hp : (0 < inject_Z (Z.of_nat n))%Q) by (change 0%Q with (inject_Z 0); rewrite <- Zlt_Qlt; lia).
  split.
  - rewrite Zlt_Qlt. eapply Qlt_le_trans; [|apply Qle_ceiling].
    change (inject_Z 0) with (0 * inject_Z (Z.of_nat n))%Q. now apply Qmult_lt_compat_r.
  - rewrite <- (Qceiling_Z (Z.of_nat n)) at 2. apply Qceiling_resp_le.
    setoid_replace (inject_Z (Z.of_nat n)) with (1 * inject_Z (Z.of_nat n))%Q at 2 by ring.
    apply Qmult_le_compat_r; [apply Qlt_le_weak; auto|apply Qlt_le_weak; auto].
Qed.

Lemma floor_bounds q n : (0 < q)%Q -> (q < 1)%Q -> 0 < n ->
  (0 <= Qfloor (q * inject_Z (Z.of_nat n)) < Z.of_nat n)%Z.
Proof.
  intros H1 H2 Hn.
  assert (Hp : (0 < inject_Z (Z.of_nat n))%Q) by (change 0%Q with (inject_Z 0); rewrite <- Zlt_Qlt; lia).
  split.
  - change 0%Z with (Qfloor (inject_Z 0)) at 1. apply Qfloor_resp_le. change (inject_Z 0) with 0%Q.
    apply Qmult_le_0_compat; apply Qlt_le_weak; auto.
  - rewrite Zlt_Qlt. eapply Qle_lt_trans; [apply Qfloor_le|].
    setoid_replace (inject_Z (Z.of_nat n)) with (1 * inject_Z (Z.of_nat n))%Q at 2 by ring.
    now apply Qmult_lt_compat_r.
Qed.

Lemma possible_default n tr : possible n SzNone tr ->
  in_range_size n tr.
Proof. intros [_ [H _]]. exact H. Qed.

Lemma qceil_0 q : (q == 0)%Q -> Qceiling q = 0%Z.
Proof. intros ->. reflexivity. Qed.

(** The effective test size. *)
Definition eff_test (ts tr : size_arg) : size_arg :=
  if sz_is_none ts && sz_is_none tr then SzFrac (1 # 10) else ts.

Lemma eff_test_range n ts tr : in_range_size n (eff_test ts tr) <-> in_range_size n ts.
Proof.
  unfold eff_test. destruct ts; simpl; try tauto. destruct tr; simpl; try tauto.
  split; auto. intros _. split; reflexivity.
Qed.

Ltac q_nonneg := apply Qmult_le_0_compat; [first [apply Qlt_le_weak; assumption | discriminate]|apply inject_nonneg].
Ltac fin_sizes Hn' B4 :=
  repeat match goal with H : (0 < ?q /\ ?q < 1)%Q |- _ => destruct H end;
  repeat match goal with
       | H1 : (0 < ?q)%Q, H2 : (?q < 1)%Q |- _ =>
           lazymatch goal with
           | _ : (0 < Qceiling (q * _) <= _)%Z |- _ => fail
           | _ => pose proof (ceil_bounds q _ H1 H2 Hn'); pose proof (floor_bounds q _ H1 H2 Hn')
           end
       end;
  try rewrite negb_false_iff in B4; try (apply Qle_bool_iff in B4);
  repeat match goal with
       | |- context [is_ceil (times ?q ?n) ?z] =>
           rewrite (ceil_spec (times q n)) by (unfold times; q_nonneg)
       | |- context [is_floor (times ?q ?n) ?z] => rewrite (floor_spec (times q n))
       end; unfold times;
  repeat split; auto; try discriminate; try lia; try reflexivity;
  try (rewrite Qplus_comm; assumption).

Lemma ok_pair_inj {A B} (a c : A) (b d : B) : Ok (a, b) = Ok (c, d) -> a = c /\ b = d.
Proof. intros H. inversion H. auto. Qed.

Lemma validate_ok n ts tr a b : validate_shuffle_split n ts tr = Ok (a, b) ->
  possible n ts tr /\ sizes n ts tr a b /\ 0 < b.
Proof.
  unfold validate_shuffle_split. fold (eff_test ts tr).
  destruct (sz_bad n (eff_test ts tr)) eqn:B1; [discriminate|].
  destruct (sz_bad n tr) eqn:B2; [discriminate|].
  apply sz_bad_false in B1, B2.
  assert (B3 := proj1 (eff_test_range n ts tr) B1).
  set (bb := match tr with SzFrac _ => _ | _ => _ end). destruct bb eqn:B4; [discriminate|]. subst bb.
  destruct (Nat.eq_dec n 0) as [->|Hn].
  { (* no sample: always an error *)
    intros H. exfalso.
    assert (Z0 : forall q, Qceiling (q * inject_Z (Z.of_nat 0)) = 0%Z) by (intros q; apply qceil_0; simpl; ring).
    assert (Z1 : forall q, Qfloor (q * inject_Z (Z.of_nat 0)) = 0%Z).
    { intros q. assert (E : (q * inject_Z (Z.of_nat 0) == 0)%Q) by (simpl; ring). rewrite E. reflexivity. }
    unfold eff_test in *.
    destruct ts as [|zt|qt], tr as [|zr|qr]; cbn [sz_is_none andb in_range_size] in *;
      rewrite ?Z0, ?Z1 in H; simpl in *; try lia; try discriminate. }
  assert (Hn' : 0 < n) by lia.
  unfold eff_test in *.
  destruct ts as [|zt|qt], tr as [|zr|qr]; cbn [sz_is_none andb in_range_size] in *;
    match goal with |- context [(?x <? ?y)%Z] => destruct (Z.ltb_spec x y) as [L|L]; [discriminate|] end;
    match goal with |- context [(?x =? 0)%Z] => destruct (Z.eqb_spec x 0) as [E|E]; [discriminate|] end;
    intros H; apply ok_pair_inj in H; destruct H as [<- <-]; unfold possible, sizes; cbn [in_range_size].
  all: fin_sizes Hn' B4.
Qed.

Lemma is_ceil_unique q a b : is_ceil q a -> is_ceil q b -> a = b.
Proof.
  intros [H1 H2] [H3 H4].
  assert (Z.of_nat a - 1 < Z.of_nat b)%Z.
  { rewrite Zlt_Qlt. unfold Zminus. rewrite inject_Z_plus, inject_Z_opp. change (inject_Z 1) with 1%Q. lra. }
  assert (Z.of_nat b - 1 < Z.of_nat a)%Z.
  { rewrite Zlt_Qlt. unfold Zminus. rewrite inject_Z_plus, inject_Z_opp. change (inject_Z 1) with 1%Q. lra. }
  lia.
Qed.
Lemma is_floor_unique q a b : is_floor q a -> is_floor q b -> a = b.
Proof. rewrite !floor_spec. lia. Qed.

Lemma sizes_unique n ts tr a b a' b' : sizes n ts tr a b -> sizes n ts tr a' b' -> a = a' /\ b = b'.
Proof.
  intros (_ & _ & _ & H1 & H2 & H3) (_ & _ & _ & H1' & H2' & H3').
  assert (U := is_ceil_unique). assert (V := is_floor_unique).
  destruct ts as [|zt|qt], tr as [|zr|qr].
  - specialize (U _ _ _ (H3 eq_refl eq_refl) (H3' eq_refl eq_refl)). lia.
  - lia.
  - specialize (V _ _ _ H2 H2'). lia.
  - lia.
  - lia.
  - specialize (V _ _ _ H2 H2'). lia.
  - specialize (U _ _ _ H1 H1'). lia.
  - specialize (U _ _ _ H1 H1'). lia.
  - specialize (U _ _ _ H1 H1'). specialize (V _ _ _ H2 H2'). lia.
Qed.

Lemma validate_complete n ts tr a b : possible n ts tr -> sizes n ts tr a b ->
  validate_shuffle_split n ts tr = Ok (a, b).
Proof.
  intros (P1 & P2 & P3) HS.
  assert (HS0 := HS). destruct HS as (S1 & _ & S2 & S3 & S4 & S5).
  unfold validate_shuffle_split. fold (eff_test ts tr).
  assert (B1 := proj2 (eff_test_range n ts tr) P1).
  apply sz_bad_false in B1. rewrite B1. assert (B2 := proj2 (sz_bad_false n tr) P2). rewrite B2.
  assert (B4 : match tr with SzFrac a0 => match eff_test ts tr with SzFrac b0 => negb (Qle_bool (a0 + b0) 1) | _ => false end
               | _ => false end = false).
  { unfold eff_test. destruct ts as [|zt|qt], tr as [|zr|qr]; simpl; auto.
    apply negb_false_iff. apply Qle_bool_iff. rewrite Qplus_comm. exact P3. }
  rewrite B4. unfold eff_test.
  assert (C : forall q k, (0 < q)%Q -> is_ceil (times q n) k -> Qceiling (q * inject_Z (Z.of_nat n)) = Z.of_nat k).
  { intros q k Hq H. symmetry. apply ceil_spec in H; auto. unfold times; q_nonneg. }
  assert (F : forall q k, is_floor (times q n) k -> Qfloor (q * inject_Z (Z.of_nat n)) = Z.of_nat k).
  { intros q k H. symmetry. now apply floor_spec in H. }
  destruct ts as [|zt|qt], tr as [|zr|qr]; cbn [sz_is_none andb in_range_size] in *;
    repeat match goal with H : (0 < ?q /\ ?q < 1)%Q |- _ => destruct H end;
    rewrite ?(C (1 # 10) b), ?(C qt b), ?(F qr a) by (try assumption; try reflexivity; auto);
    match goal with |- context [(?x <? ?y)%Z] => destruct (Z.ltb_spec x y) as [L|L]; [exfalso; lia|] end;
    match goal with |- context [(?x =? 0)%Z] => destruct (Z.eqb_spec x 0) as [E|E]; [exfalso; lia|] end;
    f_equal; f_equal; lia.
Qed.

Lemma validate_err n ts tr e : validate_shuffle_split n ts tr = Err e -> e = ValueError.
Proof.
  unfold validate_shuffle_split.
  repeat match goal with
  | |- (if ?b then _ else _) = _ -> _ => destruct b
  | |- (let (_, _) := ?x in _) = _ -> _ => destruct x
  | |- _ => congruence
  end.
Qed.

(** ** Permutations and partitions *)

Lemma take_perm {A} (p : list nat) (l : list A) : is_perm (length l) p ->
  exists l', np_take p l = Ok l' /\ Permutation l' l.
Proof.
  unfold is_perm. intros H. destruct l as [|a l0].
  - simpl in H. apply Permutation_sym, Permutation_nil in H. subst. exists []. split; auto.
  - set (l := a :: l0) in *.
    exists (map (fun i => nth i l a) p). split.
    + apply np_take_ok. apply Forall_forall. intros i Hi.
      apply (Permutation_in _ H) in Hi. apply in_seq in Hi. lia.
    + eapply perm_trans; [apply Permutation_map, H|].
      assert (E := np_take_seq l).
      rewrite (np_take_ok _ _ a) in E.
      * assert (E' := f_equal (fun r => match r with Ok x => x | Err _ => [] end) E). cbn beta iota in E'.
        rewrite E'. apply Permutation_refl.
      * apply Forall_forall. intros i Hi. apply in_seq in Hi. lia.
Qed.

Lemma take_perm_ok {A} (p : list nat) (l l' : list A) : is_perm (length l) p -> np_take p l = Ok l' -> Permutation l' l.
Proof. intros H E. destruct (take_perm p l H) as [l2 [E2 H2]]. congruence. Qed.

Lemma firstn_slice {A} b a (l : list A) : firstn b l ++ slice b (b + a) l = firstn (b + a) l.
Proof.
  unfold slice. replace (b + a - b) with a by lia.
  revert l; induction b as [|b IH]; intros l; simpl.
  - reflexivity.
  - destruct l as [|x l]; simpl; [now rewrite firstn_nil|]. now rewrite IH.
Qed.

Lemma slice_firstn_perm {A} b a (l : list A) : Permutation (slice b (b + a) l ++ firstn b l) (firstn (b + a) l).
Proof. rewrite <- (firstn_slice b a l). apply Permutation_app_comm. Qed.

Lemma slice_length {A} b a (l : list A) : a + b <= length l -> length (slice b (b + a) l) = a.
Proof. intros H. unfold slice. rewrite firstn_length, skipn_length. lia. Qed.

Lemma firstn_incl {A} k (l : list A) : incl (firstn k l) l.
Proof.
  intros x Hx. rewrite <- (firstn_skipn k l). apply in_or_app. now left.
Qed.
Lemma slice_incl {A} b e (l : list A) : incl (slice b e l) l.
Proof.
  intros x Hx. unfold slice in Hx. apply firstn_incl in Hx.
  rewrite <- (firstn_skipn b l). apply in_or_app. now right.
Qed.
Lemma firstn_NoDup {A} k (l : list A) : NoDup l -> NoDup (firstn k l).
Proof.
  revert k; induction l as [|a l IH]; intros [|k] H; simpl; try constructor; inversion H; subst; auto.
  intros C. apply firstn_incl in C. auto.
Qed.

Lemma how_many_perm {A} (p : A -> bool) l1 l2 : Permutation l1 l2 -> how_many p l1 = how_many p l2.
Proof.
  unfold how_many. induction 1; simpl; auto; try congruence.
  - destruct (p x); simpl; auto.
  - destruct (p x), (p y); simpl; auto.
Qed.

Lemma how_many_none {A} (p : A -> bool) l : (forall x, In x l -> p x = false) -> how_many p l = 0.
Proof. apply how_many_0. Qed.

Lemma NoDup_app_disjoint {A} (l1 l2 : list A) : NoDup l1 -> NoDup l2 -> (forall x, In x l1 -> In x l2 -> False) ->
  NoDup (l1 ++ l2).
Proof.
  induction 1 as [|a l1 Ha Hn IH]; simpl; auto. intros H2 Hd. constructor.
  - intros C. apply in_app_or in C as [C|C]; auto. eapply Hd; eauto.
  - apply IH; auto. intros x H1 H3. eapply Hd; eauto.
Qed.

Lemma label_nth (sd : list Z) i d : nth_error sd i = Some d -> label sd i = d.
Proof. intros H. unfold label. now apply nth_error_nth. Qed.

Lemma positions_label (p : Z -> bool) sd i : In i (positions p sd) <-> i < length sd /\ p (label sd i) = true.
Proof.
  rewrite positions_In. split.
  - intros [x [H1 H2]]. split; [apply nth_error_Some; congruence|]. now rewrite (label_nth _ _ _ H1).
  - intros [H1 H2]. destruct (nth_error sd i) as [x|] eqn:E.
    + exists x. split; auto. now rewrite <- (label_nth _ _ _ E).
    + apply nth_error_None in E. lia.
Qed.

(** The two-sided random partition. [S] and [T]: disjoint index lists of the two kinds. *)
Definition part2 (sp tp : list nat) (a b c d : nat) : list nat * list nat :=
  (slice b (b + a) sp ++ slice d (d + c) tp, firstn b sp ++ firstn d tp).

Lemma part2_perm sp tp a b c d :
  let (train, test) := part2 sp tp a b c d in
  Permutation (train ++ test) (firstn (b + a) sp ++ firstn (d + c) tp).
Proof.
  unfold part2.
  eapply perm_trans; [|apply Permutation_app; apply slice_firstn_perm].
  rewrite <- !app_assoc. apply Permutation_app_head.
  rewrite !app_assoc. apply Permutation_app_tail. apply Permutation_app_comm.
Qed.

Lemma count_side (f : nat -> bool) sp tp a b c d :
  (forall i, In i sp -> f i = true) -> (forall i, In i tp -> f i = false) ->
  a + b <= length sp ->
  let (train, test) := part2 sp tp a b c d in how_many f train = a /\ how_many f test = b.
Proof.
  intros H1 H2 L. unfold part2. rewrite !how_many_app.
  rewrite (how_many_all f (slice b (b + a) sp)) by (intros x Hx; apply slice_incl in Hx; auto).
  rewrite (how_many_all f (firstn b sp)) by (intros x Hx; apply firstn_incl in Hx; auto).
  rewrite (how_many_none f (slice d (d + c) tp)) by (intros x Hx; apply slice_incl in Hx; auto).
  rewrite (how_many_none f (firstn d tp)) by (intros x Hx; apply firstn_incl in Hx; auto).
  rewrite slice_length, firstn_length by auto. lia.
Qed.

Lemma count_side2 (f : nat -> bool) sp tp a b c d :
  (forall i, In i sp -> f i = false) -> (forall i, In i tp -> f i = true) ->
  c + d <= length tp ->
  let (train, test) := part2 sp tp a b c d in how_many f train = c /\ how_many f test = d.
Proof.
  intros H1 H2 L. unfold part2. rewrite !how_many_app.
  rewrite (how_many_none f (slice b (b + a) sp)) by (intros x Hx; apply slice_incl in Hx; auto).
  rewrite (how_many_none f (firstn b sp)) by (intros x Hx; apply firstn_incl in Hx; auto).
  rewrite (how_many_all f (slice d (d + c) tp)) by (intros x Hx; apply slice_incl in Hx; auto).
  rewrite (how_many_all f (firstn d tp)) by (intros x Hx; apply firstn_incl in Hx; auto).
  rewrite slice_length, firstn_length by auto. lia.
Qed.

Lemma part2_clean n sp tp a b c d :
  NoDup sp -> NoDup tp -> (forall x, In x sp -> In x tp -> False) ->
  (forall i, In i sp -> i < n) -> (forall i, In i tp -> i < n) ->
  let (train, test) := part2 sp tp a b c d in clean n train test.
Proof.
  intros N1 N2 D L1 L2. pose proof (part2_perm sp tp a b c d) as P.
  destruct (part2 sp tp a b c d) as [train test]. split.
  - eapply Permutation_NoDup; [apply Permutation_sym, P|].
    apply NoDup_app_disjoint; try now apply firstn_NoDup.
    intros x H1 H2. apply firstn_incl in H1, H2. eauto.
  - apply Forall_forall. intros i Hi. apply (Permutation_in _ P) in Hi.
    apply in_app_or in Hi as [Hi|Hi]; apply firstn_incl in Hi; auto.
Qed.

(** ** SourceTargetShuffleSplit *)

Lemma iter_indices_ok sd ts tr perms r :
  (forall p, In p perms -> is_perm (how_many is_source sd) (fst p) /\ is_perm (how_many is_target sd) (snd p)) ->
  iter_indices sd ts tr perms = Ok r ->
  exists a b c d,
    possible (how_many is_source sd) ts tr /\ sizes (how_many is_source sd) ts tr a b /\
    possible (how_many is_target sd) ts tr /\ sizes (how_many is_target sd) ts tr c d /\
    Forall2 (fun p q => exists sp tp, Permutation sp (positions is_source sd) /\ Permutation tp (positions is_target sd) /\
                        q = part2 sp tp a b c d) perms r.
Proof.
  intros HP H. unfold iter_indices in H.
  apply bind_ok in H as [m [Hm H]].
  unfold extract_source_indices in Hm. destruct (length sd =? 0); [discriminate|]. injection Hm as <-.
  assert (E1 : flatnonzero (source_mask sd) = positions is_source sd) by (now rewrite positions_flatnonzero).
  assert (E2 : flatnonzero (map negb (source_mask sd)) = positions is_target sd).
  { rewrite positions_flatnonzero. f_equal. unfold source_mask. rewrite map_map. apply map_ext. intros x.
    now rewrite is_target_negb. }
  rewrite E1, E2 in H.
  apply bind_ok in H as [[a b] [Hs H]]. apply bind_ok in H as [[c d] [Ht H]].
  rewrite positions_length in Hs, Ht.
  apply validate_ok in Hs as (Ps & Ss & _). apply validate_ok in Ht as (Pt & St & _).
  exists a, b, c, d. repeat (split; [assumption|]).
  apply mapM_ok_iff in H. clear - H HP.
  induction H as [|p q perms r H1 H IH]; constructor.
  - destruct (HP p (or_introl eq_refl)) as [P1 P2].
    unfold shuffle_partition in H1.
    apply bind_ok in H1 as [sp [Hsp H1]]. apply bind_ok in H1 as [tp [Htp H1]]. injection H1 as <-.
    exists sp, tp. repeat split.
    + eapply take_perm_ok; eauto. now rewrite positions_length.
    + eapply take_perm_ok; eauto. now rewrite positions_length.
  - apply IH. intros p' Hp'. apply HP. now right.
Qed.

Lemma iter_indices_succeeds sd ts tr perms a b c d :
  sd <> [] ->
  (forall p, In p perms -> is_perm (how_many is_source sd) (fst p) /\ is_perm (how_many is_target sd) (snd p)) ->
  possible (how_many is_source sd) ts tr -> sizes (how_many is_source sd) ts tr a b ->
  possible (how_many is_target sd) ts tr -> sizes (how_many is_target sd) ts tr c d ->
  exists r, iter_indices sd ts tr perms = Ok r.
Proof.
  intros Hne HP P1 S1 P2 S2. unfold iter_indices, extract_source_indices.
  destruct sd as [|x0 sd0]; [congruence|]. set (sd := x0 :: sd0) in *. simpl length. cbn [Nat.eqb bind].
  assert (E1 : flatnonzero (source_mask sd) = positions is_source sd) by (now rewrite positions_flatnonzero).
  assert (E2 : flatnonzero (map negb (source_mask sd)) = positions is_target sd).
  { rewrite positions_flatnonzero. f_equal. unfold source_mask. rewrite map_map. apply map_ext. intros x.
    now rewrite is_target_negb. }
  rewrite E1, E2, !positions_length.
  rewrite (validate_complete _ _ _ _ _ P1 S1), (validate_complete _ _ _ _ _ P2 S2). cbn [bind].
  clear - HP. induction perms as [|p perms IH]; [exists []; reflexivity|].
  destruct IH as [r Hr]; [intros; apply HP; now right|].
  destruct (HP p (or_introl eq_refl)) as [Q1 Q2].
  destruct (take_perm (fst p) (positions is_source sd)) as [sp [Hsp _]]; [now rewrite positions_length|].
  destruct (take_perm (snd p) (positions is_target sd)) as [tp [Htp _]]; [now rewrite positions_length|].
  cbn [mapM]. unfold shuffle_partition at 1. rewrite Hsp. cbn [bind]. rewrite Htp. cbn [bind]. rewrite Hr.
  eexists; reflexivity.
Qed.

Lemma part2_st sd ts tr sp tp a b c d :
  Permutation sp (positions is_source sd) -> Permutation tp (positions is_target sd) ->
  sizes (how_many is_source sd) ts tr a b -> sizes (how_many is_target sd) ts tr c d ->
  st_split sd ts tr (part2 sp tp a b c d).
Proof.
  intros Hs Ht S1 S2.
  assert (Is : forall i, In i sp -> i < length sd /\ is_source (label sd i) = true).
  { intros i Hi. apply positions_label. eapply Permutation_in; eauto. }
  assert (It : forall i, In i tp -> i < length sd /\ is_target (label sd i) = true).
  { intros i Hi. apply positions_label. eapply Permutation_in; eauto. }
  assert (It' : forall i, In i tp -> is_source (label sd i) = false).
  { intros i Hi. apply It in Hi as [_ Hi]. rewrite is_target_negb in Hi. now apply negb_true_iff in Hi. }
  assert (Is' : forall i, In i sp -> is_target (label sd i) = false).
  { intros i Hi. apply Is in Hi as [_ Hi]. rewrite is_target_negb, Hi. reflexivity. }
  assert (Ls : length sp = how_many is_source sd) by (rewrite (Permutation_length Hs); apply positions_length).
  assert (Lt : length tp = how_many is_target sd) by (rewrite (Permutation_length Ht); apply positions_length).
  assert (Ss := S1). assert (St := S2). destruct S1 as (_ & _ & B1 & _). destruct S2 as (_ & _ & B2 & _).
  assert (C := part2_clean (length sd) sp tp a b c d).
  assert (P := part2_perm sp tp a b c d).
  assert (K1 := count_side (fun i => is_source (label sd i)) sp tp a b c d).
  assert (K2 := count_side2 (fun i => is_target (label sd i)) sp tp a b c d).
  destruct (part2 sp tp a b c d) as [train test].
  split; [|split; [|split]].
  - apply C; auto.
    + eapply Permutation_NoDup; [apply Permutation_sym, Hs|apply positions_NoDup].
    + eapply Permutation_NoDup; [apply Permutation_sym, Ht|apply positions_NoDup].
    + intros x H1 H2. apply Is in H1 as [_ H1]. apply It' in H2. congruence.
    + intros i Hi. now apply Is.
    + intros i Hi. now apply It.
  - unfold exact_on, count_in. destruct K1 as [-> ->]; auto; [intros; now apply Is|lia].
  - unfold exact_on, count_in. destruct K2 as [-> ->]; auto; [intros; now apply It|lia].
  - intros Hc.
    assert (Es : a + b = how_many is_source sd).
    { destruct Ss as (_ & _ & _ & H1 & H2 & _). destruct Hc as [-> | ->]; [exact H1|exact H2]. }
    assert (Et : c + d = how_many is_target sd).
    { destruct St as (_ & _ & _ & H1 & H2 & _). destruct Hc as [-> | ->]; [exact H1|exact H2]. }
    eapply perm_trans; [apply P|].
    rewrite !firstn_all2 by lia.
    apply NoDup_Permutation.
    + apply NoDup_app_disjoint.
      * eapply Permutation_NoDup; [apply Permutation_sym, Hs|apply positions_NoDup].
      * eapply Permutation_NoDup; [apply Permutation_sym, Ht|apply positions_NoDup].
      * intros x H1 H2. apply Is in H1 as [_ H1]. apply It' in H2. congruence.
    + apply seq_NoDup.
    + intros i. rewrite in_seq, in_app_iff. split.
      * intros [Hi|Hi]; [apply Is in Hi|apply It in Hi]; lia.
      * intros Hi. destruct (is_source (label sd i)) eqn:E.
        -- left. eapply Permutation_in; [apply Permutation_sym, Hs|]. apply positions_label. split; auto; lia.
        -- right. eapply Permutation_in; [apply Permutation_sym, Ht|]. apply positions_label.
           rewrite is_target_negb, E. split; auto; lia.
Qed.

Lemma check_all_flags n sda r : check_X_domain n sda all_flags = Ok r <->
  0 < n /\ r = eff_domain n sda /\ length r = n.
Proof.
  rewrite check_X_domain_ok. unfold flags_accept, all_flags; simpl. intuition discriminate.
Qed.

Lemma source_target_shuffle_ok n sda ts tr perms r :
  let sd := eff_domain n sda in
  (forall p, In p perms -> is_perm (how_many is_source sd) (fst p) /\ is_perm (how_many is_target sd) (snd p)) ->
  source_target_shuffle_split n sda ts tr perms = Ok r ->
  length sd = n /\ length r = length perms /\ Forall (st_split sd ts tr) r.
Proof.
  intros sd HP H. unfold source_target_shuffle_split in H.
  apply bind_ok in H as [sd1 [H1 H]]. apply check_all_flags in H1 as (_ & -> & L1).
  apply bind_ok in H as [sd2 [H2 H]]. apply check_all_flags in H2 as (_ & -> & L2). simpl eff_domain in *.
  fold sd in L1, L2, H. apply (iter_indices_ok _ _ _ _ _ HP) in H as (a & b & c & d & P1 & S1 & P2 & S2 & F).
  split; auto. split.
  - clear -F. induction F; simpl; auto.
  - apply Forall_forall. intros q Hq. clear - F Hq S1 S2.
    induction F as [|p q' perms r (sp & tp & E1 & E2 & ->) F IH]; [easy|].
    destruct Hq as [<-|Hq]; auto. now apply part2_st.
Qed.
