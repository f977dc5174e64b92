(** Theorem C222: the ways of writing domain labels. *)
From Coq Require Import List ZArith QArith Qabs Bool Arith Lia Permutation.
From Verif Require Import Np NpFacts Labels UtilsModel DomArgModel.
Import ListNotations.
Local Open Scope nat_scope.
Local Open Scope list_scope.

(** Specification: whole numbers as entries of an array of integers or floats; the labels an int32 can hold. *)
Definition entries (zs : list Z) : list val := map (fun z => VNum (inject_Z z)) zs.
Definition fits (zs : list Z) : Prop := Forall (fun z => - 2 ^ 31 <= z < 2 ^ 31)%Z zs.

(** * Helpers *)
Lemma int32_fits z : (- 2 ^ 31 <= z < 2 ^ 31)%Z -> int32 (VNum (inject_Z z)) = z.
Proof. intros H. cbn [int32 inject_Z Qnum Qden]. rewrite Z.quot_1_r. unfold wrap32. rewrite Z.mod_small; lia. Qed.
Lemma entries_finite zs : forallb is_finite (entries zs) = true.
Proof. apply forallb_forall. intros v I. apply in_map_iff in I as (z & <- & _). reflexivity. Qed.
Lemma to_int32_fits zs : fits zs -> to_int32 (entries zs) = if length zs =? 0 then Err ValueError else Ok zs.
Proof.
  intros H. unfold to_int32. rewrite entries_finite. unfold entries at 1. rewrite map_length. destruct (length zs =? 0); [reflexivity|]. f_equal.
  unfold entries. rewrite map_map. rewrite <- (map_id zs) at 2. apply map_ext_in. intros z I. apply int32_fits. unfold fits in H. rewrite Forall_forall in H. auto.
Qed.
Lemma source_indices_fits zs : fits zs -> source_indices (entries zs) = extract_source_indices zs.
Proof. intros H. unfold source_indices, extract_source_indices. rewrite (to_int32_fits zs H). destruct (length zs =? 0); reflexivity. Qed.
Lemma val_same_Z a b : val_same (VNum (inject_Z a)) (VNum (inject_Z b)) = (a =? b)%Z.
Proof.
  cbn. unfold Qeq_bool. cbn. rewrite !Z.mul_1_r. unfold Zeq_bool. destruct (Z.compare_spec a b); symmetry; [apply Z.eqb_eq|apply Z.eqb_neq|apply Z.eqb_neq]; lia.
Qed.
Fixpoint distinctZ (l : list Z) : list Z := match l with [] => [] | x :: l' => if existsb (Z.eqb x) l' then distinctZ l' else x :: distinctZ l' end.
Lemma existsb_entries x l : existsb (val_same (VNum (inject_Z x))) (entries l) = existsb (Z.eqb x) l.
Proof. induction l as [|y l IH]; [reflexivity|]. cbn [entries map existsb]. unfold entries in IH. now rewrite IH, val_same_Z. Qed.
Lemma distinct_entries l : distinct (entries l) = entries (distinctZ l).
Proof.
  induction l as [|x l IH]; [reflexivity|]. cbn [entries map distinct distinctZ]. fold (entries l). rewrite existsb_entries.
  destruct (existsb (Z.eqb x) l); [exact IH|]. cbn [entries map]. now rewrite IH.
Qed.
Lemma distinctZ_In l x : In x (distinctZ l) <-> In x l.
Proof.
  induction l as [|y l IH]; [tauto|]. cbn [distinctZ]. destruct (existsb (Z.eqb y) l) eqn:E.
  - rewrite IH. split; [now right|]. intros [->|H]; [|exact H]. apply existsb_exists in E as (z & I & K). apply Z.eqb_eq in K. now subst.
  - cbn. now rewrite IH.
Qed.
Lemma distinctZ_NoDup l : NoDup (distinctZ l).
Proof.
  induction l as [|y l IH]; [constructor|]. cbn [distinctZ]. destruct (existsb (Z.eqb y) l) eqn:E; [exact IH|]. constructor; [|exact IH].
  rewrite distinctZ_In. intros I. assert (existsb (Z.eqb y) l = true); [|congruence]. apply existsb_exists. exists y. split; [exact I|apply Z.eqb_refl].
Qed.
Lemma distinct_count l : length (distinct (entries l)) = length (unique l).
Proof.
  rewrite distinct_entries. unfold entries. rewrite map_length. apply Permutation_length, NoDup_Permutation; [apply distinctZ_NoDup|apply unique_NoDup|].
  intros x. now rewrite distinctZ_In, unique_In.
Qed.
Lemma select_entries m l : select m (entries l) = entries (select m l).
Proof. revert l. induction m as [|b m IH]; intros [|x l]; try reflexivity. cbn. destruct b; cbn; [f_equal|]; apply IH. Qed.
Lemma abs_entries l : map val_abs (entries l) = entries (map Z.abs l).
Proof. unfold entries. rewrite !map_map. reflexivity. Qed.
Lemma flags_entries f l : given_flags f (source_mask l) (entries l) = (r <- check_flags f l ;; Ok (entries r)).
Proof.
  unfold given_flags, check_flags, n_unique_where. rewrite !select_entries, !distinct_count.
  assert (E : length (distinct (map val_abs (distinct (entries l)))) = length (unique (map Z.abs (unique l)))).
  { rewrite distinct_entries, abs_entries, distinct_count. f_equal. apply unique_ext. intros x. rewrite !in_map_iff.
    split; intros (y & <- & I); exists y; (split; [reflexivity|]); [apply unique_In, distinctZ_In, I|apply distinctZ_In, unique_In, I]. }
  rewrite E. unfold raise_if. repeat (destruct (_ && _); [reflexivity|]). reflexivity.
Qed.
Lemma allowed_entries f l : given_allowed f (entries l) = check_allow_domains f l.
Proof.
  unfold given_allowed, check_allow_domains. destruct (f_domains f) as [ds|]; [|reflexivity].
  set (P := fun d : Z => existsb (adom_eqb (ADom d)) ds || existsb (adom_eqb (if (0 <=? d)%Z then APosInf else ANegInf)) ds).
  assert (Q : forall d, existsb (fun a => match a with ADom z => val_same (VNum (inject_Z d)) (VNum (inject_Z z)) | _ => false end) ds
                        || existsb (adom_eqb (if val_ltb_q (VNum (inject_Z d)) 0 then ANegInf else APosInf)) ds = P d).
  { intros d. unfold P. f_equal.
    - clear. induction ds as [|a ds IH]; [reflexivity|]. cbn [existsb]. rewrite IH. f_equal. destruct a; cbn [adom_eqb]; try reflexivity. apply val_same_Z.
    - replace (val_ltb_q (VNum (inject_Z d)) 0) with (negb (0 <=? d)%Z); [destruct (0 <=? d)%Z; reflexivity|].
      cbn. unfold Qle_bool. cbn. now rewrite Z.mul_1_r. }
  transitivity (forallb P l).
  - clear - Q. unfold entries. induction l as [|x l IH]; [reflexivity|]. cbn [map forallb]. now rewrite IH, Q.
  - destruct (forallb P l) eqn:E; symmetry.
    + rewrite forallb_forall in E. apply forallb_forall. intros x I. apply E. now apply unique_In.
    + apply not_true_is_false. intros K. rewrite forallb_forall in K. assert (forallb P l = true); [|congruence]. apply forallb_forall. intros x I. apply K. now apply unique_In.
Qed.

(** * Arrays of integers or floats, a number, and nothing *)
Theorem C222_arrays : forall zs, fits zs ->
  source_indices (entries zs) = extract_source_indices zs /\ domains_indices (entries zs) = extract_domains_indices zs /\
  (forall A (xs : list A), split_given xs (entries zs) = (p <- source_target_split [Some xs] zs ;; match p with [Some s; Some t] => Ok (s, t) | _ => Err ValueError end)) /\
  (forall n f, check_X_given n (GArray (entries zs)) f = (r <- check_X_domain n (SDArr zs) f ;; Ok (entries r))) /\
  (forall n y masks f, check_X_y_given n y (GArray (entries zs)) masks f = (r <- check_X_y_domain n y (SDArr zs) masks f ;; Ok (entries r))).
Proof.
  intros zs H. pose proof (source_indices_fits zs H) as S. split; [exact S|]. split.
  { unfold domains_indices. rewrite (to_int32_fits zs H). unfold extract_domains_indices. destruct (length zs =? 0) eqn:E; [reflexivity|]. cbn [bind]. now rewrite E. }
  assert (M : forall m, extract_source_indices zs = Ok m -> m = source_mask zs).
  { intros m. unfold extract_source_indices. destruct (length zs =? 0); [discriminate|congruence]. }
  split; [|split].
  - intros A xs. unfold split_given, source_target_split, split_gen. rewrite S. cbn [length Nat.eqb raise_if].
    destruct (extract_source_indices zs) as [m|]; [|reflexivity]. cbn [bind mapM split_one].
    destruct (np_select m xs); [|reflexivity]. cbn [bind]. destruct (np_select (map negb m) xs); reflexivity.
  - intros n f. unfold check_X_given, check_X_domain. destruct (n =? 0); [reflexivity|]. cbn [bind]. rewrite S.
    destruct (extract_source_indices zs) as [m|] eqn:E; [|reflexivity]. cbn [bind index_given]. rewrite (M _ eq_refl). unfold entries at 1. rewrite map_length.
    destruct (negb (length zs =? n)); [reflexivity|]. rewrite allowed_entries. destruct (negb _); [reflexivity|]. apply flags_entries.
  - intros n y masks f. unfold check_X_y_given, check_X_y_domain. destruct (n =? 0); [reflexivity|]. destruct (length y =? 0); [reflexivity|].
    destruct (_ && _); [reflexivity|]. destruct (negb (n =? length y)); [reflexivity|]. cbn [bind]. rewrite S.
    destruct (extract_source_indices zs) as [m|] eqn:E; [|reflexivity]. cbn [bind]. rewrite (M _ eq_refl). apply flags_entries.
Qed.
Theorem C222_scalar : forall n z f y masks, (- 2 ^ 31 <= z < 2 ^ 31)%Z -> length y = n ->
  check_X_given n (GScalar (VNum (inject_Z z))) f = (r <- check_X_domain n (SDScalar z) f ;; Ok (entries r)) /\
  check_X_y_given n y (GScalar (VNum (inject_Z z))) masks f = (r <- check_X_y_domain n y (SDScalar z) masks f ;; Ok (entries r)).
Proof.
  intros n z f y masks H L.
  assert (F : fits (repeat z n)) by (apply Forall_forall; intros x I; apply repeat_spec in I as ->; exact H).
  assert (E : repeat (VNum (inject_Z z)) n = entries (repeat z n)) by (clear; unfold entries; induction n as [|n IH]; [reflexivity|]; cbn; now rewrite IH).
  destruct (C222_arrays _ F) as (_ & _ & _ & A & B). split.
  - specialize (A n f). unfold check_X_given, check_X_domain in *. cbn [bind index_given] in *. rewrite E. exact A.
  - specialize (B n y masks f). unfold check_X_y_given, check_X_y_domain in *. rewrite L in *. cbn [bind] in *. rewrite E. exact B.
Qed.

(** * Lists *)
(** A list is split like an array, but whatever check accepts the labels as an array refuses them as a list, whatever the options; merging refuses it too. *)
Theorem C222_list_refuted : forall zs n y masks f r, fits zs ->
  (check_X_domain n (SDArr zs) f = Ok r -> check_X_given n (GArray (entries zs)) f = Ok (entries r) /\ check_X_given n (GList (entries zs)) f = Err TypeError) /\
  (check_X_y_domain n y (SDArr zs) masks f = Ok r -> check_X_y_given n y (GArray (entries zs)) masks f = Ok (entries r) /\ check_X_y_given n y (GList (entries zs)) masks f = Err TypeError) /\
  (forall arrays m, source_target_merge arrays (Some zs) = Ok m -> merge_given arrays (GList (entries zs)) = Err AttributeError).
Proof.
  intros zs n y masks f r H. destruct (C222_arrays _ H) as (S & _ & _ & A & B). split; [|split].
  - intros E. rewrite A, E. split; [reflexivity|]. specialize (A n f). rewrite E in A. unfold check_X_given in *. cbn [bind] in *.
    destruct (n =? 0); [discriminate|]. destruct (source_indices (entries zs)); [|discriminate]. cbn [bind] in *.
    destruct (negb _); [discriminate|]. destruct (negb _); [discriminate|]. reflexivity.
  - intros E. rewrite B, E. split; [reflexivity|]. specialize (B n y masks f). rewrite E in B. unfold check_X_y_given in *.
    destruct (n =? 0); [discriminate|]. destruct (length y =? 0); [discriminate|]. destruct (_ && _); [discriminate|]. destruct (negb _); [discriminate|].
    destruct (source_indices (entries zs)); [|discriminate]. reflexivity.
  - intros arrays m E. unfold source_target_merge in E. unfold merge_given. destruct (_ <? 2); [discriminate|]. destruct (negb _); [discriminate|].
    destruct (mapM check_pair _); [|discriminate]. reflexivity.
Qed.

(** * Labels beyond the range of int32 *)
(** Every source domain numbered from 2^31 to 2^32 - 1 is taken for a target. *)
Theorem C222_large_role_refuted : forall z A (x : A), (2 ^ 31 <= z < 2 ^ 32)%Z ->
  source_indices (entries [z]) = Ok [false] /\ split_given [x] (entries [z]) = Ok ([], [x]) /\ extract_source_indices [z] = Ok [true].
Proof.
  intros z A x H.
  assert (E : source_indices (entries [z]) = Ok [false]).
  { unfold source_indices, to_int32. cbn [entries map length Nat.eqb forallb is_finite andb bind int32 inject_Z Qnum Qden]. rewrite Z.quot_1_r. do 2 f_equal. apply Z.leb_gt.
    unfold wrap32. replace ((z + 2 ^ 31) mod 2 ^ 32)%Z with (z - 2 ^ 31)%Z; [lia|]. apply (Z.mod_unique _ _ 1); lia. }
  split; [exact E|]. split; [|unfold extract_source_indices, source_mask; cbn; do 2 f_equal; apply Z.leb_le; lia].
  unfold split_given. rewrite E. reflexivity.
Qed.
(** Two different domains whose numbers differ by 2^32 become one. *)
Theorem C222_large_merged_refuted : forall z, (- 2 ^ 31 <= z < 2 ^ 31)%Z -> domains_indices (entries [z; z + 2 ^ 32]%Z) = Ok [(z, [0; 1])].
Proof.
  intros z H. unfold domains_indices, to_int32. cbn [entries map length Nat.eqb forallb is_finite andb bind]. rewrite (int32_fits z H).
  assert (E : int32 (VNum (inject_Z (z + 2 ^ 32))) = z).
  { cbn [int32 inject_Z Qnum Qden]. rewrite Z.quot_1_r. unfold wrap32. replace (z + 2 ^ 32 + 2 ^ 31)%Z with ((z + 2 ^ 31) + 1 * 2 ^ 32)%Z by lia. rewrite Z.mod_add by lia. rewrite Z.mod_small; lia. }
  rewrite E. unfold extract_domains_indices. cbn [length Nat.eqb]. unfold unique. cbn [fold_right insert_uniq]. rewrite Z.ltb_irrefl, Z.eqb_refl. cbn [map]. rewrite Z.eqb_refl. reflexivity.
Qed.

(** * Examples *)
Example C222_ex : fits [3; -2; 7]%Z /\ check_X_given 3 (GArray (entries [3; -2; 7]%Z)) (mkFlags None true true true true true true) = Ok (entries [3; -2; 7]%Z) /\
  check_X_given 3 (GList (entries [3; -2; 7]%Z)) (mkFlags None true true true true true true) = Err TypeError.
Proof. split; [repeat constructor; lia|]. split; reflexivity. Qed.
