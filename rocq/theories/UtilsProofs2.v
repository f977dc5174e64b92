(** Proofs about label typing, masking of a missing half, domain checks and per-domain splits. *)
From Coq Require Import List ZArith QArith Bool Arith Lia Sorting.Permutation Sorting.Sorted.
From Verif Require Import Np NpFacts Labels Spec SpecFacts UtilsModel UtilsSpec UtilsProofs.
Import ListNotations.
Local Open Scope nat_scope.

(** ** Label typing *)

Lemma q_integral_iff q : q_integral q = true <-> exists z, (q == inject_Z z)%Q.
Proof.
  unfold q_integral. rewrite Z.eqb_eq. destruct q as [n d]. simpl. split.
  - intros H. exists (Z.quot n (Zpos d)). unfold Qeq, inject_Z. simpl.
    pose proof (Z.quot_rem' n (Zpos d)). rewrite H in H0. lia.
  - intros [z Hz]. unfold Qeq, inject_Z in Hz. simpl in Hz. rewrite Z.mul_1_r in Hz. subst n.
    apply Z.rem_mul. lia.
Qed.

Lemma is_integral_iff v : is_integral v = true <-> int_label v.
Proof.
  unfold int_label. destruct v as [q| |]; simpl.
  - rewrite q_integral_iff. split; [intros [z H]; now exists q, z|].
    intros [q' [z [H1 H2]]]. injection H1 as ->. eauto.
  - split; [easy|]. now intros [q [z [H _]]].
  - split; [easy|]. now intros [q [z [H _]]].
Qed.

Lemma is_finite_iff v : is_finite v = true <-> finite_label v.
Proof.
  unfold finite_label. destruct v as [q| |]; simpl; split; try easy; eauto; now intros [q' H].
Qed.

Lemma int_finite v : int_label v -> finite_label v.
Proof. intros [q [z [-> _]]]. now exists q. Qed.

Lemma concat_singletons {A} (l : list A) : concat (map (fun v => [v]) l) = l.
Proof. induction l; simpl; congruence. Qed.

Lemma existsb_nan l : existsb is_nan l = true <-> In VNan l.
Proof.
  rewrite existsb_exists. split.
  - intros [v [H1 H2]]. destruct v; try discriminate. auto.
  - intros H. now exists VNan.
Qed.

Lemma find_y_type_arr1 dt l :
  find_y_type (arr1 dt l) =
  if existsb is_nan l then Ok CONTINUOUS
  else if length l =? 0 then Err IndexError
  else if existsb (fun v => negb (is_integral v)) l then
         if forallb is_finite l then Ok CONTINUOUS else Err ValueError
       else Ok DISCRETE.
Proof.
  unfold find_y_type, arr1, a_len. cbn [a_rows a_tail]. rewrite concat_singletons, map_length. reflexivity.
Qed.

Lemma existsb_nonint l : existsb (fun v => negb (is_integral v)) l = true <-> Exists (fun v => ~ int_label v) l.
Proof.
  rewrite existsb_exists, Exists_exists. split; intros [v [H1 H2]]; exists v; split; auto.
  - rewrite <- is_integral_iff. destruct (is_integral v); easy.
  - rewrite <- is_integral_iff in H2. destruct (is_integral v); easy.
Qed.

Lemma find_y_type_discrete dt l : l <> [] -> discrete_labels l -> find_y_type (arr1 dt l) = Ok DISCRETE.
Proof.
  intros Hl Hd. rewrite find_y_type_arr1. unfold discrete_labels in Hd. rewrite Forall_forall in Hd.
  destruct (existsb is_nan l) eqn:E.
  { apply existsb_nan in E. apply Hd in E. destruct E as [q [z [E _]]]. discriminate. }
  destruct l as [|v0 l0]; [easy|]. remember (v0 :: l0) as l. replace (length l =? 0) with false by (subst l; reflexivity).
  destruct (existsb (fun v => negb (is_integral v)) l) eqn:E2; auto.
  apply existsb_nonint in E2. apply Exists_exists in E2 as [v [H1 H2]]. exfalso. auto.
Qed.

Lemma find_y_type_continuous dt l : continuous_labels l -> find_y_type (arr1 dt l) = Ok CONTINUOUS.
Proof.
  intros [H|[H1 H2]]; rewrite find_y_type_arr1.
  - apply existsb_nan in H. now rewrite H.
  - destruct (existsb is_nan l); auto. destruct (Nat.eqb_spec (length l) 0) as [E|E].
    { apply length_zero_iff_nil in E. subst. inversion H2. }
    apply existsb_nonint in H2. rewrite H2.
    replace (forallb is_finite l) with true; auto. symmetry. apply forallb_forall.
    intros v Hv. rewrite Forall_forall in H1. apply is_finite_iff. auto.
Qed.

Lemma find_y_type_inf dt l b : In (VInf b) l -> ~ In VNan l -> find_y_type (arr1 dt l) = Err ValueError.
Proof.
  intros H1 H2. rewrite find_y_type_arr1. rewrite <- existsb_nan in H2.
  destruct (existsb is_nan l); [easy|]. destruct (Nat.eqb_spec (length l) 0) as [E|E].
  { apply length_zero_iff_nil in E. subst. inversion H1. }
  assert (E1 : existsb (fun v => negb (is_integral v)) l = true) by (apply existsb_exists; now exists (VInf b)).
  assert (E2 : forallb is_finite l = false).
  { destruct (forallb is_finite l) eqn:F; auto. rewrite forallb_forall in F. apply F in H1. discriminate. }
  now rewrite E1, E2.
Qed.

(** Labels are exactly one of: empty, discrete, continuous, containing inf without NaN. *)
Lemma labels_cases l : l <> [] ->
  discrete_labels l \/ continuous_labels l \/ (~ In VNan l /\ exists b, In (VInf b) l).
Proof.
  intros Hl. destruct (existsb is_nan l) eqn:E1.
  { right; left; left. now apply existsb_nan. }
  assert (N : ~ In VNan l) by (rewrite <- existsb_nan; congruence).
  destruct (forallb is_finite l) eqn:E2.
  - rewrite forallb_forall in E2. destruct (existsb (fun v => negb (is_integral v)) l) eqn:E3.
    + right; left; right. split.
      * apply Forall_forall. intros v Hv. apply is_finite_iff. auto.
      * now apply existsb_nonint.
    + left. apply Forall_forall. intros v Hv. apply is_integral_iff.
      destruct (is_integral v) eqn:E4; auto.
      enough (existsb (fun v => negb (is_integral v)) l = true) by congruence.
      apply existsb_exists. exists v. now rewrite E4.
  - right; right. split; auto.
    assert (exists v, In v l /\ is_finite v = false) as [v [H1 H2]].
    { clear -E2. induction l as [|v l IH]; simpl in *; [discriminate|].
      destruct (is_finite v) eqn:E; [destruct IH as [w []]; eauto|eauto]. }
    destruct v; simpl in *; try discriminate; [contradiction|eauto].
Qed.

Lemma discrete_continuous_excl l : discrete_labels l -> continuous_labels l -> False.
Proof.
  intros Hd Hc. destruct l as [|v l].
  - destruct Hc as [[]|[_ H]]. inversion H.
  - pose proof (find_y_type_discrete DFloat (v :: l) ltac:(easy) Hd) as E1.
    rewrite (find_y_type_continuous DFloat _ Hc) in E1. discriminate.
Qed.

(** ** Filling a missing half *)

Lemma arr1_len dt l : a_len (arr1 dt l) = length l.
Proof. apply map_length. Qed.

Lemma arr1_size dt l : a_size (arr1 dt l) = length l.
Proof. unfold a_size. rewrite arr1_len. simpl. lia. Qed.

Lemma arr1_inj_rows dt rows (l : list val) : rows = map (fun v => [v]) l -> mkArr dt [] rows = arr1 dt l.
Proof. now intros ->. Qed.

Lemma rows_singletons sd out (s t : list val) :
  merged sd (map (fun v => [v]) s) (map (fun v => [v]) t) out ->
  exists m, out = map (fun v => [v]) m.
Proof.
  intros [H1 [H2 H3]].
  assert (F : Forall (fun r => exists v : val, r = [v]) out).
  { apply Forall_forall. intros r Hr.
    assert (P := rows_of_partition sd out (eq_sym H1)).
    apply (Permutation_in _ (Permutation_sym P)) in Hr. rewrite H2, H3, <- map_app in Hr.
    apply in_map_iff in Hr as [v [<- _]]. eauto. }
  clear -F. induction F as [|r out [v ->] _ [m ->]]; [now exists []|]. now exists (v :: m).
Qed.

Lemma map_singleton_inj {A} (l1 l2 : list A) : map (fun v => [v]) l1 = map (fun v => [v]) l2 -> l1 = l2.
Proof.
  revert l2; induction l1 as [|a l1 IH]; intros [|b l2] H; simpl in H; try discriminate; auto.
  injection H as -> H. f_equal; auto.
Qed.

Lemma merged_singletons sd (m s t : list val) :
  merged sd (map (fun v => [v]) s) (map (fun v => [v]) t) (map (fun v => [v]) m) ->
  length m = length sd /\ rows_of is_source sd m = s /\ rows_of is_target sd m = t.
Proof.
  intros [H1 [H2 H3]]. rewrite map_length in H1. rewrite !rows_of_map in *.
  apply map_singleton_inj in H2. apply map_singleton_inj in H3. auto.
Qed.

Lemma map_cast_singletons dt l : map (map (cast dt)) (map (fun v => [v]) l) = map (fun v => [v]) (map (cast dt) l).
Proof. rewrite !map_map. reflexivity. Qed.

Lemma fill_missing_arr1 dt l ty k : find_y_type (arr1 dt l) = Ok ty ->
  fill_missing (arr1 dt l) k = Ok (arr1 DFloat (repeat (mask_of ty) k)).
Proof.
  intros H. unfold fill_missing. rewrite H. cbn [bind]. f_equal. unfold arr1. cbn [a_tail]. f_equal.
  simpl. induction k; simpl; f_equal; auto.
Qed.

Lemma map_repeat' {A B} (f : A -> B) x n : map f (repeat x n) = repeat (f x) n.
Proof. induction n; simpl; congruence. Qed.

Lemma wf_vals_cast dt l : wf_vals dt l -> map (cast dt) l = l.
Proof.
  intros H. destruct dt.
  - specialize (H eq_refl). induction H as [|v l [z ->] _ IH]; [reflexivity|]. cbn [map].
    rewrite cast_int_id. now f_equal.
  - induction l; simpl; f_equal. apply IHl. easy.
Qed.

Lemma wf_int_discrete l ty : wf_vals DInt l -> find_y_type (arr1 DInt l) = Ok ty -> ty = DISCRETE.
Proof.
  intros H E. specialize (H eq_refl). destruct l as [|v l].
  - discriminate.
  - rewrite find_y_type_discrete in E; [congruence|easy|].
    unfold discrete_labels. eapply Forall_impl; [|exact H]. intros w [z ->]. exists (inject_Z z), z.
    split; auto. reflexivity.
Qed.

Lemma fill_target sd dt l ty :
  l <> [] -> wf_vals dt l -> find_y_type (arr1 dt l) = Ok ty ->
  how_many is_source sd = length l -> 0 < how_many is_target sd ->
  exists m, source_target_merge [Some (arr1 dt l); None] (Some sd) = Ok ([arr1 dt m], sd) /\
    length m = length sd /\ rows_of is_source sd m = l /\
    rows_of is_target sd m = repeat (mask_of ty) (how_many is_target sd).
Proof.
  intros Hl Hw Hty Hs Ht. pose proof (how_many_split sd) as HS.
  assert (L : 0 < length l) by (destruct l; [easy|simpl; lia]).
  assert (Hsd : sd <> []) by (intros ->; simpl in *; lia).
  unfold source_target_merge. cbn [length pairs_of Nat.ltb Nat.leb]. change (2 mod 2 =? 0) with true. cbn [negb mapM].
  assert (E : check_pair (Some (arr1 dt l), None) = Ok (arr1 dt l, empty_arr)).
  { unfold check_pair. cbn [fst snd norm_arr]. rewrite arr1_len.
    destruct (Nat.eqb_spec (length l) 0); [lia|]. rewrite arr1_size.
    destruct (Nat.eqb_spec (length l) 0); [lia|]. reflexivity. }
  rewrite E. cbn [bind]. rewrite infer_given, extract_source_ok by auto. cbn [bind mapM].
  unfold merge_pair. change (a_size empty_arr) with 0. cbn [Nat.eqb]. rewrite arr1_len.
  destruct (Nat.ltb_spec 0 (length sd - length l)); [|lia].
  rewrite (fill_missing_arr1 dt l ty) by auto. cbn [bind].
  rewrite !arr1_len, repeat_length, count_source, count_neg_source.
  rewrite Hs. replace (length sd - length l) with (how_many is_target sd) by lia.
  rewrite !Nat.eqb_refl. cbn [negb orb].
  destruct (merge_arrays_char (arr1 dt l) (arr1 DFloat (repeat (mask_of ty) (how_many is_target sd))) sd) as [out [E1 M]]; auto.
  { rewrite arr1_len. lia. } { rewrite arr1_len, repeat_length. lia. }
  rewrite arr1_len in E1, M. destruct (Nat.ltb_spec 0 (length l)); [|lia].
  cbn [arr1 a_dt a_tail a_rows] in M. rewrite !map_cast_singletons in M.
  rewrite wf_vals_cast in M by auto. rewrite map_repeat' in M.
  assert (Hm : cast dt (mask_of ty) = mask_of ty).
  { destruct dt; [|reflexivity]. rewrite (wf_int_discrete l ty) by auto. reflexivity. }
  rewrite Hm in M. destruct (rows_singletons _ _ _ _ M) as [m ->].
  apply merged_singletons in M as [M1 [M2 M3]].
  exists m. rewrite E1. cbn [bind a_dt a_tail arr1]. split; [reflexivity|]. auto.
Qed.

Lemma fill_source sd dt l ty :
  l <> [] -> find_y_type (arr1 dt l) = Ok ty ->
  how_many is_target sd = length l -> 0 < how_many is_source sd ->
  exists m, source_target_merge [None; Some (arr1 dt l)] (Some sd) = Ok ([arr1 DFloat m], sd) /\
    length m = length sd /\ rows_of is_target sd m = l /\
    rows_of is_source sd m = repeat (mask_of ty) (how_many is_source sd).
Proof.
  intros Hl Hty Ht Hs. pose proof (how_many_split sd) as HS.
  assert (L : 0 < length l) by (destruct l; [easy|simpl; lia]).
  assert (Hsd : sd <> []) by (intros ->; simpl in *; lia).
  unfold source_target_merge. cbn [length pairs_of Nat.ltb Nat.leb]. change (2 mod 2 =? 0) with true. cbn [negb mapM].
  assert (E : check_pair (None, Some (arr1 dt l)) = Ok (empty_arr, arr1 dt l)).
  { unfold check_pair. cbn [fst snd norm_arr]. rewrite arr1_len.
    destruct (Nat.eqb_spec (length l) 0); [lia|]. rewrite arr1_size.
    destruct (Nat.eqb_spec (length l) 0); [lia|]. reflexivity. }
  rewrite E. cbn [bind]. rewrite infer_given, extract_source_ok by auto. cbn [bind mapM].
  unfold merge_pair. change (a_size empty_arr) with 0. rewrite arr1_size, arr1_len.
  destruct (Nat.eqb_spec (length l) 0); [lia|]. cbn [Nat.eqb].
  destruct (Nat.ltb_spec 0 (length sd - length l)); [|lia].
  rewrite (fill_missing_arr1 dt l ty) by auto. cbn [bind].
  rewrite !arr1_len, repeat_length, count_source, count_neg_source.
  rewrite Ht. replace (length sd - length l) with (how_many is_source sd) by lia.
  rewrite !Nat.eqb_refl. cbn [negb orb].
  destruct (merge_arrays_char (arr1 DFloat (repeat (mask_of ty) (how_many is_source sd))) (arr1 dt l) sd) as [out [E1 M]]; auto.
  { rewrite arr1_len, repeat_length. lia. } { rewrite arr1_len. lia. }
  rewrite arr1_len, repeat_length in E1, M. destruct (Nat.ltb_spec 0 (how_many is_source sd)); [|lia].
  cbn [arr1 a_dt a_tail a_rows] in M. rewrite !map_cast_singletons in M.
  rewrite !wf_vals_cast in M by easy.
  destruct (rows_singletons _ _ _ _ M) as [m ->].
  apply merged_singletons in M as [M1 [M2 M3]].
  exists m. rewrite E1. cbn [bind a_dt a_tail arr1]. split; [reflexivity|]. auto.
Qed.

(** ** Flag checks *)

Lemma n_unique_pos p sd : 0 < length (unique (select (map p sd) sd)) <-> some_label p sd.
Proof.
  unfold some_label. rewrite select_self. split.
  - intros H. destruct (unique (filter p sd)) as [|a l] eqn:E; [simpl in H; lia|].
    assert (In a (unique (filter p sd))) by (rewrite E; now left).
    apply (proj1 (unique_In _ _)) in H0. apply filter_In in H0 as []. eauto.
  - intros [a [H1 H2]]. destruct (unique (filter p sd)) eqn:E; simpl; [|lia].
    apply (proj1 (unique_nil _)) in E. assert (In a (filter p sd)) by now apply filter_In. rewrite E in H. easy.
Qed.

Lemma n_unique_multi p sd : 1 < length (unique (select (map p sd) sd)) <-> multi p sd.
Proof.
  unfold multi. rewrite select_self. split.
  - intros H. pose proof (unique_NoDup (filter p sd)) as ND.
    assert (HI := fun x => proj1 (unique_In (filter p sd) x)).
    destruct (unique (filter p sd)) as [|a [|b l]]; simpl in H; try lia.
    exists a, b. inversion ND; subst.
    assert (Ha := HI a (or_introl eq_refl)). assert (Hb := HI b (or_intror (or_introl eq_refl))).
    apply filter_In in Ha as [], Hb as []. split; [|auto]. intros ->. apply H2. now left.
  - intros [a [b [H0 [H1 [H2 [H3 H4]]]]]].
    destruct (le_lt_dec (length (unique (filter p sd))) 1) as [L|]; auto.
    apply (proj1 (unique_length_le1 _)) with (x := a) (y := b) in L; try contradiction; now apply filter_In.
Qed.

Lemma Zabs_unique_len sd :
  length (unique sd) = length (unique (map Z.abs (unique sd))) <-> ~ common_idx sd.
Proof.
  pose proof (unique_NoDup sd) as ND.
  assert (NDiff : NoDup (map Z.abs (unique sd)) <-> ~ common_idx sd).
  { split.
    - intros H [d [Hd [H1 H2]]]. apply unique_In in H1, H2.
      apply In_nth_error in H1 as [i Hi]. apply In_nth_error in H2 as [j Hj].
      assert (E : i = j).
      { apply NoDup_nth_error with (l := map Z.abs (unique sd)); auto.
        - rewrite map_length. apply nth_error_Some. congruence.
        - rewrite !nth_error_map, Hi, Hj. simpl. now rewrite Z.abs_opp. }
      subst. rewrite Hi in Hj. injection Hj. lia.
    - intros H. assert (HI := fun x => proj1 (unique_In sd x)). revert ND HI.
      generalize (unique sd) as u. induction u as [|a u IH]; simpl; intros ND HI; constructor.
      + inversion ND; subst. intros C. apply in_map_iff in C as [b [Eb Hb]].
        destruct (Z.eq_dec a b) as [->|Nab]; [contradiction|].
        apply H. exists a. assert (b = (- a)%Z) by lia. subst b. split; [lia|]. split; auto.
      + inversion ND; subst. apply IH; auto. }
  rewrite <- NDiff. split.
  - intros H. apply NoDup_incl_NoDup with (l := unique (map Z.abs (unique sd))).
    + apply unique_NoDup.
    + rewrite map_length. lia.
    + intros x Hx. now apply unique_In.
  - intros H. rewrite <- (map_length Z.abs (unique sd)). apply Permutation_length. apply NoDup_Permutation; auto.
    + apply unique_NoDup.
    + intros x. symmetry. apply unique_In.
Qed.

Lemma raise_if_ok {A} b e (k : res A) x : raise_if b e k = Ok x <-> b = false /\ k = Ok x.
Proof. destruct b; simpl; split; try easy; now intros []. Qed.

Lemma guard_nat fl (a b : nat) (P : Prop) : (a < b <-> P) ->
  (negb fl && (a <? b) = false <-> (fl = false -> ~ P)).
Proof.
  intros H. destruct fl; simpl; [split; easy|]. destruct (Nat.ltb_spec a b); split; auto; try easy.
  - intros C. exfalso. apply C; auto. now apply H.
  - intros _ _ C. apply H in C. lia.
Qed.

Lemma check_flags_ok f sd r : check_flags f sd = Ok r <-> r = sd /\ flags_accept f sd.
Proof.
  unfold check_flags, flags_accept. rewrite !raise_if_ok.
  unfold n_unique_where. rewrite neg_source_mask. change (source_mask sd) with (map is_source sd).
  rewrite (guard_nat _ _ _ _ (n_unique_pos is_source sd)).
  rewrite (guard_nat _ _ _ _ (n_unique_pos is_target sd)).
  rewrite (guard_nat (f_multi_source f) _ _ _ (n_unique_multi is_source sd)).
  rewrite (guard_nat (f_multi_target f) _ _ _ (n_unique_multi is_source sd)).
  assert (C : negb (f_common f) && negb (length (unique sd) =? length (unique (map Z.abs (unique sd)))) = false
              <-> (f_common f = false -> ~ common_idx sd)).
  { destruct (f_common f); simpl; [split; easy|]. rewrite <- Zabs_unique_len.
    destruct (Nat.eqb_spec (length (unique sd)) (length (unique (map Z.abs (unique sd))))); simpl; split; auto; try easy; intros HH; specialize (HH eq_refl); contradiction. }
  rewrite C. split.
  - intros (H1 & H2 & H3 & H4 & H5 & H6). injection H6 as ->. tauto.
  - intros [-> H]. tauto.
Qed.

Lemma check_flags_err f sd e : check_flags f sd = Err e -> e = ValueError.
Proof.
  unfold check_flags, raise_if. repeat (match goal with |- context [if ?b then _ else _] => destruct b end; try congruence).
Qed.

Lemma adom_eqb_eq a b : adom_eqb a b = true <-> a = b.
Proof.
  destruct a, b; simpl; split; intros H; try easy.
  - now apply Z.eqb_eq in H as ->.
  - injection H as ->. apply Z.eqb_refl.
Qed.

Lemma existsb_adom a l : existsb (adom_eqb a) l = true <-> In a l.
Proof.
  rewrite existsb_exists. split.
  - intros [x [H1 H2]]. apply adom_eqb_eq in H2. now subst.
  - intros H. exists a. split; auto. now apply adom_eqb_eq.
Qed.

Lemma check_allow_domains_iff f sd :
  check_allow_domains f sd = true <-> (forall l, f_domains f = Some l -> forall d, In d sd -> allowed l d).
Proof.
  unfold check_allow_domains. destruct (f_domains f) as [l|]; [|split; [easy|auto]].
  rewrite forallb_forall. unfold allowed. split.
  - intros H l' E d Hd. injection E as <-. apply unique_In in Hd. apply H in Hd.
    apply orb_true_iff in Hd as [Hd|Hd]; apply existsb_adom in Hd; auto.
    destruct (Z.leb_spec 0 d); auto.
  - intros H d Hd. apply (proj1 (unique_In _ _)) in Hd. apply orb_true_iff. rewrite !existsb_adom.
    destruct (H l eq_refl d Hd) as [|[[]|[]]]; auto; right; destruct (Z.leb_spec 0 d); auto; lia.
Qed.

Lemma check_X_domain_ok n sd f r :
  check_X_domain n sd f = Ok r <->
  0 < n /\ r = eff_domain n sd /\ length r = n /\ (sd = SDNone -> f_auto f = true) /\
  (forall l, f_domains f = Some l -> forall d, In d r -> allowed l d) /\ flags_accept f r.
Proof.
  unfold check_X_domain. destruct (Nat.eqb_spec n 0) as [->|Hn].
  { split; [easy|]. intros [H _]. lia. }
  assert (G : forall sd0, (_m <- extract_source_indices sd0 ;;
      (if negb (length sd0 =? n) then Err ValueError
       else if negb (check_allow_domains f sd0) then Err ValueError else check_flags f sd0)) = Ok r <->
      r = sd0 /\ length r = n /\ (forall l, f_domains f = Some l -> forall d, In d r -> allowed l d) /\ flags_accept f r).
  { intros sd0. unfold extract_source_indices. destruct (Nat.eqb_spec (length sd0) 0) as [E0|E0]; cbn [bind].
    - split; [easy|]. intros [-> [H _]]. lia.
    - destruct (Nat.eqb_spec (length sd0) n) as [E|E]; cbn [negb].
      + destruct (check_allow_domains f sd0) eqn:Ea; cbn [negb].
        * rewrite check_flags_ok. rewrite check_allow_domains_iff in Ea. split.
          -- intros [-> H]. auto.
          -- intros [-> [_ [_ H]]]. auto.
        * split; [easy|]. intros [-> [_ [H _]]]. apply check_allow_domains_iff in H. congruence.
      + split; [easy|]. intros [-> [H _]]. contradiction. }
  destruct sd as [|z|l]; cbn [eff_domain].
  - destruct (f_auto f); cbn [bind].
    + rewrite G. unfold default_target_only_domain. split; [intros (H1&H2&H3&H4); repeat split; auto; try lia; apply H4|].
      intros (H1&H2&H3&H4&H5&H6). auto.
    + split; [easy|]. intros (H1&H2&H3&H4&_). specialize (H4 eq_refl). discriminate.
  - cbn [bind]. rewrite G. split.
    + intros (H1&H2&H3&H4). split; [lia|]. split; [exact H1|]. split; [exact H2|]. split; [easy|]. auto.
    + intros (H1&H2&H3&H4&H5&H6). auto.
  - cbn [bind]. rewrite G. split.
    + intros (H1&H2&H3&H4). split; [lia|]. split; [exact H1|]. split; [exact H2|]. split; [easy|]. auto.
    + intros (H1&H2&H3&H4&H5&H6). auto.
Qed.

Lemma check_X_domain_err n sd f e : check_X_domain n sd f = Err e -> e = ValueError.
Proof.
  unfold check_X_domain. destruct (n =? 0); [congruence|].
  destruct sd; [destruct (f_auto f)|..]; cbn [bind]; try congruence;
    unfold extract_source_indices; destruct (length _ =? 0); cbn [bind]; try congruence;
    (destruct (negb (length _ =? n)); [congruence|]); (destruct (negb _); [congruence|]); apply check_flags_err.
Qed.

(** ** check_X_y_domain *)

Definition is_masked (ty : y_type) (v : val) : bool :=
  match ty with DISCRETE => val_eqb_q v mask_cls_q | CONTINUOUS => is_nan v end.

Lemma map_combine_repeat {A B} (f : A -> bool) (l : list A) (a b : B) :
  map (fun bo : bool * B => if fst bo then a else snd bo) (combine (map f l) (repeat b (length l))) =
  map (fun v => if f v then a else b) l.
Proof. induction l as [|x l IH]; simpl; auto. now rewrite IH. Qed.

Lemma auto_domain n y f ty :
  0 < n -> length y = n -> check_y_masking y = Ok ty -> f_auto f = true ->
  check_X_y_domain n y SDNone true f =
  check_flags f (map (fun v => if is_masked ty v then (-2)%Z else 1%Z) y).
Proof.
  intros Hn HL Hm Ha. unfold check_X_y_domain.
  destruct (Nat.eqb_spec n 0); [lia|]. destruct (Nat.eqb_spec (length y) 0); [lia|].
  cbn [negb andb]. destruct (Nat.eqb_spec n (length y)); [|lia]. cbn [negb].
  rewrite Ha, Hm. cbn [bind].
  replace (match ty with CONTINUOUS => map is_nan y | DISCRETE => map (fun v => val_eqb_q v mask_cls_q) y end)
    with (map (is_masked ty) y) by (destruct ty; reflexivity).
  rewrite np_setmask_scalar_ok by now rewrite map_length, repeat_length.
  cbn [bind]. rewrite map_combine_repeat.
  unfold extract_source_indices. rewrite map_length. destruct (Nat.eqb_spec (length y) 0); [lia|]. reflexivity.
Qed.

Lemma val_eqb_mask v : val_eqb_q v mask_cls_q = true <-> exists q, v = VNum q /\ (q == inject_Z (-1))%Q.
Proof.
  destruct v as [q| |]; simpl; split; try easy; try (now intros [? [? _]]).
  - intros H. apply Qeq_bool_iff in H. eauto.
  - intros [q' [E H]]. injection E as ->. now apply Qeq_bool_iff.
Qed.

Lemma val_ltb_mask v : val_ltb_q v mask_cls_q = true <->
  (exists q, v = VNum q /\ (q < inject_Z (-1))%Q) \/ v = VInf true.
Proof.
  destruct v as [q| |b]; simpl.
  - rewrite negb_true_iff. split.
    + intros H. left. exists q. split; auto. apply Qnot_le_lt. intros C. apply Qle_bool_iff in C.
      unfold mask_cls_q in H. congruence.
    + intros [[q' [E H]]|]; [|easy]. injection E as <-. destruct (Qle_bool mask_cls_q q) eqn:E; auto.
      apply Qle_bool_iff in E. exfalso. apply (Qlt_irrefl q). eapply Qlt_le_trans; eauto.
  - split; [easy|]. intros [[q [H _]]|H]; easy.
  - split.
    + intros ->. now right.
    + intros [[q [H _]]|H]; [easy|]. now injection H.
Qed.

Lemma check_y_masking_discrete y : y <> [] -> discrete_labels y ->
  check_y_masking y =
  if existsb (fun v => val_ltb_q v mask_cls_q) y || negb (existsb (fun v => val_eqb_q v mask_cls_q) y)
  then Err ValueError else Ok DISCRETE.
Proof. intros H1 H2. unfold check_y_masking, find_y_type1. now rewrite find_y_type_discrete. Qed.

Lemma check_y_masking_continuous y : continuous_labels y ->
  check_y_masking y = if existsb is_nan y then Ok CONTINUOUS else Err ValueError.
Proof. intros H. unfold check_y_masking, find_y_type1. now rewrite find_y_type_continuous. Qed.

Lemma check_y_masking_inf y : ~ In VNan y -> (exists b, In (VInf b) y) -> check_y_masking y = Err ValueError.
Proof. intros H [b Hb]. unfold check_y_masking, find_y_type1. now rewrite (find_y_type_inf _ _ b). Qed.

(** ** Per-domain extraction *)

Lemma extract_domains_ok sd : sd <> [] ->
  extract_domains_indices sd = Ok (map (fun d => (d, positions (Z.eqb d) sd)) (unique sd)).
Proof.
  intros H. unfold extract_domains_indices. destruct sd; [easy|]. cbn [length Nat.eqb].
  f_equal. apply map_ext. intros d. f_equal. rewrite positions_flatnonzero. f_equal.
  apply map_ext. intros x. apply Z.eqb_sym.
Qed.

(** Concatenating the index lists enumerates every index exactly once. *)
Lemma domains_cover sd :
  Permutation (flat_map (fun d => positions (Z.eqb d) sd) (unique sd)) (seq 0 (length sd)).
Proof.
  apply NoDup_Permutation.
  - assert (G : forall u, NoDup u -> NoDup (flat_map (fun d => positions (Z.eqb d) sd) u)).
    { induction u as [|d u IH]; simpl; intros ND; [constructor|]. inversion ND; subst.
      assert (GA : forall (a b : list nat), NoDup a -> NoDup b -> (forall x, In x a -> ~ In x b) -> NoDup (a ++ b)).
      { intros a b Ha Hb Hab. induction Ha as [|x a Hx Ha IHa]; simpl; auto. constructor.
        - rewrite in_app_iff. intros [C|C]; [contradiction|]. apply (Hab x); simpl; auto.
        - apply IHa. intros y Hy. apply Hab. now right. }
      apply GA; auto; [apply positions_NoDup|].
      intros i Hi Hc. apply positions_In in Hi as [x [E1 E2]]. apply Z.eqb_eq in E2. subst x.
      apply in_flat_map in Hc as [d' [Hd' Hc]]. apply positions_In in Hc as [x [E3 E4]]. apply Z.eqb_eq in E4. subst x.
      rewrite E1 in E3. injection E3 as ->. contradiction. }
    apply G, unique_NoDup.
  - apply seq_NoDup.
  - intros i. rewrite in_seq, in_flat_map. split.
    + intros [d [_ H]]. apply positions_In in H as [x [H _]].
      assert (i < length sd) by (apply nth_error_Some; congruence). lia.
    + intros [_ H]. simpl in H. apply nth_error_Some in H. destruct (nth_error sd i) as [d|] eqn:E; [|easy].
      exists d. split.
      * apply unique_In. eapply nth_error_In; eauto.
      * apply positions_In. exists d. split; auto. apply Z.eqb_refl.
Qed.

Lemma take_positions {A} (p : Z -> bool) sd (xs : list A) : length xs = length sd ->
  np_take (positions p sd) xs = Ok (rows_of p sd xs).
Proof.
  intros H. rewrite positions_flatnonzero, rows_of_select. apply np_take_flatnonzero. now rewrite map_length.
Qed.

Lemma per_domain_ok {A} (arrays : list (option (list A))) sd :
  arrays <> [] -> sd <> [] -> (forall xs, In (Some xs) arrays -> length xs = length sd) ->
  per_domain_split arrays sd =
  Ok (map (fun d => (d, map (domain_rows sd d) arrays)) (filter is_source (unique sd)),
      map (fun d => (d, map (domain_rows sd d) arrays)) (filter is_target (unique sd))).
Proof.
  intros Ha Hs HL. unfold per_domain_split, per_domain_gen.
  destruct arrays as [|a0 arrays]; [easy|]. cbn [length Nat.eqb raise_if].
  remember (a0 :: arrays) as l eqn:El. clear El Ha.
  rewrite extract_domains_ok by auto. cbn [bind].
  assert (E : forall d, mapM (take_opt np_take (positions (Z.eqb d) sd)) l = Ok (map (domain_rows sd d) l)).
  { intros d. rewrite <- mapM_pure. apply mapM_ext. intros [xs|] Hin; [|reflexivity].
    cbn [take_opt domain_rows]. rewrite take_positions by auto. reflexivity. }
  assert (G : forall u, mapM (fun kv : Z * list nat => r <- mapM (take_opt np_take (snd kv)) l ;; Ok (fst kv, r))
                 (map (fun d => (d, positions (Z.eqb d) sd)) u)
              = Ok (map (fun d => (d, map (domain_rows sd d) l)) u)).
  { induction u as [|d u IH]; [reflexivity|]. cbn [map mapM fst snd]. rewrite E. cbn [bind]. now rewrite IH. }
  rewrite G. cbn [bind].
  assert (F : forall (p : Z -> bool) u, filter (fun kv : Z * list (option (list A)) => p (fst kv)) (map (fun d => (d, map (domain_rows sd d) l)) u)
           = map (fun d => (d, map (domain_rows sd d) l)) (filter p u)).
  { intros p u. induction u as [|d u IH]; [reflexivity|]. cbn [map filter fst]. destruct (p d); cbn [map]; now rewrite IH. }
  rewrite (F is_source). f_equal. f_equal. rewrite (F (fun d => negb (0 <=? d)%Z)).
  f_equal. apply filter_ext. intros d. symmetry. apply is_target_negb.
Qed.
