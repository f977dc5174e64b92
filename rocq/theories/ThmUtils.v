(** Theorems C01-C07 about /repo/skada/utils.py. *)
From Coq Require Import List ZArith QArith Bool Arith Lia Sorting.Permutation Sorting.Sorted.
From Verif Require Import Np NpFacts Labels Spec SpecFacts UtilsModel UtilsSpec UtilsProofs UtilsProofs2.
Import ListNotations.
Local Open Scope nat_scope.

(** ** C01 *)

(** The split of each array is (rows with label >= 0, rows with label < 0), in input order. *)
Theorem C01_split_exact : forall (A : Type) (arrays : list (option (list A))) (sd : list Z),
  arrays <> [] -> sd <> [] -> (forall xs, In (Some xs) arrays -> length xs = length sd) ->
  source_target_split arrays sd = Ok (flat_map (split_spec sd) arrays).
Proof. exact @split_ok. Qed.

Example C01_split_exact_ex :
  source_target_split [Some [10;20;30;40]; None; Some [1;2;3;4]] [-2;1;-3;0]%Z
  = Ok [Some [20;40]; Some [10;30]; None; None; Some [2;4]; Some [1;3]].
Proof. reflexivity. Qed.

(** The two parts together are a rearrangement of the input. *)
Theorem C01_split_partition : forall (A : Type) (sd : list Z) (xs : list A), length sd = length xs ->
  Permutation (rows_of is_source sd xs ++ rows_of is_target sd xs) xs.
Proof. exact @rows_of_partition. Qed.

(** Rows stay aligned across arrays. *)
Theorem C01_split_aligned : forall (A B : Type) (p : Z -> bool) (sd : list Z) (xs : list A) (ys : list B),
  length xs = length ys -> rows_of p sd (combine xs ys) = combine (rows_of p sd xs) (rows_of p sd ys).
Proof. exact @rows_of_combine. Qed.

Example C01_partition_ex : rows_of is_source [-2;1;-3;0]%Z [(1,5);(2,6);(3,7);(4,8)] = [(2,6);(4,8)].
Proof. reflexivity. Qed.

(** No array at all, or no label, is a ValueError; an array of the wrong length an IndexError. *)
Theorem C01_split_errors : forall (A : Type),
  (forall sd, source_target_split ([] : list (option (list A))) sd = Err ValueError) /\
  (forall arrays : list (option (list A)), source_target_split arrays [] = Err ValueError) /\
  (forall (pre : list (option (list A))) xs post sd, sd <> [] -> length xs <> length sd ->
     source_target_split (pre ++ Some xs :: post) sd = Err IndexError).
Proof. intros A. split; [|split]; [exact split_empty | exact split_no_labels | exact split_bad_length]. Qed.

Example C01_split_errors_ex : source_target_split [None; Some [1;2;3]] [1;-1]%Z = Err IndexError.
Proof. reflexivity. Qed.

(** ** C02 *)

Theorem C02_split_merge_roundtrip : forall (arrays : list arr) (sd : list Z),
  arrays <> [] -> sd <> [] -> Forall (splittable sd) arrays ->
  exists parts, source_target_split_arr (map Some arrays) sd = Ok parts /\
    source_target_merge parts (Some sd) = Ok (arrays, sd).
Proof. exact round_trip. Qed.

Example C02_roundtrip_ex :
  let sd := [-2;1;-3]%Z in
  let X := mkArr DFloat [2] [[VNum 1; VNum 2]; [VNum (1#2); VNan]; [VNum 5; VNum 6]] in
  let y := arr1 DInt [VNum (inject_Z 4); VNum (inject_Z 5); VNum (inject_Z 6)] in
  Forall (splittable sd) [X; y] /\
  source_target_split_arr [Some X; Some y] sd =
    Ok [Some (mkArr DFloat [2] [[VNum (1#2); VNan]]);
        Some (mkArr DFloat [2] [[VNum 1; VNum 2]; [VNum 5; VNum 6]]);
        Some (arr1 DInt [VNum (inject_Z 5)]);
        Some (arr1 DInt [VNum (inject_Z 4); VNum (inject_Z 6)])].
Proof.
  split; [|reflexivity].
  constructor; [|constructor; [|constructor]]; (split; [reflexivity|split; [simpl; lia|]]); intros H; [discriminate|].
  repeat constructor; eexists; reflexivity.
Qed.

(** ** C03 *)

(** Success with the right counts: every row at its place, cast to the dtype of the source array. *)
Theorem C03_merge_places_rows_partial : forall (ps : list (arr * arr)) (sd : list Z),
  ps <> [] -> sd <> [] -> Forall good_pair ps ->
  Forall (fun p => a_len (fst p) = how_many is_source sd /\ a_len (snd p) = how_many is_target sd) ps ->
  exists ms, source_target_merge (interleave ps) (Some sd) = Ok (ms, sd) /\
    Forall2 (fun p m => a_dt m = a_dt (fst p) /\ a_tail m = a_tail (fst p) /\
               merged sd (map (map (cast (a_dt (fst p)))) (a_rows (fst p)))
                         (map (map (cast (a_dt (fst p)))) (a_rows (snd p))) (a_rows m)) ps ms.
Proof. exact merge_ok_spec. Qed.

(** Values are unchanged when the source array is a float array or both contain integers. *)
Theorem C03_merge_values_unchanged_partial : forall (s t : arr) (sd : list Z),
  sd <> [] -> good_pair (s, t) ->
  a_len s = how_many is_source sd -> a_len t = how_many is_target sd ->
  (a_dt s = DFloat \/ (int_rows (a_rows s) /\ int_rows (a_rows t))) ->
  exists m, source_target_merge [Some s; Some t] (Some sd) = Ok ([m], sd) /\
    merged sd (a_rows s) (a_rows t) (a_rows m).
Proof.
  intros s t sd Hsd Hg Hs Ht Hd.
  destruct (merge_ok_spec [(s, t)] sd) as [ms [E F]]; auto; try easy.
  inversion F as [|p m ps ms' [_ [_ M]] F2]; subst. inversion F2; subst. exists m. split; [exact E|].
  cbn [fst snd] in M. rewrite !cast_rows_id in M; auto.
  - intros D. destruct Hd as [Hd|[_ Hd]]; [congruence|auto].
  - intros D. destruct Hd as [Hd|[Hd _]]; [congruence|auto].
Qed.

Example C03_merge_ex :
  source_target_merge [Some (arr1 DFloat [VNum 1; VNum 2]); Some (arr1 DFloat [VNum (7#2)])] (Some [4;-1;0]%Z)
  = Ok ([arr1 DFloat [VNum 1; VNum (7#2); VNum 2]], [4;-1;0]%Z).
Proof. reflexivity. Qed.

(** With an integer source array and a float target array the target values are truncated. *)
Theorem C03_merge_values_unchanged_refuted : exists (s t m : arr) (sd : list Z),
  good_pair (s, t) /\ wf_arr s /\ wf_arr t /\
  a_len s = how_many is_source sd /\ a_len t = how_many is_target sd /\
  source_target_merge [Some s; Some t] (Some sd) = Ok ([m], sd) /\
  ~ merged sd (a_rows s) (a_rows t) (a_rows m).
Proof.
  exists (arr1 DInt [VNum (inject_Z 3)]), (arr1 DFloat [VNum (1#2)]), (arr1 DInt [VNum (inject_Z 3); VNum (inject_Z 0)]), [1;-2]%Z.
  repeat split; auto; try (simpl; lia).
  - intros _. repeat constructor. now exists 3%Z.
  - intros H; discriminate.
  - intros [_ [_ H]]. discriminate.
Qed.

Theorem C03_merge_miscount_rejected : forall (ps : list (arr * arr)) (sd : list Z),
  ps <> [] -> sd <> [] -> Forall good_pair ps ->
  Exists (fun p => a_len (fst p) <> how_many is_source sd \/ a_len (snd p) <> how_many is_target sd) ps ->
  source_target_merge (interleave ps) (Some sd) = Err ValueError.
Proof. exact merge_miscount. Qed.

Theorem C03_merge_bad_call_rejected :
  (forall arrays sd, length arrays < 2 -> source_target_merge arrays sd = Err ValueError) /\
  (forall arrays sd, Nat.odd (length arrays) = true -> source_target_merge arrays sd = Err ValueError) /\
  (forall pre a b post sd, Nat.even (length pre) = true -> Nat.even (length post) = true ->
     is_missing a -> is_missing b -> source_target_merge (pre ++ a :: b :: post) sd = Err ValueError).
Proof. split; [|split]; [exact merge_few | exact merge_odd | exact merge_empty_pair]. Qed.

Example C03_miscount_ex :
  source_target_merge [Some (arr1 DFloat [VNum 1; VNum 2]); Some (arr1 DFloat [VNum 3])] (Some [4;-1;-1]%Z) = Err ValueError.
Proof. reflexivity. Qed.

(** ** C04 *)

Theorem C04_missing_target_masked : forall (sd : list Z) (dt : dtype) (l : list val) (mask : val),
  l <> [] -> wf_vals dt l ->
  (discrete_labels l /\ mask = VNum (inject_Z (-1))) \/ (continuous_labels l /\ mask = VNan) ->
  how_many is_source sd = length l -> 0 < how_many is_target sd ->
  exists m, source_target_merge [Some (arr1 dt l); None] (Some sd) = Ok ([arr1 dt m], sd) /\
    length m = length sd /\ rows_of is_source sd m = l /\
    rows_of is_target sd m = repeat mask (how_many is_target sd).
Proof.
  intros sd dt l mask Hl Hw [[H ->]|[H ->]] Hs Ht.
  - apply (fill_target sd dt l DISCRETE); auto. now apply find_y_type_discrete.
  - apply (fill_target sd dt l CONTINUOUS); auto. now apply find_y_type_continuous.
Qed.

Theorem C04_missing_source_masked : forall (sd : list Z) (dt : dtype) (l : list val) (mask : val),
  l <> [] ->
  (discrete_labels l /\ mask = VNum (inject_Z (-1))) \/ (continuous_labels l /\ mask = VNan) ->
  how_many is_target sd = length l -> 0 < how_many is_source sd ->
  exists m, source_target_merge [None; Some (arr1 dt l)] (Some sd) = Ok ([arr1 DFloat m], sd) /\
    length m = length sd /\ rows_of is_target sd m = l /\
    rows_of is_source sd m = repeat mask (how_many is_source sd).
Proof.
  intros sd dt l mask Hl [[H ->]|[H ->]] Hs Ht.
  - apply (fill_source sd dt l DISCRETE); auto. now apply find_y_type_discrete.
  - apply (fill_source sd dt l CONTINUOUS); auto. now apply find_y_type_continuous.
Qed.

Example C04_ex :
  source_target_merge [Some (arr1 DInt [VNum (inject_Z 0); VNum (inject_Z 3)]); None] (Some [-2;1;-5;7]%Z)
  = Ok ([arr1 DInt [VNum (inject_Z (-1)); VNum (inject_Z 0); VNum (inject_Z (-1)); VNum (inject_Z 3)]], [-2;1;-5;7]%Z).
Proof. reflexivity. Qed.

(** ** C05 *)

(** Exact acceptance condition of the code: the multi-target flag restricts the *sources*. *)
Theorem C05_check_X_domain_accepts_partial : forall n sd f r,
  check_X_domain n sd f = Ok r <->
  0 < n /\ r = eff_domain n sd /\ length r = n /\ (sd = SDNone -> f_auto f = true) /\
  (forall l, f_domains f = Some l -> forall d, In d r -> allowed l d) /\ flags_accept f r.
Proof. exact check_X_domain_ok. Qed.

Theorem C05_check_X_domain_only_ValueError : forall n sd f e, check_X_domain n sd f = Err e -> e = ValueError.
Proof. exact check_X_domain_err. Qed.

Lemma accept_documented f sd : f_multi_target f = true -> flags_accept f sd <-> flags_documented f sd.
Proof. intros H. unfold flags_accept, flags_documented. rewrite H. intuition discriminate. Qed.

(** When allow_multi_target=True (the default) acceptance is exactly as documented. *)
Theorem C05_check_X_domain_documented_partial : forall n sd f r, f_multi_target f = true ->
  (check_X_domain n sd f = Ok r <->
  0 < n /\ r = eff_domain n sd /\ length r = n /\ (sd = SDNone -> f_auto f = true) /\
  (forall l, f_domains f = Some l -> forall d, In d r -> allowed l d) /\ flags_documented f r).
Proof. intros n sd f r H. rewrite check_X_domain_ok, (accept_documented _ _ H). reflexivity. Qed.

(** Two targets are accepted with allow_multi_target=False, and two sources with one target are rejected
    although only allow_multi_target=False was asked for. *)
Theorem C05_allow_multi_target_refuted :
  (exists n sd f, f_multi_target f = false /\ multi is_target sd /\ check_X_domain n (SDArr sd) f = Ok sd) /\
  (exists n sd f, flags_documented f sd /\ length sd = n /\ f_domains f = None /\ f_multi_source f = true /\
     check_X_domain n (SDArr sd) f = Err ValueError).
Proof.
  split.
  - exists 3, [1;-2;-3]%Z, (mkFlags None true true true false true true). repeat split.
    exists (-2)%Z, (-3)%Z. simpl. intuition lia.
  - exists 3, [1;2;-3]%Z, (mkFlags None true true true false true true). repeat split; auto; try discriminate.
    intros _ [a [b [H [Ha [Hb [H1 H2]]]]]]. simpl in *.
    repeat (destruct Ha as [<-|Ha]; [try discriminate|]); try easy;
    repeat (destruct Hb as [<-|Hb]; [try discriminate|]); try easy.
Qed.

Example C05_ex : check_X_domain 3 (SDArr [1;-2;3]%Z) (mkFlags (Some [APosInf; ADom (-2)]) true true true true false true)
  = Ok [1;-2;3]%Z.
Proof. reflexivity. Qed.

(** The same flags in check_X_y_domain (no allow_domains there), sample_domain given. *)
Theorem C05_check_X_y_domain_accepts_partial : forall n y l f r, 0 < n -> length y = n -> l <> [] ->
  (check_X_y_domain n y (SDArr l) true f = Ok r <-> r = l /\ flags_accept f l).
Proof.
  intros n y l f r Hn Hy Hl. unfold check_X_y_domain.
  destruct (Nat.eqb_spec n 0); [lia|]. destruct (Nat.eqb_spec (length y) 0); [lia|].
  cbn [negb andb]. destruct (Nat.eqb_spec n (length y)); [|lia]. cbn [negb bind].
  rewrite extract_source_ok by auto. cbn [bind]. rewrite check_flags_ok. tauto.
Qed.

(** check_X_y_domain does not compare the length of sample_domain with the data. *)
Theorem C05_check_X_y_domain_length_refuted : exists n y l f,
  length l <> n /\ check_X_y_domain n y (SDArr l) true f = Ok l.
Proof. exists 2, [VNum 0; VNum 1], [1;1;-2;-2;-2]%Z, (mkFlags None true true true true true true). split; [simpl; lia | reflexivity]. Qed.

(** ** C06 *)

Theorem C06_auto_domain_discrete : forall n y f, 0 < n -> length y = n -> f_auto f = true -> discrete_labels y ->
  Exists (fun v => exists q, v = VNum q /\ (q == inject_Z (-1))%Q) y ->
  Forall (fun v => forall q, v = VNum q -> (inject_Z (-1) <= q)%Q) y ->
  let sd := map (fun v => match v with VNum q => if Qeq_bool q (inject_Z (-1)) then (-2)%Z else 1%Z | _ => 1%Z end) y in
  forall r, check_X_y_domain n y SDNone true f = Ok r <-> r = sd /\ flags_accept f sd.
Proof.
  intros n y f Hn HL Ha Hd He Hg sd r.
  assert (Hy : y <> []) by (intros ->; simpl in *; lia).
  assert (E : check_y_masking y = Ok DISCRETE).
  { rewrite check_y_masking_discrete by auto.
    assert (E1 : existsb (fun v => val_ltb_q v mask_cls_q) y = false).
    { destruct (existsb _ y) eqn:E; auto. apply existsb_exists in E as [v [H1 H2]].
      unfold discrete_labels in Hd. rewrite Forall_forall in Hg, Hd. apply val_ltb_mask in H2 as [[q [-> H2]]| -> ].
      - specialize (Hg _ H1 q eq_refl). exfalso. apply (Qlt_irrefl q). eapply Qlt_le_trans; eauto.
      - destruct (Hd _ H1) as [q [z [C _]]]. discriminate. }
    assert (E2 : existsb (fun v => val_eqb_q v mask_cls_q) y = true).
    { apply existsb_exists. apply Exists_exists in He as [v [H1 H2]]. exists v. split; auto. now apply val_eqb_mask. }
    now rewrite E1, E2. }
  rewrite (auto_domain n y f DISCRETE) by auto. rewrite check_flags_ok.
  replace (map (fun v => if is_masked DISCRETE v then (-2)%Z else 1%Z) y) with sd; [tauto|].
  unfold sd. apply map_ext. intros [q| |]; reflexivity.
Qed.

Theorem C06_auto_domain_continuous : forall n y f, 0 < n -> length y = n -> f_auto f = true -> In VNan y ->
  let sd := map (fun v => match v with VNan => (-2)%Z | _ => 1%Z end) y in
  forall r, check_X_y_domain n y SDNone true f = Ok r <-> r = sd /\ flags_accept f sd.
Proof.
  intros n y f Hn HL Ha Hd sd r.
  assert (E : check_y_masking y = Ok CONTINUOUS).
  { rewrite check_y_masking_continuous by now left. apply existsb_nan in Hd. now rewrite Hd. }
  rewrite (auto_domain n y f CONTINUOUS) by auto. rewrite check_flags_ok.
  replace (map (fun v => if is_masked CONTINUOUS v then (-2)%Z else 1%Z) y) with sd; [tauto|].
  unfold sd. apply map_ext. intros [q| |]; reflexivity.
Qed.

(** No mask present, or a discrete label below -1: ValueError. *)
Theorem C06_auto_domain_rejects : forall n y f, 0 < n -> length y = n -> f_auto f = true ->
  (~ In VNan y) ->
  (Forall (fun v => ~ exists q, v = VNum q /\ (q == inject_Z (-1))%Q) y \/
   Exists (fun v => exists q, v = VNum q /\ (q < inject_Z (-1))%Q) y) ->
  check_X_y_domain n y SDNone true f = Err ValueError.
Proof.
  intros n y f Hn HL Ha HN Hm.
  assert (Hy : y <> []) by (intros ->; simpl in *; lia).
  assert (E : check_y_masking y = Err ValueError).
  { destruct (labels_cases y Hy) as [Hd|[Hc|[_ Hi]]].
    - rewrite check_y_masking_discrete by auto.
      destruct Hm as [Hm|Hm].
      + assert (E2 : existsb (fun v => val_eqb_q v mask_cls_q) y = false).
        { destruct (existsb _ y) eqn:E; auto. apply existsb_exists in E as [v [H1 H2]].
          rewrite Forall_forall in Hm. exfalso. apply (Hm _ H1). now apply val_eqb_mask. }
        now rewrite E2, orb_true_r.
      + assert (E1 : existsb (fun v => val_ltb_q v mask_cls_q) y = true).
        { apply existsb_exists. apply Exists_exists in Hm as [v [H1 H2]]. exists v. split; auto.
          apply val_ltb_mask. now left. }
        now rewrite E1.
    - rewrite check_y_masking_continuous by auto. destruct (existsb is_nan y) eqn:E; auto.
      apply existsb_nan in E. contradiction.
    - now apply check_y_masking_inf. }
  unfold check_X_y_domain. destruct (Nat.eqb_spec n 0); [lia|]. destruct (Nat.eqb_spec (length y) 0); [lia|].
  cbn [negb andb]. destruct (Nat.eqb_spec n (length y)); [|lia]. cbn [negb]. now rewrite Ha, E.
Qed.

(** Without y everything is target -1; scalars are broadcast. *)
Theorem C06_defaults_without_labels : forall n f r, 0 < n ->
  (check_X_domain n SDNone f = Ok r -> r = repeat (-1)%Z n) /\
  (forall z, check_X_domain n (SDScalar z) f = Ok r -> r = repeat z n) /\
  (forall z y, check_X_y_domain n y (SDScalar z) true f = Ok r -> r = repeat z n).
Proof.
  intros n f r Hn. split; [|split].
  - intros H. apply check_X_domain_ok in H as [_ [-> _]]. reflexivity.
  - intros z H. apply check_X_domain_ok in H as [_ [-> _]]. reflexivity.
  - intros z y H. unfold check_X_y_domain in H. destruct (n =? 0); [easy|]. destruct (length y =? 0); [easy|].
    cbn [negb andb] in H. destruct (Nat.eqb_spec n (length y)) as [->|]; [|easy]. cbn [negb bind] in H.
    apply bind_ok in H as [m [_ H]]. apply check_flags_ok in H. tauto.
Qed.

Example C06_ex :
  check_X_y_domain 4 [VNum 3; VNum (inject_Z (-1)); VNum 0; VNum (inject_Z (-1))] SDNone true (mkFlags None true true true true true true)
    = Ok [1;-2;1;-2]%Z /\
  check_X_y_domain 3 [VNum (1#2); VNan; VNum 7] SDNone true (mkFlags None true true true true true true) = Ok [1;-2;1]%Z /\
  check_X_y_domain 2 [VNum 1; VNum 2] SDNone true (mkFlags None true true true true true true) = Err ValueError.
Proof. repeat split. Qed.

(** ** C07 *)

Theorem C07_domains_indices_exact : forall sd, sd <> [] ->
  exists d, extract_domains_indices sd = Ok d /\
    StronglySorted Z.lt (map fst d) /\
    (forall k, In k (map fst d) <-> In k sd) /\
    (forall k idx, In (k, idx) d -> idx = positions (Z.eqb k) sd) /\
    Permutation (concat (map snd d)) (seq 0 (length sd)).
Proof.
  intros sd H. eexists. split; [now apply extract_domains_ok|].
  rewrite !map_map. cbn [fst snd]. rewrite map_id. split; [|split; [|split]].
  - apply unique_sorted.
  - intros k. apply unique_In.
  - intros k idx Hin. apply in_map_iff in Hin as [d [E _]]. now injection E as <- <-.
  - rewrite <- flat_map_concat_map. apply domains_cover.
Qed.

Theorem C07_positions_increasing_and_exact : forall (sd : list Z) (k : Z),
  StronglySorted lt (positions (Z.eqb k) sd) /\
  (forall i, In i (positions (Z.eqb k) sd) <-> nth_error sd i = Some k).
Proof.
  intros sd k. split; [apply positions_sorted|]. intros i. rewrite positions_In. split.
  - intros [x [H1 H2]]. apply Z.eqb_eq in H2. congruence.
  - intros H. exists k. split; auto. apply Z.eqb_refl.
Qed.

Theorem C07_split_source_target : forall sd s t, extract_domains_indices_st sd = Ok (s, t) ->
  exists d, extract_domains_indices sd = Ok d /\ Permutation (s ++ t) d /\
    (forall k, In k (map fst s) -> (0 <= k)%Z) /\ (forall k, In k (map fst t) -> (k < 0)%Z).
Proof.
  intros sd s t H. unfold extract_domains_indices_st in H. apply bind_ok in H as [d [E H]].
  injection H as <- <-. exists d. split; auto. split; [|split].
  - rewrite (filter_ext (fun kv : Z * list nat => (fst kv <? 0)%Z) (fun kv => negb (0 <=? fst kv)%Z)).
    + clear E. induction d as [|[k v] d IH]; simpl; auto. destruct (0 <=? k)%Z; simpl; [now constructor|].
      rewrite <- Permutation_middle. now constructor.
    + intros [k v]. simpl. apply (is_target_negb k).
  - intros k Hk. apply in_map_iff in Hk as [[k' v] [<- Hk]]. apply filter_In in Hk as [_ Hk]. simpl in *. lia.
  - intros k Hk. apply in_map_iff in Hk as [[k' v] [<- Hk]]. apply filter_In in Hk as [_ Hk]. simpl in *. lia.
Qed.

Theorem C07_per_domain_split_exact : forall (A : Type) (arrays : list (option (list A))) (sd : list Z),
  arrays <> [] -> sd <> [] -> (forall xs, In (Some xs) arrays -> length xs = length sd) ->
  exists labels, StronglySorted Z.lt labels /\ (forall k, In k labels <-> In k sd) /\
  per_domain_split arrays sd =
  Ok (map (fun d => (d, map (domain_rows sd d) arrays)) (filter is_source labels),
      map (fun d => (d, map (domain_rows sd d) arrays)) (filter is_target labels)).
Proof.
  intros A arrays sd H1 H2 H3. exists (unique sd). split; [apply unique_sorted|].
  split; [intros k; apply unique_In|]. now apply per_domain_ok.
Qed.

Example C07_ex :
  extract_domains_indices [3;-2;3;0;-2]%Z = Ok [((-2)%Z, [1;4]); (0%Z, [3]); (3%Z, [0;2])] /\
  per_domain_split [Some [10;11;12;13;14]; None] [3;-2;3;0;-2]%Z =
    Ok ([(0%Z, [Some [13]; None]); (3%Z, [Some [10;12]; None])], [((-2)%Z, [Some [11;14]; None])]).
Proof. split; reflexivity. Qed.
