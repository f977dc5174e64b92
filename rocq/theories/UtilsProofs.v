(** Proofs about the utils model. *)
From Coq Require Import List ZArith QArith Bool Arith Lia Sorting.Permutation Sorting.Sorted.
From Verif Require Import Np NpFacts Labels Spec SpecFacts UtilsModel UtilsSpec.
Import ListNotations.
Local Open Scope nat_scope.

Lemma source_mask_eq sd : source_mask sd = map is_source sd.
Proof. reflexivity. Qed.

Lemma target_mask_eq sd : map (fun d => (d <? 0)%Z) sd = map is_target sd.
Proof. reflexivity. Qed.

Lemma neg_source_mask sd : map negb (source_mask sd) = map is_target sd.
Proof. unfold source_mask. rewrite map_map. apply map_ext. intros d. symmetry. apply is_target_negb. Qed.

Lemma extract_source_ok sd : sd <> [] -> extract_source_indices sd = Ok (map is_source sd).
Proof. destruct sd; [easy|]. reflexivity. Qed.

Lemma np_select_ok {A} m (xs : list A) : length m = length xs -> np_select m xs = Ok (select m xs).
Proof. intros H. unfold np_select. now rewrite H, Nat.eqb_refl. Qed.

(** ** Split *)

Lemma split_ok {A} (arrays : list (option (list A))) sd :
  arrays <> [] -> sd <> [] ->
  (forall xs, In (Some xs) arrays -> length xs = length sd) ->
  source_target_split arrays sd = Ok (flat_map (split_spec sd) arrays).
Proof.
  intros Ha Hs HL. unfold source_target_split, split_gen.
  destruct arrays as [|a0 arrays]; [easy|]. cbn [length Nat.eqb raise_if].
  rewrite extract_source_ok by auto. cbn [bind].
  rewrite (mapM_ext _ (fun a => Ok (split_spec sd a))).
  - rewrite mapM_pure. cbn [bind]. now rewrite flat_map_concat_map.
  - intros [xs|] Hin; [|reflexivity]. specialize (HL xs Hin). unfold split_one, split_spec.
    rewrite np_select_ok by now rewrite map_length. cbn [bind].
    rewrite np_select_ok by now rewrite !map_length. cbn [bind].
    rewrite !rows_of_select. change (map is_source sd) with (source_mask sd) at 2. now rewrite neg_source_mask.
Qed.

Lemma split_empty {A} sd : source_target_split ([] : list (option (list A))) sd = Err ValueError.
Proof. reflexivity. Qed.

Lemma split_no_labels {A} (arrays : list (option (list A))) : source_target_split arrays [] = Err ValueError.
Proof. unfold source_target_split, split_gen, raise_if. now destruct (length arrays =? 0). Qed.

Lemma split_bad_length {A} (pre : list (option (list A))) xs post sd :
  sd <> [] -> length xs <> length sd ->
  source_target_split (pre ++ Some xs :: post) sd = Err IndexError.
Proof.
  intros Hs HL. unfold source_target_split, split_gen.
  rewrite app_length. cbn [length]. rewrite Nat.add_succ_r. cbn [Nat.eqb raise_if].
  rewrite extract_source_ok by auto. cbn [bind].
  assert (E : mapM (split_one np_select (map is_source sd)) (pre ++ Some xs :: post) = Err IndexError).
  { induction pre as [|a pre IH]; cbn [app mapM].
    - unfold split_one at 1, np_select at 1. rewrite map_length.
      destruct (Nat.eqb_spec (length sd) (length xs)); [lia|]. reflexivity.
    - destruct a as [ys|]; cbn [split_one].
      + unfold np_select at 1. rewrite map_length. destruct (length sd =? length ys) eqn:E.
        * cbn [bind]. unfold np_select at 1. rewrite !map_length, E. cbn [bind]. now rewrite IH.
        * reflexivity.
      + cbn [bind]. now rewrite IH. }
  now rewrite E.
Qed.

(** ** Casts *)

Lemma cast_int_id z : cast DInt (VNum (inject_Z z)) = VNum (inject_Z z).
Proof. unfold cast. simpl. now rewrite Z.quot_1_r. Qed.

Lemma cast_rows_id dt rows : (dt = DInt -> int_rows rows) -> map (map (cast dt)) rows = rows.
Proof.
  intros H. destruct dt.
  - specialize (H eq_refl). unfold int_rows in H. induction H as [|r rows Hr _ IH]; simpl; auto.
    rewrite IH. f_equal. induction Hr as [|v r [z ->] _ IHr]; [reflexivity|].
    cbn [map]. rewrite cast_int_id. now f_equal.
  - rewrite <- (map_id rows) at 2. apply map_ext. intros r. induction r; simpl; congruence.
Qed.

(** ** Merge *)

Lemma select_unique {A} m (xs ys : list A) :
  length m = length xs -> length m = length ys ->
  select m xs = select m ys -> select (map negb m) xs = select (map negb m) ys -> xs = ys.
Proof.
  revert xs ys; induction m as [|b m IH]; intros [|x xs] [|y ys]; simpl; intros H1 H2 H3 H4; auto; try discriminate.
  destruct b; simpl in *.
  - injection H3 as -> H3. f_equal. apply IH; auto; lia.
  - injection H4 as -> H4. f_equal. apply IH; auto; lia.
Qed.

Lemma rows_of_unique {A} sd (xs ys : list A) :
  length xs = length sd -> length ys = length sd ->
  rows_of is_source sd xs = rows_of is_source sd ys ->
  rows_of is_target sd xs = rows_of is_target sd ys -> xs = ys.
Proof.
  intros H1 H2. rewrite !rows_of_select, <- !neg_source_mask.
  apply select_unique; unfold source_mask; now rewrite map_length.
Qed.

Lemma np_setmask_ok {A} m (vals out : list A) :
  length m = length out -> length vals = count m -> np_setmask m vals out = Ok (place m vals out).
Proof. intros H1 H2. unfold np_setmask. now rewrite H1, H2, !Nat.eqb_refl. Qed.

Lemma zero_rows_length tl n : length (zero_rows tl n) = n.
Proof. apply repeat_length. Qed.

Lemma tail_eqb_refl l : tail_eqb l l = true.
Proof. unfold tail_eqb. destruct (list_eq_dec _ l l); congruence. Qed.

Lemma place_src_tgt {A} sd (s t out : list A) :
  length out = length sd -> length s = how_many is_source sd -> length t = how_many is_target sd ->
  let o := place (map is_target sd) t (place (map is_source sd) s out) in
  length o = length sd /\ rows_of is_source sd o = s /\ rows_of is_target sd o = t.
Proof.
  intros H1 H2 H3 o. split; [|split].
  - unfold o. now rewrite !place_length.
  - rewrite rows_of_select. unfold o. rewrite <- neg_source_mask. change (source_mask sd) with (map is_source sd).
    assert (E : map is_source sd = map negb (map negb (map is_source sd))).
    { rewrite map_map. rewrite <- (map_id (map is_source sd)) at 1. apply map_ext. now intros []. }
    rewrite E at 1. rewrite place_select_neg. rewrite <- E.
    apply place_select; [now rewrite map_length|]. now rewrite count_map.
  - rewrite rows_of_select. apply place_select; [rewrite place_length, map_length; lia|].
    now rewrite count_map.
Qed.

Lemma merge_arrays_char s t sd :
  sd <> [] -> a_len s = how_many is_source sd -> a_len t = how_many is_target sd ->
  (0 < a_len s -> 0 < a_len t -> a_tail s = a_tail t) ->
  let dt := if 0 <? a_len s then a_dt s else a_dt t in
  let tl := if 0 <? a_len s then a_tail s else a_tail t in
  exists out, merge_arrays s t sd = Ok (mkArr dt tl out) /\
    merged sd (map (map (cast dt)) (a_rows s)) (map (map (cast dt)) (a_rows t)) out.
Proof.
  intros Hsd Hs Ht Htl dt tl.
  pose proof (how_many_split sd) as HS.
  unfold merge_arrays. change (source_mask sd) with (map is_source sd). change (map (fun d => (d <? 0)%Z) sd) with (map is_target sd).
  unfold dt, tl; clear dt tl.
  destruct (Nat.ltb_spec 0 (a_len s)) as [L1|L1]; destruct (Nat.ltb_spec 0 (a_len t)) as [L2|L2]; cbn [andb].
  - rewrite <- Htl by auto. rewrite tail_eqb_refl.
    rewrite np_setmask_ok; cbn [bind].
    2: { rewrite zero_rows_length, map_length. lia. }
    2: { rewrite map_length, count_map. exact Hs. }
    rewrite np_setmask_ok; cbn [bind].
    2: { rewrite place_length, zero_rows_length, map_length. lia. }
    2: { rewrite map_length, count_map. exact Ht. }
    eexists; split; [reflexivity|]. apply place_src_tgt.
    + rewrite zero_rows_length. lia.
    + now rewrite map_length.
    + now rewrite map_length.
  - rewrite np_setmask_ok; cbn [bind].
    2: { rewrite zero_rows_length, map_length. lia. }
    2: { rewrite map_length, count_map. exact Hs. }
    eexists; split; [reflexivity|].
    assert (Hn : a_rows t = []) by (apply length_zero_iff_nil; unfold a_len in *; lia).
    rewrite Hn. cbn [map].
    pose proof (place_src_tgt sd (map (map (cast (a_dt s))) (a_rows s)) [] (zero_rows (a_tail s) (a_len s))) as P.
    rewrite place_nil_vals in P. apply P.
    + rewrite zero_rows_length. lia.
    + now rewrite map_length.
    + simpl. lia.
  - rewrite np_setmask_ok; cbn [bind].
    2: { rewrite zero_rows_length, map_length. lia. }
    2: { rewrite map_length, count_map. exact Ht. }
    eexists; split; [reflexivity|].
    assert (Hn : a_rows s = []) by (apply length_zero_iff_nil; unfold a_len in *; lia).
    rewrite Hn. cbn [map].
    pose proof (place_src_tgt sd [] (map (map (cast (a_dt t))) (a_rows t)) (zero_rows (a_tail t) (a_len t))) as P.
    rewrite place_nil_vals in P. apply P.
    + rewrite zero_rows_length. lia.
    + simpl. lia.
    + now rewrite map_length.
  - exfalso. apply Hsd. apply length_zero_iff_nil. lia.
Qed.

Lemma count_neg_source sd : count (map negb (source_mask sd)) = how_many is_target sd.
Proof. rewrite neg_source_mask. apply count_map. Qed.

Lemma count_source sd : count (source_mask sd) = how_many is_source sd.
Proof. apply count_map. Qed.

(** Both halves given and counts right. *)
Lemma merge_pair_both sd s t :
  sd <> [] -> 0 < a_size s -> 0 < a_size t -> a_tail s = a_tail t ->
  a_len s = how_many is_source sd -> a_len t = how_many is_target sd ->
  exists out, merge_pair sd (s, t) = Ok (mkArr (a_dt s) (a_tail s) out) /\
    merged sd (map (map (cast (a_dt s))) (a_rows s)) (map (map (cast (a_dt s))) (a_rows t)) out.
Proof.
  intros Hsd Zs Zt Htl Hs Ht. unfold merge_pair.
  destruct (Nat.eqb_spec (a_size t) 0); [lia|]. destruct (Nat.eqb_spec (a_size s) 0); [lia|].
  cbn [bind]. rewrite count_source, count_neg_source, Hs, Ht, !Nat.eqb_refl. cbn [negb orb].
  destruct (merge_arrays_char s t sd) as [out [E M]]; auto.
  assert (0 < a_len s) by (unfold a_size in *; destruct (a_len s); lia).
  apply Nat.ltb_lt in H. rewrite H in *. eauto.
Qed.

Lemma merge_pair_miscount sd s t :
  0 < a_size s -> 0 < a_size t ->
  a_len s <> how_many is_source sd \/ a_len t <> how_many is_target sd ->
  merge_pair sd (s, t) = Err ValueError.
Proof.
  intros Zs Zt H. unfold merge_pair.
  destruct (Nat.eqb_spec (a_size t) 0); [lia|]. destruct (Nat.eqb_spec (a_size s) 0); [lia|].
  cbn [bind]. rewrite count_source, count_neg_source.
  destruct (Nat.eqb_spec (a_len s) (how_many is_source sd)); destruct (Nat.eqb_spec (a_len t) (how_many is_target sd));
    cbn [negb orb]; auto. lia.
Qed.

Lemma pairs_of_interleave ps : pairs_of (interleave ps) = map (fun p => (Some (fst p), Some (snd p))) ps.
Proof. induction ps as [|p ps IH]; simpl; auto. f_equal. apply IH. Qed.

Lemma interleave_length ps : length (interleave ps) = 2 * length ps.
Proof. unfold interleave. induction ps as [|p ps IH]; simpl in *; lia. Qed.

Lemma mod2_double k : (2 * k) mod 2 = 0.
Proof. rewrite Nat.mul_comm. apply Nat.mod_mul. lia. Qed.

Lemma merge_unfold ps sd : ps <> [] ->
  source_target_merge (interleave ps) sd =
  (ps' <- mapM check_pair (map (fun p => (Some (fst p), Some (snd p))) ps) ;;
   let sd' := infer_domain ps' sd in
   _m <- extract_source_indices sd' ;;
   ms <- mapM (merge_pair sd') ps' ;;
   Ok (ms, sd')).
Proof.
  intros H. unfold source_target_merge. rewrite interleave_length.
  destruct ps as [|p ps]; [easy|]. cbn [length].
  destruct (Nat.ltb_spec (2 * S (length ps)) 2); [lia|].
  rewrite mod2_double. cbn [Nat.eqb negb].
  now rewrite pairs_of_interleave.
Qed.

Lemma check_pair_ok s t : 0 < a_size s -> 0 < a_size t -> a_tail s = a_tail t ->
  check_pair (Some s, Some t) = Ok (s, t).
Proof.
  intros Zs Zt Ht. unfold check_pair. cbn [fst snd].
  assert (Es : norm_arr (Some s) = s).
  { unfold norm_arr. unfold a_size in Zs. destruct (Nat.eqb_spec (a_len s) 0); auto. lia. }
  assert (Et : norm_arr (Some t) = t).
  { unfold norm_arr. unfold a_size in Zt. destruct (Nat.eqb_spec (a_len t) 0); auto. lia. }
  rewrite Es, Et. destruct (Nat.eqb_spec (a_size s) 0); [lia|]. destruct (Nat.eqb_spec (a_size t) 0); [lia|].
  cbn [andb negb]. now rewrite Ht, tail_eqb_refl.
Qed.

Lemma check_pairs_ok ps : Forall good_pair ps ->
  mapM check_pair (map (fun p => (Some (fst p), Some (snd p))) ps) = Ok ps.
Proof.
  induction 1 as [|[s t] ps [H1 [H2 H3]] _ IH]; [reflexivity|].
  cbn [map mapM fst snd] in *. rewrite check_pair_ok by auto. cbn [bind]. now rewrite IH.
Qed.

Lemma infer_given ps sd : sd <> [] -> infer_domain ps (Some sd) = sd.
Proof. destruct sd; [easy|]. reflexivity. Qed.

Lemma merge_ok_spec ps sd :
  ps <> [] -> sd <> [] -> Forall good_pair ps ->
  Forall (fun p => a_len (fst p) = how_many is_source sd /\ a_len (snd p) = how_many is_target sd) ps ->
  exists ms, source_target_merge (interleave ps) (Some sd) = Ok (ms, sd) /\
    Forall2 (fun p m => a_dt m = a_dt (fst p) /\ a_tail m = a_tail (fst p) /\
               merged sd (map (map (cast (a_dt (fst p)))) (a_rows (fst p)))
                         (map (map (cast (a_dt (fst p)))) (a_rows (snd p))) (a_rows m)) ps ms.
Proof.
  intros Hp Hsd Hg Hc. rewrite merge_unfold by auto. rewrite check_pairs_ok by auto. cbn [bind].
  rewrite infer_given, extract_source_ok by auto. cbn [bind]. clear Hp.
  assert (E : exists ms, mapM (merge_pair sd) ps = Ok ms /\
    Forall2 (fun p m => a_dt m = a_dt (fst p) /\ a_tail m = a_tail (fst p) /\
               merged sd (map (map (cast (a_dt (fst p)))) (a_rows (fst p)))
                         (map (map (cast (a_dt (fst p)))) (a_rows (snd p))) (a_rows m)) ps ms).
  { induction ps as [|[s t] ps IH]; [exists []; split; [reflexivity|constructor]|].
    inversion Hg as [|? ? [G1 [G2 G3]] G4]; inversion Hc as [|? ? [C1 C2] C3]; subst.
    cbn [fst snd] in *.
    destruct (merge_pair_both sd s t) as [out [E1 M1]]; auto.
    destruct IH as [ms [E2 M2]]; auto.
    exists (mkArr (a_dt s) (a_tail s) out :: ms). cbn [mapM]. rewrite E1. cbn [bind]. rewrite E2. cbn [bind].
    split; auto. }
  destruct E as [ms [E M]]. rewrite E. cbn [bind]. eauto.
Qed.

Lemma merge_miscount ps sd :
  ps <> [] -> sd <> [] -> Forall good_pair ps ->
  Exists (fun p => a_len (fst p) <> how_many is_source sd \/ a_len (snd p) <> how_many is_target sd) ps ->
  source_target_merge (interleave ps) (Some sd) = Err ValueError.
Proof.
  intros Hp Hsd Hg Hc. rewrite merge_unfold by auto. rewrite check_pairs_ok by auto. cbn [bind].
  rewrite infer_given, extract_source_ok by auto. cbn [bind]. clear Hp.
  assert (E : mapM (merge_pair sd) ps = Err ValueError).
  { induction ps as [|[s t] ps IH]; [inversion Hc|].
    inversion Hg as [|? ? [G1 [G2 G3]] G4]; subst. cbn [fst snd] in *. cbn [mapM].
    destruct (Nat.eq_dec (a_len s) (how_many is_source sd)); [destruct (Nat.eq_dec (a_len t) (how_many is_target sd))|].
    - destruct (merge_pair_both sd s t) as [out [E1 _]]; auto. rewrite E1. cbn [bind].
      rewrite IH; auto. inversion Hc; subst; auto. cbn [fst snd] in *. lia.
    - now rewrite merge_pair_miscount by auto.
    - now rewrite merge_pair_miscount by auto. }
  now rewrite E.
Qed.

Lemma merge_few arrays sd : length arrays < 2 -> source_target_merge arrays sd = Err ValueError.
Proof. intros H. unfold source_target_merge. apply Nat.ltb_lt in H. now rewrite H. Qed.

Lemma merge_odd arrays sd : Nat.odd (length arrays) = true -> source_target_merge arrays sd = Err ValueError.
Proof.
  intros H. unfold source_target_merge. destruct (length arrays <? 2); auto.
  rewrite <- Nat.bit0_mod, Nat.bit0_odd, H. reflexivity.
Qed.

Lemma norm_missing a : is_missing a -> norm_arr a = empty_arr.
Proof. destruct a; simpl; auto. intros ->. reflexivity. Qed.

Lemma check_pair_missing p : is_missing (fst p) -> is_missing (snd p) -> check_pair p = Err ValueError.
Proof. intros H1 H2. unfold check_pair. rewrite !norm_missing by auto. reflexivity. Qed.

Lemma check_pair_err p e : check_pair p = Err e -> e = ValueError.
Proof.
  unfold check_pair. destruct (_ && _); [congruence|]. destruct (_ && _); congruence.
Qed.

Lemma merge_empty_pair pre a b post sd :
  Nat.even (length pre) = true -> Nat.even (length post) = true -> is_missing a -> is_missing b ->
  source_target_merge (pre ++ a :: b :: post) sd = Err ValueError.
Proof.
  intros He1 He2 Ha Hb. unfold source_target_merge.
  destruct (length (pre ++ a :: b :: post) <? 2); auto.
  destruct (length (pre ++ a :: b :: post) mod 2 =? 0); auto. cbn [negb].
  assert (E : mapM check_pair (pairs_of (pre ++ a :: b :: post)) = Err ValueError).
  { clear He2. remember (length pre) as n eqn:Hn. revert pre Hn He1.
    induction n as [n IH] using (well_founded_induction lt_wf). intros pre Hn He.
    destruct pre as [|x [|y pre]].
    - cbn [app pairs_of mapM]. rewrite check_pair_missing; auto.
    - simpl in Hn. subst n. discriminate.
    - cbn [app pairs_of mapM]. destruct (check_pair (x, y)) eqn:Ec; cbn [bind].
      + rewrite (IH (length pre)); auto; simpl in Hn; subst n; auto; lia.
      + now rewrite (check_pair_err _ _ Ec). }
  now rewrite E.
Qed.

(** ** Round trip *)

Lemma split_arr_ok arrays sd :
  arrays <> [] -> sd <> [] -> Forall (splittable sd) arrays ->
  source_target_split_arr (map Some arrays) sd =
  Ok (interleave (map (fun a => (mkArr (a_dt a) (a_tail a) (rows_of is_source sd (a_rows a)),
                                 mkArr (a_dt a) (a_tail a) (rows_of is_target sd (a_rows a)))) arrays)).
Proof.
  intros Ha Hs HF. unfold source_target_split_arr, split_gen.
  rewrite map_length. destruct arrays as [|a0 arrays]; [easy|]. cbn [length Nat.eqb raise_if].
  rewrite extract_source_ok by auto. cbn [bind].
  remember (a0 :: arrays) as l eqn:El. clear El Ha.
  assert (E : forall a, In a l ->
    split_one arr_select (map is_source sd) (Some a) =
    Ok [Some (mkArr (a_dt a) (a_tail a) (rows_of is_source sd (a_rows a)));
        Some (mkArr (a_dt a) (a_tail a) (rows_of is_target sd (a_rows a)))]).
  { intros a Hin. rewrite Forall_forall in HF. destruct (HF a Hin) as [HL _].
    unfold split_one, arr_select. unfold a_len in HL.
    rewrite np_select_ok by now rewrite map_length. cbn [bind].
    rewrite np_select_ok by now rewrite !map_length. cbn [bind].
    change (map is_source sd) with (source_mask sd) at 2. now rewrite neg_source_mask, !rows_of_select. }
  assert (G : mapM (split_one arr_select (map is_source sd)) (map Some l) =
     Ok (map (fun a => [Some (mkArr (a_dt a) (a_tail a) (rows_of is_source sd (a_rows a)));
        Some (mkArr (a_dt a) (a_tail a) (rows_of is_target sd (a_rows a)))]) l)).
  { clear HF. induction l as [|a l IH]; [reflexivity|].
    cbn [map mapM]. rewrite E by now left. cbn [bind]. rewrite IH; [reflexivity|].
    intros b Hb. apply E. now right. }
  rewrite G. cbn [bind]. f_equal. unfold interleave. rewrite flat_map_concat_map, map_map. reflexivity.
Qed.

Lemma int_rows_rows_of p sd rows : int_rows rows -> int_rows (rows_of p sd rows).
Proof.
  unfold int_rows. rewrite !Forall_forall. intros H r Hr. apply H.
  rewrite rows_of_select in Hr. now apply select_incl in Hr.
Qed.

Lemma arr_eta a : mkArr (a_dt a) (a_tail a) (a_rows a) = a.
Proof. now destruct a. Qed.

(** one array: check_pair then merge_pair gives it back *)
Lemma round_trip_one sd a : sd <> [] -> splittable sd a ->
  exists p, check_pair (Some (mkArr (a_dt a) (a_tail a) (rows_of is_source sd (a_rows a))),
                        Some (mkArr (a_dt a) (a_tail a) (rows_of is_target sd (a_rows a)))) = Ok p /\
    merge_pair sd p = Ok a.
Proof.
  intros Hsd [HL [HT HW]].
  set (s := mkArr (a_dt a) (a_tail a) (rows_of is_source sd (a_rows a))).
  set (t := mkArr (a_dt a) (a_tail a) (rows_of is_target sd (a_rows a))).
  assert (Ls : a_len s = how_many is_source sd) by (apply rows_of_length; symmetry; exact HL).
  assert (Lt : a_len t = how_many is_target sd) by (apply rows_of_length; symmetry; exact HL).
  pose proof (how_many_split sd) as HS.
  assert (Hlen : 0 < length sd) by (destruct sd; [easy|simpl; lia]).
  assert (Cs : map (map (cast (a_dt a))) (a_rows s) = a_rows s).
  { apply cast_rows_id. intros Hd. apply int_rows_rows_of. now apply HW. }
  assert (Ct : map (map (cast (a_dt a))) (a_rows t) = a_rows t).
  { apply cast_rows_id. intros Hd. apply int_rows_rows_of. now apply HW. }
  assert (UNI : forall out, merged sd (a_rows s) (a_rows t) out -> out = a_rows a).
  { intros out [M1 [M2 M3]]. apply rows_of_unique with (sd := sd); auto. }
  destruct (Nat.eq_dec (a_len s) 0) as [Es|Es]; [|destruct (Nat.eq_dec (a_len t) 0) as [Et|Et]].
  - (* all target *)
    exists (empty_arr, t). split.
    + unfold check_pair. cbn [fst snd]. unfold norm_arr. rewrite Es. cbn [Nat.eqb].
      destruct (Nat.eqb_spec (a_len t) 0); [lia|]. change (a_size empty_arr) with 0. cbn [Nat.eqb andb negb].
      destruct (Nat.eqb_spec (a_size t) 0) as [Q|Q]; [unfold a_size in Q; apply Nat.eq_mul_0 in Q; simpl in Q; lia|]. reflexivity.
    + unfold merge_pair.
      destruct (Nat.eqb_spec (a_size t) 0) as [Q|Q]; [unfold a_size in Q; apply Nat.eq_mul_0 in Q; simpl in Q; lia|].
      change (a_size empty_arr) with 0. cbn [Nat.eqb].
      destruct (Nat.ltb_spec 0 (length sd - a_len t)); [lia|]. cbn [bind].
      rewrite count_source, count_neg_source. cbn [a_len a_rows empty_arr length].
      replace (how_many is_source sd) with 0 by lia. rewrite Lt, !Nat.eqb_refl. cbn [Nat.eqb negb orb].
      destruct (merge_arrays_char empty_arr t sd) as [out [E M]]; auto.
      all: try (change (a_len empty_arr) with 0; lia).
      cbn [a_len empty_arr a_rows length] in E, M. change (0 <? 0) with false in E, M. cbn [map] in M.
      rewrite E. rewrite <- (arr_eta a). cbn [a_dt a_tail t] in *. f_equal. f_equal. apply UNI.
      replace (a_rows s) with (@nil (list val)).
      * rewrite Ct in M. exact M.
      * symmetry. now apply length_zero_iff_nil.
  - (* all source *)
    exists (s, empty_arr). split.
    + unfold check_pair. cbn [fst snd]. unfold norm_arr. rewrite Et. cbn [Nat.eqb].
      destruct (Nat.eqb_spec (a_len s) 0); [lia|].
      destruct (Nat.eqb_spec (a_size s) 0) as [Q|Q]; [unfold a_size in Q; apply Nat.eq_mul_0 in Q; simpl in Q; lia|]. reflexivity.
    + unfold merge_pair. change (a_size empty_arr) with 0. cbn [Nat.eqb].
      destruct (Nat.ltb_spec 0 (length sd - a_len s)); [lia|]. cbn [bind].
      rewrite count_source, count_neg_source. cbn [a_len a_rows empty_arr length].
      replace (how_many is_target sd) with 0 by lia. rewrite Ls, !Nat.eqb_refl. cbn [Nat.eqb negb orb].
      destruct (merge_arrays_char s empty_arr sd) as [out [E M]]; auto.
      all: try (change (a_len empty_arr) with 0; lia).
      destruct (Nat.ltb_spec 0 (a_len s)); [|lia]. cbn [map empty_arr a_rows] in M.
      rewrite E. rewrite <- (arr_eta a). cbn [a_dt a_tail s] in *. f_equal. f_equal. apply UNI.
      replace (a_rows t) with (@nil (list val)).
      * rewrite Cs in M. exact M.
      * symmetry. now apply length_zero_iff_nil.
  - assert (Zs : 0 < a_size s) by (unfold a_size; simpl a_tail; apply Nat.mul_pos_pos; lia).
    assert (Zt : 0 < a_size t) by (unfold a_size; simpl a_tail; apply Nat.mul_pos_pos; lia).
    exists (s, t). split; [now apply check_pair_ok|].
    destruct (merge_pair_both sd s t) as [out [E M]]; auto.
    rewrite E. rewrite <- (arr_eta a). cbn [a_dt a_tail s] in *. f_equal. f_equal. apply UNI.
    rewrite Cs, Ct in M. exact M.
Qed.

Lemma round_trip arrays sd :
  arrays <> [] -> sd <> [] -> Forall (splittable sd) arrays ->
  exists parts, source_target_split_arr (map Some arrays) sd = Ok parts /\
    source_target_merge parts (Some sd) = Ok (arrays, sd).
Proof.
  intros Ha Hsd HF. eexists. split; [now apply split_arr_ok|].
  rewrite merge_unfold by (destruct arrays; easy).
  assert (E : exists ps, mapM check_pair (map (fun p : arr * arr => (Some (fst p), Some (snd p)))
     (map (fun a => (mkArr (a_dt a) (a_tail a) (rows_of is_source sd (a_rows a)),
                     mkArr (a_dt a) (a_tail a) (rows_of is_target sd (a_rows a)))) arrays)) = Ok ps /\
     mapM (merge_pair sd) ps = Ok arrays).
  { clear Ha. induction HF as [|a arrays Hs _ [ps [E1 E2]]]; [exists []; split; reflexivity|].
    destruct (round_trip_one sd a Hsd Hs) as [p [P1 P2]].
    exists (p :: ps). cbn [map mapM fst snd]. rewrite P1. cbn [bind]. rewrite E1. cbn [bind].
    split; auto. rewrite P2. cbn [bind]. now rewrite E2. }
  destruct E as [ps [E1 E2]]. rewrite E1. cbn [bind].
  rewrite infer_given, extract_source_ok by auto. cbn [bind]. now rewrite E2.
Qed.
