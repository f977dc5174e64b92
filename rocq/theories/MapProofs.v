From Coq Require Import List ZArith QArith Bool Arith Lia Reals Lra.
From Verif Require Import Np NpFacts Labels Spec SpecFacts UtilsModel UtilsSpec UtilsProofs UtilsProofs2 SelectModel RVec RVecFacts
  MapModel MapSpec.
Import ListNotations.
Local Open Scope nat_scope.

Lemma check_usable allow n sda : usable allow n sda ->
  check_X_domain n sda (transform_flags allow) = Ok (eff_domain n sda).
Proof.
  intros [H1 [H2 H3]]. apply check_X_domain_ok. repeat split; auto; try discriminate.
Qed.

Lemma check_unusable n sda : 0 < n -> some_label is_source (eff_domain n sda) ->
  check_X_domain n sda (transform_flags false) = Err ValueError.
Proof.
  intros H1 H2. destruct (check_X_domain n sda (transform_flags false)) as [r|e] eqn:E.
  - apply check_X_domain_ok in E as [_ [-> [_ [_ [_ [F _]]]]]]. now destruct F.
  - f_equal. eapply check_X_domain_err; eauto.
Qed.

Lemma usable_nonempty allow n sda : usable allow n sda -> eff_domain n sda <> [].
Proof. intros [H1 [H2 _]] E. rewrite E in H2. simpl in H2. lia. Qed.

(** Merging two halves of the right lengths, one of them possibly empty. *)
Lemma merge_two sd s t :
  sd <> [] -> a_len s = how_many is_source sd -> a_len t = how_many is_target sd ->
  (0 < a_len s -> 0 < prod_tail (a_tail s)) -> (0 < a_len t -> 0 < prod_tail (a_tail t)) ->
  (0 < a_len s -> 0 < a_len t -> a_tail s = a_tail t) ->
  (0 < a_len s -> a_dt s = DInt -> int_rows (a_rows s) /\ int_rows (a_rows t)) -> wf_arr t ->
  exists m, source_target_merge [Some s; Some t] (Some sd) = Ok ([m], sd) /\
    merged sd (a_rows s) (a_rows t) (a_rows m) /\ a_tail m = (if 0 <? a_len s then a_tail s else a_tail t) /\
    a_dt m = (if 0 <? a_len s then a_dt s else a_dt t).
Proof.
  intros Hsd Ls Lt Ps Pt Tl Hs Ht.
  change [Some s; Some t] with (interleave [(s, t)]).
  rewrite merge_unfold by easy. cbn [map mapM fst snd].
  pose proof (how_many_split sd) as HS.
  assert (Hlen : 0 < length sd) by (destruct sd; [easy|simpl; lia]).
  assert (E : exists p m, check_pair (Some s, Some t) = Ok p /\ merge_pair sd p = Ok m /\
    merged sd (a_rows s) (a_rows t) (a_rows m) /\ a_tail m = (if 0 <? a_len s then a_tail s else a_tail t) /\
    a_dt m = (if 0 <? a_len s then a_dt s else a_dt t)).
  { destruct (Nat.eq_dec (a_len s) 0) as [Es|Es]; [|destruct (Nat.eq_dec (a_len t) 0) as [Et|Et]].
    - rewrite Es. change (0 <? 0) with false. cbn iota.
      assert (Zt : 0 < a_size t) by (unfold a_size; apply Nat.mul_pos_pos; [|apply Pt]; lia).
      exists (empty_arr, t).
      destruct (merge_arrays_char empty_arr t sd) as [out [E M]]; auto.
      all: try (change (a_len empty_arr) with 0; lia).
      change (0 <? a_len empty_arr) with false in E, M. cbn iota in E, M.
      exists (mkArr (a_dt t) (a_tail t) out). split; [|split; [|split; [|split; reflexivity]]].
      + unfold check_pair. cbn [fst snd]. unfold norm_arr. rewrite Es. cbn [Nat.eqb].
        destruct (Nat.eqb_spec (a_len t) 0); [lia|]. change (a_size empty_arr) with 0. cbn [Nat.eqb andb negb].
        destruct (Nat.eqb_spec (a_size t) 0); [lia|]. reflexivity.
      + unfold merge_pair. destruct (Nat.eqb_spec (a_size t) 0); [lia|].
        change (a_size empty_arr) with 0. cbn [Nat.eqb].
        destruct (Nat.ltb_spec 0 (length sd - a_len t)); [lia|]. cbn [bind].
        rewrite count_source, count_neg_source. change (a_len empty_arr) with 0.
        replace (how_many is_source sd) with 0 by lia. rewrite Lt, !Nat.eqb_refl. cbn [Nat.eqb negb orb]. exact E.
      + cbn [a_rows]. rewrite (cast_rows_id (a_dt t) (a_rows t)) in M by exact Ht.
        replace (a_rows s) with (@nil (list val)); [exact M|]. symmetry. now apply length_zero_iff_nil.
    - destruct (Nat.ltb_spec 0 (a_len s)); [|lia].
      assert (Zs : 0 < a_size s) by (unfold a_size; apply Nat.mul_pos_pos; [|apply Ps]; lia).
      exists (s, empty_arr).
      destruct (merge_arrays_char s empty_arr sd) as [out [E M]]; auto.
      all: try (change (a_len empty_arr) with 0; lia).
      destruct (Nat.ltb_spec 0 (a_len s)); [|lia].
      exists (mkArr (a_dt s) (a_tail s) out). split; [|split; [|split; [|split; reflexivity]]].
      + unfold check_pair. cbn [fst snd]. unfold norm_arr. rewrite Et. cbn [Nat.eqb].
        destruct (Nat.eqb_spec (a_len s) 0); [lia|]. destruct (Nat.eqb_spec (a_size s) 0); [lia|]. reflexivity.
      + unfold merge_pair. change (a_size empty_arr) with 0. cbn [Nat.eqb].
        destruct (Nat.ltb_spec 0 (length sd - a_len s)); [lia|]. cbn [bind].
        rewrite count_source, count_neg_source. change (a_len empty_arr) with 0.
        replace (how_many is_target sd) with 0 by lia. rewrite Ls, !Nat.eqb_refl. cbn [Nat.eqb negb orb]. exact E.
      + cbn [a_rows]. cbn [a_rows empty_arr map] in M. rewrite (cast_rows_id (a_dt s) (a_rows s)) in M by (intros; apply Hs; auto).
        replace (a_rows t) with (@nil (list val)); [exact M|]. symmetry. now apply length_zero_iff_nil.
    - destruct (Nat.ltb_spec 0 (a_len s)); [|lia].
      assert (Zs : 0 < a_size s) by (unfold a_size; apply Nat.mul_pos_pos; [|apply Ps]; lia).
      assert (Zt : 0 < a_size t) by (unfold a_size; apply Nat.mul_pos_pos; [|apply Pt]; lia).
      exists (s, t). destruct (merge_pair_both sd s t) as [out [E M]]; auto; try (apply Tl; lia).
      exists (mkArr (a_dt s) (a_tail s) out). split; [apply check_pair_ok; auto; apply Tl; lia|].
      split; [exact E|]. split; [|split; reflexivity]. cbn [a_rows].
      rewrite (cast_rows_id (a_dt s) (a_rows s)) in M by (intros; apply Hs; auto).
      rewrite (cast_rows_id (a_dt s) (a_rows t)) in M by (intros; apply Hs; auto). exact M. }
  destruct E as [p [m [E1 [E2 E3]]]]. exists m. rewrite E1. cbn [bind].
  rewrite infer_given, extract_source_ok by auto. cbn [bind mapM]. rewrite E2. cbn [bind]. split; [reflexivity|exact E3].
Qed.

Lemma split_halves X sd : sd <> [] -> length sd = a_len X ->
  source_target_split_arr [Some X] sd = Ok [Some (half is_source sd X); Some (half is_target sd X)].
Proof.
  intros Hsd HL. unfold source_target_split_arr, split_gen. cbn [length Nat.eqb raise_if].
  rewrite extract_source_ok by auto. cbn [bind mapM split_one]. unfold arr_select.
  rewrite np_select_ok by (now rewrite map_length). cbn [bind].
  rewrite np_select_ok by (now rewrite !map_length). cbn [bind concat app].
  unfold half. rewrite !rows_of_select. rewrite map_map.
  rewrite (map_ext (fun d => negb (is_source d)) is_target) by (intros d; symmetry; apply is_target_negb). reflexivity.
Qed.

Lemma half_len p sd X : length sd = a_len X -> a_len (half p sd X) = how_many p sd.
Proof. intros H. apply rows_of_length. exact H. Qed.

Lemma half_wf p sd X : wf_arr X -> wf_arr (half p sd X).
Proof. intros H E. apply int_rows_rows_of. now apply H. Qed.

(** The skeleton of the transforms. *)
Lemma split_map_merge_ok allow fs ft X sda s' t' :
  usable allow (a_len X) sda -> let sd := eff_domain (a_len X) sda in
  (if 0 <? how_many is_source sd then fs (half is_source sd X) else Ok (half is_source sd X)) = Ok s' ->
  (if 0 <? how_many is_target sd then ft (half is_target sd X) else Ok (half is_target sd X)) = Ok t' ->
  a_len s' = how_many is_source sd -> a_len t' = how_many is_target sd ->
  (0 < a_len s' -> 0 < prod_tail (a_tail s')) -> (0 < a_len t' -> 0 < prod_tail (a_tail t')) ->
  (0 < a_len s' -> 0 < a_len t' -> a_tail s' = a_tail t') ->
  (0 < a_len s' -> a_dt s' = DInt -> int_rows (a_rows s') /\ int_rows (a_rows t')) -> wf_arr t' ->
  exists m, split_map_merge allow fs ft X sda = Ok m /\ merged sd (a_rows s') (a_rows t') (a_rows m) /\
    a_tail m = (if 0 <? a_len s' then a_tail s' else a_tail t') /\ a_dt m = (if 0 <? a_len s' then a_dt s' else a_dt t').
Proof.
  intros U sd Fs Ft Ls Lt Ps Pt Tl Hs Ht. unfold split_map_merge.
  rewrite (check_usable _ _ _ U). cbn [bind]. fold sd.
  assert (Hsd : sd <> []) by (eapply usable_nonempty; eauto).
  assert (HL : length sd = a_len X) by apply U.
  rewrite split_halves by auto. cbn [bind].
  rewrite !half_len by auto. rewrite Fs. cbn [bind]. rewrite Ft. cbn [bind].
  destruct (merge_two sd s' t') as [m [E M]]; auto. rewrite E. cbn [bind fst]. exists m. split; [reflexivity|exact M].
Qed.

Lemma rows_of_by_side {A B} (f g : A -> B) sd xs :
  rows_of is_source sd (by_side f g sd xs) = map f (rows_of is_source sd xs) /\
  rows_of is_target sd (by_side f g sd xs) = map g (rows_of is_target sd xs).
Proof.
  rewrite !rows_of_select. unfold by_side. revert xs.
  induction sd as [|d sd IH]; intros [|x xs]; simpl; auto.
  destruct (IH xs) as [I1 I2]. rewrite is_target_negb. destruct (is_source d); simpl; rewrite I1, I2; auto.
Qed.

Lemma by_side_length {A B} (f g : A -> B) sd xs : length sd = length xs -> length (by_side f g sd xs) = length sd.
Proof. intros H. unfold by_side. rewrite map_length, combine_length. lia. Qed.

Lemma merged_by_side (f g : list val -> list val) sd (X m : list (list val)) : length sd = length X ->
  merged sd (map f (rows_of is_source sd X)) (map g (rows_of is_target sd X)) m -> m = by_side f g sd X.
Proof.
  intros HL [M1 [M2 M3]]. destruct (rows_of_by_side f g sd X) as [B1 B2].
  apply (rows_of_unique sd); auto.
  - now apply by_side_length.
  - now rewrite M2, B1.
  - now rewrite M3, B2.
Qed.

(** Row-by-row maps on both sides. *)
Lemma split_map_merge_rows allow fs ft X sda f g tl :
  usable allow (a_len X) sda -> 0 < prod_tail tl ->
  (forall a, 0 < a_len a -> fs a = Ok (mkArr DFloat tl (map f (a_rows a)))) ->
  (forall a, 0 < a_len a -> ft a = Ok (mkArr DFloat tl (map g (a_rows a)))) ->
  split_map_merge allow fs ft X sda = Ok (mkArr DFloat tl (by_side f g (eff_domain (a_len X) sda) (a_rows X))).
Proof.
  intros U Htl Hfs Hft. set (sd := eff_domain (a_len X) sda).
  assert (HL : length sd = a_len X) by apply U.
  pose proof (how_many_split sd) as HS. assert (0 < length sd) by (rewrite HL; apply U).
  destruct (split_map_merge_ok allow fs ft X sda
    (if 0 <? how_many is_source sd then mkArr DFloat tl (map f (a_rows (half is_source sd X))) else half is_source sd X)
    (if 0 <? how_many is_target sd then mkArr DFloat tl (map g (a_rows (half is_target sd X))) else half is_target sd X) U)
    as [m [E [M [T D]]]]; fold sd.
  - destruct (Nat.ltb_spec 0 (how_many is_source sd)) as [K|K]; auto. rewrite Hfs; auto. now rewrite half_len.
  - destruct (Nat.ltb_spec 0 (how_many is_target sd)) as [K|K]; auto. rewrite Hft; auto. now rewrite half_len.
  - destruct (Nat.ltb_spec 0 (how_many is_source sd)); [|now apply half_len].
    unfold a_len. cbn [a_rows]. rewrite map_length. now apply (half_len is_source sd X).
  - destruct (Nat.ltb_spec 0 (how_many is_target sd)); [|now apply half_len].
    unfold a_len. cbn [a_rows]. rewrite map_length. now apply (half_len is_target sd X).
  - destruct (Nat.ltb_spec 0 (how_many is_source sd)); auto. rewrite half_len by auto. lia.
  - destruct (Nat.ltb_spec 0 (how_many is_target sd)); auto. rewrite half_len by auto. lia.
  - destruct (Nat.ltb_spec 0 (how_many is_source sd)), (Nat.ltb_spec 0 (how_many is_target sd)); auto;
      rewrite !half_len by auto; lia.
  - destruct (Nat.ltb_spec 0 (how_many is_source sd)); [discriminate|]. rewrite half_len by auto. lia.
  - destruct (Nat.ltb_spec 0 (how_many is_target sd)) as [K|K]; [easy|]. intros _.
    assert (Z : a_rows (half is_target sd X) = []) by (apply length_zero_iff_nil; change (a_len (half is_target sd X) = 0); rewrite half_len; auto; lia).
    rewrite Z. constructor.
  - rewrite E. f_equal. fold sd in M.
    assert (Zs : how_many is_source sd = 0 -> rows_of is_source sd (a_rows X) = []).
    { intros Z. apply length_zero_iff_nil. rewrite rows_of_length; auto. }
    assert (Zt : how_many is_target sd = 0 -> rows_of is_target sd (a_rows X) = []).
    { intros Z. apply length_zero_iff_nil. rewrite rows_of_length; auto. }
    rewrite <- (arr_eta m). f_equal.
    + rewrite D. destruct (Nat.ltb_spec 0 (how_many is_source sd)) as [K|K].
      * match goal with |- (if ?b then _ else _) = _ => destruct b eqn:Q end; auto.
        apply Nat.ltb_ge in Q. unfold a_len in Q. cbn [a_rows] in Q. rewrite map_length in Q.
        change (a_len (half is_source sd X) <= 0) in Q. rewrite half_len in Q by auto. lia.
      * rewrite half_len by auto. destruct (Nat.ltb_spec 0 (how_many is_source sd)); [lia|].
        destruct (Nat.ltb_spec 0 (how_many is_target sd)); [reflexivity|lia].
    + rewrite T. destruct (Nat.ltb_spec 0 (how_many is_source sd)) as [K|K].
      * match goal with |- (if ?b then _ else _) = _ => destruct b eqn:Q end; auto.
        apply Nat.ltb_ge in Q. unfold a_len in Q. cbn [a_rows] in Q. rewrite map_length in Q.
        change (a_len (half is_source sd X) <= 0) in Q. rewrite half_len in Q by auto. lia.
      * rewrite half_len by auto. destruct (Nat.ltb_spec 0 (how_many is_source sd)); [lia|].
        destruct (Nat.ltb_spec 0 (how_many is_target sd)); [reflexivity|lia].
    + apply merged_by_side; auto. destruct (Nat.ltb_spec 0 (how_many is_source sd)), (Nat.ltb_spec 0 (how_many is_target sd));
        cbn [a_rows half] in M; auto.
      * rewrite Zt in * by lia. exact M.
      * rewrite Zs in * by lia. exact M.
      * rewrite Zs in M by lia. rewrite Zt in M by lia. rewrite Zs, Zt by lia. exact M.
Qed.
