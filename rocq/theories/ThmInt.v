(** Theorem C221: whole numbers may be stored as integers or as floats. *)
From Coq Require Import String List ZArith QArith Bool Arith Lia Reals.
From Verif Require Import Np NpFacts Labels UtilsModel SelectModel RVec MapModel MetricsModel DataModel DataSpec.
Import ListNotations.
Local Open Scope nat_scope.
Local Open Scope list_scope.

(** Specification: the entries of [a] are whole numbers; the same numbers stored as floats; a result compared up to how its numbers are stored. *)
Definition whole_val (v : val) : Prop := exists z, v = VNum (inject_Z z).
Definition whole (a : arr) : Prop := Forall (Forall whole_val) (a_rows a).
Definition as_floats (a : arr) : arr := mkArr DFloat (a_tail a) (a_rows a).
Definition numbers (r : res arr) : res arr := a <- r ;; Ok (as_floats a).
(** An operation on arrays that computes with the numbers and returns floats, as the arithmetic of numpy does. *)
Definition arithmetic (f : arr -> res arr) : Prop := (forall a, f a = f (as_floats a)) /\ forall a b, f a = Ok b -> a_dt b = DFloat.

(** * Helpers *)
Lemma cast_whole dt v : whole_val v -> cast dt v = v.
Proof. intros (z & ->). destruct dt; [|reflexivity]. cbn. now rewrite Z.quot_1_r. Qed.
Lemma cast_rows dt rows : dt = DFloat \/ Forall (Forall whole_val) rows -> map (map (cast dt)) rows = rows.
Proof.
  intros [->|H]; rewrite <- (map_id rows) at 2; apply map_ext_in; intros r I; rewrite <- (map_id r) at 2; apply map_ext_in; intros v J; [reflexivity|].
  apply cast_whole. rewrite Forall_forall in H. specialize (H _ I). rewrite Forall_forall in H. now apply H.
Qed.
Definition settled (s t : arr) : Prop := (a_dt s = DFloat \/ (whole s /\ whole t)) /\ (a_dt t = DFloat \/ whole t).

Lemma merge_arrays_numbers s t sd : settled s t -> numbers (merge_arrays s t sd) = merge_arrays (as_floats s) (as_floats t) sd.
Proof.
  intros (Hs & Ht). unfold merge_arrays, numbers. cbn [a_len a_rows a_tail a_dt as_floats]. unfold a_len at 3 4. cbn [a_rows as_floats].
  assert (Es : map (map (cast (a_dt s))) (a_rows s) = a_rows s) by (apply cast_rows; unfold whole in Hs; tauto).
  assert (Es' : map (map (cast (a_dt s))) (a_rows t) = a_rows t) by (apply cast_rows; unfold whole in Hs; tauto).
  assert (Et : map (map (cast (a_dt t))) (a_rows t) = a_rows t) by (apply cast_rows; unfold whole in Ht; tauto).
  assert (F : forall rows, map (map (cast DFloat)) rows = rows) by (intros; apply cast_rows; now left).
  rewrite Es, Es', Et, !F. unfold a_len. cbn [a_rows as_floats].
  destruct (_ && _); [destruct (tail_eqb _ _); [|reflexivity]|destruct (0 <? length (a_rows s))].
  - destruct (np_setmask _ _ _) as [o|e]; [|reflexivity]. cbn [bind]. destruct (np_setmask _ _ o); reflexivity.
  - destruct (np_setmask _ _ _); reflexivity.
  - destruct (np_setmask _ _ _); reflexivity.
Qed.
Lemma whole_integral v : whole_val v -> is_integral v = true /\ is_nan v = false.
Proof. intros (z & ->). split; [|reflexivity]. cbn. unfold q_integral. cbn. now rewrite Z.rem_1_r. Qed.
Lemma whole_concat a : whole a -> Forall whole_val (concat (a_rows a)).
Proof. unfold whole. induction (a_rows a) as [|r l IH]; intros H; [constructor|]. inversion H; subst. cbn. apply Forall_app. auto. Qed.
Lemma whole_discrete a ty : whole a -> find_y_type a = Ok ty -> ty = DISCRETE.
Proof.
  intros W. unfold find_y_type. cbv zeta. apply whole_concat in W. rewrite Forall_forall in W.
  destruct (existsb is_nan _) eqn:E.
  { apply existsb_exists in E as (v & I & E). destruct (whole_integral v (W _ I)). congruence. }
  destruct (existsb (fun v => negb (is_integral v)) (concat (a_rows a))) eqn:E2.
  { apply existsb_exists in E2 as (v & I & K). destruct (whole_integral v (W _ I)) as (K1 & _). rewrite K1 in K. discriminate. }
  destruct (a_tail a) as [|k [|]]; [| |discriminate]; destruct (a_len a =? 0); try discriminate; [congruence|]. destruct (k =? 1); congruence.
Qed.
Lemma find_y_type_numbers a : find_y_type (as_floats a) = find_y_type a.
Proof. reflexivity. Qed.
Lemma fill_missing_numbers a n : fill_missing (as_floats a) n = fill_missing a n.
Proof. reflexivity. Qed.
Lemma fill_missing_float a n t : fill_missing a n = Ok t -> a_dt t = DFloat /\ as_floats t = t /\ (whole a -> whole t).
Proof.
  unfold fill_missing. destruct (find_y_type a) as [ty|] eqn:E; [|discriminate]. cbn. intros [= <-]. split; [reflexivity|]. split; [reflexivity|].
  intros W. rewrite (whole_discrete a ty W E). unfold whole. cbn. apply Forall_forall. intros r I. apply repeat_spec in I as ->.
  apply Forall_forall. intros v J. apply repeat_spec in J as ->. now exists (-1)%Z.
Qed.
Lemma merge_pair_numbers s t sd : settled s t -> numbers (merge_pair sd (s, t)) = merge_pair sd (as_floats s, as_floats t).
Proof.
  intros S. unfold merge_pair. change (a_size (as_floats t)) with (a_size t). change (a_size (as_floats s)) with (a_size s).
  change (a_len (as_floats t)) with (a_len t). change (a_len (as_floats s)) with (a_len s). rewrite !fill_missing_numbers.
  assert (G : forall s t, settled s t -> numbers (if negb (a_len s =? count (source_mask sd))%nat || negb (a_len t =? count (map negb (source_mask sd)))%nat then Err ValueError else merge_arrays s t sd)
     = if negb (a_len (as_floats s) =? count (source_mask sd))%nat || negb (a_len (as_floats t) =? count (map negb (source_mask sd)))%nat then Err ValueError else merge_arrays (as_floats s) (as_floats t) sd).
  { intros s0 t0 S0. change (a_len (as_floats t0)) with (a_len t0). change (a_len (as_floats s0)) with (a_len s0).
    destruct (_ || _); [reflexivity|]. now apply merge_arrays_numbers. }
  destruct (a_size t =? 0); [destruct (0 <? _)|destruct (a_size s =? 0); [destruct (0 <? _)|]]; cbn [bind]; try now apply G.
  - destruct (fill_missing s _) as [t'|] eqn:E; [|reflexivity]. cbn [bind]. destruct (fill_missing_float _ _ _ E) as (D & F & W).
    assert (Q : settled s t') by (destruct S as ([H|(H & _)] & _); split; auto). specialize (G _ _ Q). rewrite F in G. exact G.
  - destruct (fill_missing t _) as [s'|] eqn:E; [|reflexivity]. cbn [bind]. destruct (fill_missing_float _ _ _ E) as (D & F & W).
    assert (Q : settled s' t) by (destruct S as (_ & H); split; auto). specialize (G _ _ Q). rewrite F in G. exact G.
Qed.
Lemma norm_numbers a : norm_arr (Some (as_floats a)) = as_floats (norm_arr (Some a)).
Proof. unfold norm_arr. change (a_len (as_floats a)) with (a_len a). now destruct (a_len a =? 0). Qed.
Lemma norm_whole a : whole a -> whole (norm_arr (Some a)).
Proof. intros W. unfold norm_arr. destruct (a_len a =? 0); [constructor|exact W]. Qed.
Definition with_numbers (r : res (list arr * list Z)) : res (list arr * list Z) := a <- r ;; Ok (map as_floats (fst a), snd a).
Lemma merge_numbers s t sd : settled (norm_arr (Some s)) (norm_arr (Some t)) ->
  with_numbers (source_target_merge [Some s; Some t] sd) = source_target_merge [Some (as_floats s); Some (as_floats t)] sd.
Proof.
  intros S. unfold source_target_merge, with_numbers. cbn [length Nat.ltb Nat.leb Nat.modulo Nat.divmod Nat.eqb negb fst snd Nat.sub pairs_of mapM].
  unfold check_pair. cbn [fst snd]. rewrite !norm_numbers.
  change (a_size (as_floats ?x)) with (a_size x). change (a_tail (as_floats ?x)) with (a_tail x).
  set (s0 := norm_arr (Some s)) in *. set (t0 := norm_arr (Some t)) in *.
  destruct ((a_size s0 =? 0) && (a_size t0 =? 0)); [reflexivity|]. destruct (_ && _); [reflexivity|]. cbn [bind mapM].
  change (infer_domain [(as_floats s0, as_floats t0)] sd) with (infer_domain [(s0, t0)] sd).
  destruct (extract_source_indices _); [|reflexivity]. cbn [bind]. rewrite <- merge_pair_numbers by exact S. unfold numbers.
  destruct (merge_pair _ (s0, t0)); reflexivity.
Qed.

(** * Merging and splitting *)
Theorem C221_merge : forall s t sd, whole s -> whole t ->
  with_numbers (source_target_merge [Some s; Some t] sd) = source_target_merge [Some (as_floats s); Some (as_floats t)] sd.
Proof. intros s t sd Ws Wt. apply merge_numbers. pose proof (norm_whole s Ws). pose proof (norm_whole t Wt). split; auto. Qed.

Lemma select_numbers m a : arr_select m (as_floats a) = numbers (arr_select m a).
Proof. unfold arr_select, numbers. cbn [a_rows as_floats a_dt a_tail]. destruct (np_select m (a_rows a)); reflexivity. Qed.
Lemma select_whole m a b : whole a -> arr_select m a = Ok b -> whole b.
Proof.
  unfold arr_select, whole. destruct (np_select m (a_rows a)) as [r|] eqn:E; [|discriminate]. cbn. intros W [= <-]. cbn.
  rewrite Forall_forall in *. intros x I. apply W. unfold np_select in E. destruct (_ =? _); [|discriminate]. injection E as <-. apply select_In in I as (i & _ & I). eapply nth_error_In; eauto.
Qed.
Definition only (r : res (list arr * list Z)) : res arr := a <- r ;; match fst a with [m] => Ok m | _ => Err ValueError end.
Lemma only_numbers s t s2 t2 sd : a_dt (norm_arr (Some s)) = DFloat -> a_dt (norm_arr (Some t)) = DFloat \/ whole t -> as_floats s = as_floats s2 -> as_floats t = as_floats t2 ->
  a_dt (norm_arr (Some s2)) = DFloat -> a_dt (norm_arr (Some t2)) = DFloat \/ whole t2 ->
  numbers (only (source_target_merge [Some s; Some t] sd)) = numbers (only (source_target_merge [Some s2; Some t2] sd)).
Proof.
  intros Ds Dt Es Et Ds2 Dt2.
  assert (K : forall r, numbers (only r) = only (with_numbers r)).
  { intros [(l & z)|e]; [|reflexivity]. cbn. destruct l as [|a [|]]; reflexivity. }
  assert (W : forall t, a_dt (norm_arr (Some t)) = DFloat \/ whole t -> a_dt (norm_arr (Some t)) = DFloat \/ whole (norm_arr (Some t))) by (intros t0 [H|H]; [now left|right; now apply norm_whole]).
  rewrite !K, !merge_numbers; [now rewrite Es, Et| |]; split; auto.
Qed.
Lemma numbers_idem_float a : a_dt a = DFloat -> as_floats a = a.
Proof. destruct a as [d tl r]. cbn. now intros ->. Qed.
Lemma norm_float a : a_dt a = DFloat -> a_dt (norm_arr (Some a)) = DFloat.
Proof. intros H. unfold norm_arr. now destruct (a_len a =? 0). Qed.
Lemma norm_empty a : (0 <? a_len a) = false -> a_dt (norm_arr (Some a)) = DFloat.
Proof. intros H. unfold norm_arr. apply Nat.ltb_ge in H. replace (a_len a =? 0) with true by (symmetry; apply Nat.eqb_eq; lia). reflexivity. Qed.

Lemma smm_numbers allow fs ft X sda : whole X -> arithmetic fs -> arithmetic ft \/ (forall a, ft a = Ok a) ->
  numbers (split_map_merge allow fs ft X sda) = numbers (split_map_merge allow fs ft (as_floats X) sda).
Proof.
  intros W (F1 & F2) T. unfold split_map_merge. change (a_len (as_floats X)) with (a_len X).
  destruct (check_X_domain _ _ _) as [sd|]; [|reflexivity]. cbn [bind].
  unfold source_target_split_arr, split_gen. cbn [length Nat.eqb raise_if].
  destruct (extract_source_indices sd) as [m|]; [|reflexivity]. cbn [bind mapM split_one]. rewrite !select_numbers.
  destruct (arr_select m X) as [s|] eqn:Es; [|reflexivity]. cbn [bind numbers].
  destruct (arr_select (map negb m) X) as [t|] eqn:Et; [|reflexivity]. cbn [bind numbers concat app].
  pose proof (select_whole _ _ _ W Es) as Ws. pose proof (select_whole _ _ _ W Et) as Wt.
  change (a_len (as_floats s)) with (a_len s). change (a_len (as_floats t)) with (a_len t). rewrite <- F1.
  assert (P : match (if 0 <? a_len s then fs s else Ok s), (if 0 <? a_len s then fs s else Ok (as_floats s)) with
              | Ok s1, Ok s2 => a_dt (norm_arr (Some s1)) = DFloat /\ a_dt (norm_arr (Some s2)) = DFloat /\ as_floats s1 = as_floats s2
              | Err e, Err e' => e = e' | _, _ => False end).
  { destruct (0 <? a_len s) eqn:L.
    - destruct (fs s) as [s1|] eqn:E; [|reflexivity]. pose proof (F2 _ _ E). repeat split; now apply norm_float.
    - repeat split; now apply norm_empty. }
  assert (Q : match (if 0 <? a_len t then ft t else Ok t), (if 0 <? a_len t then ft (as_floats t) else Ok (as_floats t)) with
              | Ok s1, Ok s2 => (a_dt (norm_arr (Some s1)) = DFloat \/ whole s1) /\ (a_dt (norm_arr (Some s2)) = DFloat \/ whole s2) /\ as_floats s1 = as_floats s2
              | Err e, Err e' => e = e' | _, _ => False end).
  { destruct (0 <? a_len t) eqn:L; [destruct T as [(T1 & T2)|T]|].
    - rewrite <- T1. destruct (ft t) as [t1|] eqn:E; [|reflexivity]. pose proof (T2 _ _ E). repeat split; left; now apply norm_float.
    - rewrite !T. split; [now right|]. split; [now right|reflexivity].
    - split; [now right|]. split; [now right|reflexivity]. }
  destruct (if 0 <? a_len s then fs s else Ok s) as [s1|e1]; destruct (if 0 <? a_len s then fs s else Ok (as_floats s)) as [s2|e2]; try contradiction; [|now subst].
  destruct (if 0 <? a_len t then ft t else Ok t) as [t1|e1]; destruct (if 0 <? a_len t then ft (as_floats t) else Ok (as_floats t)) as [t2|e2]; try contradiction; [|now subst].
  cbn [bind]. destruct P as (P1 & P2 & P3), Q as (Q1 & Q2 & Q3). exact (only_numbers _ _ _ _ _ P1 Q1 P3 Q3 P2 Q2).
Qed.

(** * The adapters: fitted or new samples, stored as integers or as floats *)
Theorem C221_ot_mapping : forall tfit allow X y sda, whole X ->
  (forall a ys b yt, tfit a ys b yt = tfit (as_floats a) ys (as_floats b) yt) ->
  (forall a ys b yt tr, tfit a ys b yt = Ok tr -> arithmetic tr) ->
  ot_fit tfit (as_floats X) y sda = ot_fit tfit X y sda /\
  (forall tr, arithmetic tr -> numbers (ot_transform allow tr X sda) = numbers (ot_transform allow tr (as_floats X) sda)) /\
  numbers (ot_fit_transform tfit X y sda) = numbers (ot_fit_transform tfit (as_floats X) y sda).
Proof.
  intros tfit allow X y sda W H1 H2.
  assert (E : ot_fit tfit (as_floats X) y sda = ot_fit tfit X y sda).
  { unfold ot_fit. change (a_len (as_floats X)) with (a_len X). destruct (check_X_domain _ _ _) as [sd|]; [|reflexivity]. cbn [bind].
    unfold source_target_split_arr, split_gen. cbn [length Nat.eqb raise_if].
    destruct (extract_source_indices sd) as [m|]; [|reflexivity]. cbn [bind mapM split_one]. rewrite !select_numbers.
    destruct (arr_select m X) as [s|]; [|reflexivity]. cbn [bind numbers]. destruct (arr_select (map negb m) X) as [t|]; [|reflexivity]. cbn [bind numbers concat app].
    destruct (source_target_split [y] sd) as [[|ys [|yt [|]]]|]; try reflexivity. cbn [bind]. symmetry. apply H1. }
  assert (T : forall b tr, arithmetic tr -> numbers (ot_transform b tr X sda) = numbers (ot_transform b tr (as_floats X) sda)) by (intros b tr A; apply smm_numbers; auto).
  split; [exact E|]. split; [intros; now apply T|]. unfold ot_fit_transform. rewrite E. destruct (ot_fit tfit X y sda) as [tr|] eqn:F; [|reflexivity]. cbn [bind].
  apply T. revert F. unfold ot_fit. destruct (check_X_domain _ _ _) as [sd|]; [|discriminate]. cbn [bind].
  destruct (source_target_split_arr _ _) as [parts|]; [|discriminate]. cbn [bind]. destruct (source_target_split _ _) as [yp|]; [|discriminate]. cbn [bind].
  destruct parts as [|[a|] [|[b|] [|]]]; try discriminate. destruct yp as [|ys [|yt [|]]]; try discriminate. apply H2.
Qed.
Lemma arithmetic_then f g : arithmetic f -> arithmetic g -> arithmetic (fun a => b <- f a ;; g b).
Proof.
  intros (F1 & F2) (G1 & G2). split; [intros a; now rewrite F1|]. intros a b. destruct (f a) as [c|]; [|discriminate]. cbn. apply G2.
Qed.
Theorem C221_coral : forall allow centred cs ct wh co X sda, whole X -> arithmetic cs -> arithmetic ct -> arithmetic wh -> arithmetic co ->
  numbers (coral_transform allow centred cs ct wh co X sda) = numbers (coral_transform allow centred cs ct wh co (as_floats X) sda).
Proof.
  intros allow centred cs ct wh co X sda W Hcs Hct Hwh Hco. unfold coral_transform. apply smm_numbers; [exact W| |].
  - destruct centred.
    + destruct (arithmetic_then _ _ Hwh Hco) as (A & B). split; [exact A|exact B].
    + exact (arithmetic_then _ _ Hcs (arithmetic_then _ _ Hwh Hco)).
  - destruct centred; [right; reflexivity|left; exact Hct].
Qed.
Theorem C221_subspace : forall allow ps pt al X sda, whole X -> arithmetic ps -> arithmetic pt -> arithmetic al ->
  numbers (sa_transform allow ps pt al X sda) = numbers (sa_transform allow ps pt al (as_floats X) sda) /\
  numbers (tsl_transform allow ps X sda) = numbers (tsl_transform allow ps (as_floats X) sda).
Proof.
  intros allow ps pt al X sda W H1 H2 H3. split; apply smm_numbers; auto. exact (arithmetic_then _ _ H1 H3).
Qed.
Theorem C221_mmdls : forall Coef (app : Coef -> list val -> list val) czero eqb nearest veqb allow st X y sda, whole X ->
  numbers (ls_transform Coef app czero eqb nearest veqb allow st X y sda) = numbers (ls_transform Coef app czero eqb nearest veqb allow st (as_floats X) y sda).
Proof.
  intros Coef app czero eqb nearest veqb allow st X y sda W. unfold ls_transform. change (a_len (as_floats X)) with (a_len X). cbn [a_rows a_tail a_dt as_floats].
  destruct (check_X_domain _ _ _) as [sd|]; [|reflexivity]. cbn [bind]. destruct (extract_source_indices sd) as [m|]; [|reflexivity]. cbn [bind].
  destruct (np_select m (a_rows X)) as [Xs|]; [|reflexivity]. cbn [bind].
  destruct (np_select (map negb m) (a_rows X)) as [Xt|] eqn:Et; [|reflexivity]. cbn [bind].
  assert (Wt : forall d, whole (mkArr d (a_tail X) Xt)).
  { intros d. pose proof (select_whole (map negb m) X (mkArr (a_dt X) (a_tail X) Xt) W) as K. unfold arr_select in K. rewrite Et in K. exact (K eq_refl). }
  destruct (length Xs =? 0) eqn:L.
  - cbn [bind]. apply only_numbers; auto; try reflexivity; apply norm_empty; cbn; apply Nat.eqb_eq in L; unfold a_len; cbn; now rewrite L.
  - destruct (match y with None => Ok None | Some l => r <- np_select m l ;; Ok (Some r) end) as [ys|]; [|reflexivity]. cbn [bind].
    destruct (ls_coefs _ _ _ _ _ _ _ _) as [cs|]; [|reflexivity]. cbn [bind]. destruct (np_map2 app cs Xs) as [rows|]; [|reflexivity]. cbn [bind].
    apply only_numbers; auto; try reflexivity; now apply norm_float.
Qed.

(** * Labels *)
(** Circular validation does not depend on how whole-number labels are stored. *)
Theorem C221_circular : forall Row sign predict fit_backward scorer (X : list Row) y sda, Forall whole_val y ->
  circular_score Row sign predict fit_backward scorer DInt X y sda = circular_score Row sign predict fit_backward scorer DFloat X y sda.
Proof.
  intros Row sign predict fit_backward scorer X y sda W. unfold circular_score. destruct (target_part Row X y sda) as [((m & Xt) & sdt)|] eqn:E; [|reflexivity]. cbn [bind].
  assert (K : circular_backward Row predict DInt X y sda = circular_backward Row predict DFloat X y sda); [|now rewrite K].
  unfold circular_backward. rewrite E. cbn [bind]. destruct (check_X_y_domain _ _ _ _ _); [|reflexivity]. cbn [bind].
  destruct (check_y_masking y); [|reflexivity]. cbn [bind]. destruct (predict Xt sdt) as [yp|]; [|reflexivity]. cbn [bind].
  destruct (_ =? 1); [reflexivity|]. destruct (np_select m y) as [ys|] eqn:S; [|reflexivity]. cbn [bind].
  destruct (find_y_type1 ys) as [ty|] eqn:T; [|reflexivity]. cbn [bind].
  assert (ty = DISCRETE) as ->.
  { apply (whole_discrete (arr1 DFloat ys) ty); [|exact T]. unfold whole, arr1. cbn. apply Forall_forall. intros r I. apply in_map_iff in I as (v & <- & I). constructor; [|constructor].
    unfold np_select in S. destruct (_ =? _); [|discriminate]. injection S as <-. rewrite Forall_forall in W. apply W. exact (select_incl _ _ _ I). }
  assert (C : forall l, map (cast DInt) (le_transform l) = map (cast DFloat) (le_transform l)); [|now rewrite C].
  intros l. apply map_ext_in. intros v I. unfold le_transform in I. apply in_map_iff in I as (u & <- & _). rewrite !cast_whole by (now exists (le_rank l u)). reflexivity.
Qed.
(** Packing: labels stored as floats instead of integers. *)
Definition float_dom {R} (d : @dom R) : dom := mkDom (d_X d) (option_map (fun yl => (match fst yl with YInt => YFloat | k => k end, snd yl)) (d_y d)).
Definition float_labels {R} (s : @dataset R) : dataset := mkDS (map float_dom (ds_domains s)) (ds_names s).
Lemma labels_float {R} (d : @dom R) : snd (labels_of (float_dom d)) = snd (labels_of d).
Proof. unfold labels_of, float_dom. cbn. destruct (d_y d) as [[[| |] l]|]; reflexivity. Qed.
Lemma get_float {R} (s : @dataset R) n : get_domain (float_labels s) n = (d <- get_domain s n ;; Ok (float_dom d)).
Proof.
  unfold get_domain. cbn [ds_names float_labels ds_domains]. destruct (dict_getitem _ _ _) as [k|]; [|reflexivity]. cbn [bind]. rewrite nth_error_map.
  destruct (nth_error _ _); reflexivity.
Qed.
Lemma pack_sources_float {R} (s : @dataset R) : forall ns a, pack_sources (float_labels s) ns a = pack_sources s ns a.
Proof.
  induction ns as [|n ns IH]; intros a; [reflexivity|]. cbn [pack_sources]. cbn [ds_names float_labels]. destruct (dict_getitem _ _ _); [|reflexivity]. cbn [bind].
  rewrite get_float. destruct (get_domain s n) as [d|]; [|reflexivity]. cbn [bind]. rewrite labels_float. apply IH.
Qed.
Lemma pack_targets_float {R} (s : @dataset R) masking m : masking = false \/ m <> None -> forall ns a, pack_targets (float_labels s) masking (m, None) ns a = pack_targets s masking (m, None) ns a.
Proof.
  intros H. induction ns as [|n ns IH]; intros a; [reflexivity|]. cbn [pack_targets]. cbn [ds_names float_labels]. destruct (dict_getitem _ _ _); [|reflexivity]. cbn [bind].
  rewrite get_float. destruct (get_domain s n) as [d|]; [|reflexivity]. cbn [bind]. destruct masking.
  - destruct m as [v|]; [|destruct H; congruence]. cbn [mask_target fst snd]. unfold mask_target. cbn [fst snd]. apply IH.
  - rewrite labels_float. apply IH.
Qed.
Theorem C221_pack : forall R (s : @dataset R) srcs tgts masking rxy rt train mask, (match train with Some b => b | None => masking end) = false \/ mask <> None ->
  pack (float_labels s) srcs tgts masking rxy rt train mask = pack s srcs tgts masking rxy rt train mask.
Proof.
  intros R s srcs tgts masking rxy rt train mask H. unfold pack. rewrite pack_sources_float. destruct (pack_sources s srcs _); [|reflexivity]. cbn [bind].
  now rewrite pack_targets_float by exact H.
Qed.
(** Packing with hidden target labels and no mask given: two classes stored as integers stay classes, stored as floats they become numbers to be regressed. *)
Theorem C221_pack_masked_refuted : exists (s : @dataset nat) X y sd y', reachable s /\
  pack s ["s"%string] ["t"%string] true None RTArray None None = Ok (PArrays X y sd) /\
  pack (float_labels s) ["s"%string] ["t"%string] true None RTArray None None = Ok (PArrays X y' sd) /\
  find_y_type1 y = Ok DISCRETE /\ find_y_type1 y' = Ok CONTINUOUS.
Proof.
  eexists. do 4 eexists.
  split; [exists [OAdd (mkDom [1;2] (Some (YInt, [VNum 0; VNum 1]))) (Some "s"%string); OAdd (mkDom [3;4] (Some (YInt, [VNum 1; VNum 0]))) (Some "t"%string)]; reflexivity|].
  split; [reflexivity|]. split; [reflexivity|]. split; reflexivity.
Qed.
(** Multi-domain Monge alignment of whole numbers: with floats 3 is mapped to 3/2, with integers to 1. *)
Theorem C221_monge_refuted : exists f X m m', whole X /\ a_dt X = DInt /\ f [VNum 3] = [VNum (3 # 2)] /\
  mlm_transform [(1%Z, f)] X (SDArr [1]%Z) = Ok m /\ mlm_transform [(1%Z, f)] (as_floats X) (SDArr [1]%Z) = Ok m' /\
  a_rows m = [[VNum 1]] /\ a_rows m' = [[VNum (3 # 2)]].
Proof.
  exists (map (fun v => match v with VNum q => VNum (Qred (q / 2)) | _ => v end)), (mkArr DInt [1] [[VNum 3]]). do 2 eexists.
  split; [repeat constructor; now exists 3%Z|]. repeat split; reflexivity.
Qed.
(** Merging: a source half of integers and a target half of fractions. *)
Theorem C221_mixed_merge_refuted : exists s t m m', whole s /\ a_dt s = DInt /\ a_dt t = DFloat /\ a_rows t = [[VNum (3 # 2)]] /\
  source_target_merge [Some s; Some t] (Some [1; -2]%Z) = Ok ([m], [1; -2]%Z) /\ source_target_merge [Some (as_floats s); Some t] (Some [1; -2]%Z) = Ok ([m'], [1; -2]%Z) /\
  a_rows m = [[VNum 3]; [VNum 1]] /\ a_rows m' = [[VNum 3]; [VNum (3 # 2)]].
Proof.
  exists (mkArr DInt [1] [[VNum 3]]), (mkArr DFloat [1] [[VNum (3 # 2)]]). do 2 eexists.
  split; [repeat constructor; now exists 3%Z|]. repeat split; reflexivity.
Qed.

(** * Examples *)
Definition half_rows (a : arr) : res arr := Ok (mkArr DFloat (a_tail a) (map (map (fun v => match v with VNum q => VNum (Qred (q / 2)) | _ => v end)) (a_rows a))).
Example C221_ex : arithmetic half_rows /\ whole (mkArr DInt [1] [[VNum 3]; [VNum 4]]) /\
  ot_transform true half_rows (mkArr DInt [1] [[VNum 3]; [VNum 4]]) (SDArr [1; -2]%Z) = Ok (mkArr DFloat [1] [[VNum (3 # 2)]; [VNum 4]]).
Proof.
  split; [split; [reflexivity|intros a b [= <-]; reflexivity]|]. split; [|reflexivity]. repeat constructor; [now exists 3%Z|now exists 4%Z].
Qed.
Example C221_merge_ex : source_target_merge [Some (mkArr DInt [] [[VNum 3]]); Some (mkArr DInt [] [[VNum 4]])] (Some [-1; 1]%Z) = Ok ([mkArr DInt [] [[VNum 4]; [VNum 3]]], [-1; 1]%Z).
Proof. reflexivity. Qed.
