(** C04: labels given as a column (a 2-D array with one column) are completed like 1-D labels, and labels with several columns are refused. *)
From Coq Require Import List ZArith QArith Bool Arith Lia.
From Verif Require Import Np NpFacts Labels Spec SpecFacts UtilsModel UtilsSpec UtilsProofs UtilsProofs2 ThmUtils.
Import ListNotations.
Local Open Scope nat_scope.
Local Open Scope list_scope.

(** ** Specification *)
(** The labels as an array of n rows and one column. *)
Definition column (dt : dtype) (l : list val) : arr := mkArr dt [1] (map (fun v => [v]) l).
(** Rows of [k] whole numbers each. *)
Definition whole (k : nat) (row : list val) : Prop := length row = k /\ Forall int_label row.

(** ** Proofs *)
Definition asc (a : arr) : arr := mkArr (a_dt a) [1] (a_rows a).
Lemma asc_col dt l : asc (arr1 dt l) = column dt l.
Proof. reflexivity. Qed.
Lemma type_col dt l : ~ In VNan l -> find_y_type (column dt l) = find_y_type (arr1 dt l).
Proof.
  intros H. unfold find_y_type, column, arr1, a_len. cbn [a_rows a_tail]. rewrite concat_singletons.
  destruct (existsb is_nan l) eqn:E; [|reflexivity]. exfalso. apply H. now apply existsb_nan.
Qed.
Lemma fill_col dt l k : ~ In VNan l -> fill_missing (column dt l) k = (a <- fill_missing (arr1 dt l) k ;; Ok (asc a)).
Proof. intros H. unfold fill_missing. rewrite type_col by auto. destruct (find_y_type (arr1 dt l)) as [ty|]; reflexivity. Qed.
Lemma tail_refl t : tail_eqb t t = true.
Proof. unfold tail_eqb. destruct (list_eq_dec _ t t); easy. Qed.
Lemma merge_asc s t sd : a_tail s = [] -> a_tail t = [] -> merge_arrays (asc s) (asc t) sd = (a <- merge_arrays s t sd ;; Ok (asc a)).
Proof.
  destruct s as [ds ts rs], t as [dt tt rt]. cbn [a_tail]. intros -> ->. unfold merge_arrays, asc, a_len. cbn [a_rows a_tail a_dt].
  change (zero_rows [1]) with (zero_rows []).
  destruct (0 <? length rs); destruct (0 <? length rt); cbn [andb]; rewrite ?tail_refl;
  repeat match goal with |- context [np_setmask ?a ?b ?c] => destruct (np_setmask a b c); cbn [bind] end; reflexivity.
Qed.

Lemma pair_col_t dt l sd : ~ In VNan l -> l <> [] ->
  merge_pair sd (column dt l, empty_arr) = (if 0 <? length sd - length l then (a <- merge_pair sd (arr1 dt l, empty_arr) ;; Ok (asc a)) else merge_pair sd (column dt l, empty_arr)).
Proof.
  intros H N. destruct (0 <? length sd - length l) eqn:E; [|reflexivity].
  unfold merge_pair. change (a_size empty_arr) with 0. cbn [Nat.eqb].
  assert (E1 : a_len (column dt l) = length l) by (unfold a_len, column; cbn; now rewrite map_length).
  rewrite E1, arr1_len, E, fill_col by auto.
  unfold fill_missing. destruct (find_y_type (arr1 dt l)) as [ty|]; cbn [bind]; [|reflexivity].
  set (f := mkArr _ (a_tail (arr1 dt l)) _). rewrite E1. change (a_len (asc f)) with (a_len f). rewrite arr1_len.
  destruct (negb _ || negb _); [reflexivity|]. rewrite <- asc_col. now rewrite merge_asc.
Qed.
Lemma pair_col_s dt l sd : ~ In VNan l -> l <> [] -> 0 < length sd - length l ->
  merge_pair sd (empty_arr, column dt l) = (a <- merge_pair sd (empty_arr, arr1 dt l) ;; Ok (asc a)).
Proof.
  intros H N E. apply Nat.ltb_lt in E.
  unfold merge_pair. change (a_size empty_arr) with 0. 
  assert (E1 : a_len (column dt l) = length l) by (unfold a_len, column; cbn; now rewrite map_length).
  assert (E2 : a_size (column dt l) = length l) by (unfold a_size; rewrite E1; cbn; lia).
  rewrite E1, E2, arr1_len, arr1_size, E, fill_col by auto.
  destruct (Nat.eqb_spec (length l) 0) as [Z|_]; [destruct l; easy|]. cbn [Nat.eqb].
  unfold fill_missing. destruct (find_y_type (arr1 dt l)) as [ty|]; cbn [bind]; [|reflexivity].
  set (f := mkArr _ (a_tail (arr1 dt l)) _). rewrite E1. change (a_len (asc f)) with (a_len f). rewrite arr1_len.
  destruct (negb _ || negb _); [reflexivity|]. rewrite <- asc_col. now rewrite merge_asc.
Qed.

Lemma check_col_t dt l : l <> [] -> check_pair (Some (column dt l), None) = Ok (column dt l, empty_arr) /\ check_pair (Some (arr1 dt l), None) = Ok (arr1 dt l, empty_arr) /\
  check_pair (None, Some (column dt l)) = Ok (empty_arr, column dt l) /\ check_pair (None, Some (arr1 dt l)) = Ok (empty_arr, arr1 dt l).
Proof. intros N. destruct l as [|v l]; [easy|]. repeat split; cbn; rewrite ?map_length; reflexivity. Qed.

Lemma merge_col_t dt l sd : ~ In VNan l -> l <> [] -> sd <> [] -> 0 < length sd - length l ->
  source_target_merge [Some (column dt l); None] (Some sd) = (p <- source_target_merge [Some (arr1 dt l); None] (Some sd) ;; Ok (map asc (fst p), snd p)) /\
  source_target_merge [None; Some (column dt l)] (Some sd) = (p <- source_target_merge [None; Some (arr1 dt l)] (Some sd) ;; Ok (map asc (fst p), snd p)).
Proof.
  intros H N S L. destruct (check_col_t dt l N) as (A & B & C & D).
  unfold source_target_merge. cbn [length pairs_of Nat.ltb Nat.leb]. change (2 mod 2 =? 0) with true. cbn [negb mapM].
  rewrite A, B, C, D. cbn [bind]. rewrite !infer_given, !extract_source_ok by auto. cbn [bind mapM].
  rewrite pair_col_t, pair_col_s by auto. apply Nat.ltb_lt in L. rewrite L.
  split; [destruct (merge_pair sd (arr1 dt l, empty_arr))|destruct (merge_pair sd (empty_arr, arr1 dt l))]; reflexivity.
Qed.

(** Labels given as one column, without NaN: the missing side is a column of masks, and the given labels stay at the rows of their side. *)
Theorem C04_column_masked : forall (sd : list Z) (dt : dtype) (l : list val) (mask : val),
  l <> [] -> ~ In VNan l -> (discrete_labels l /\ mask = VNum (inject_Z (-1))) \/ (continuous_labels l /\ mask = VNan) ->
  (wf_vals dt l -> how_many is_source sd = length l -> 0 < how_many is_target sd ->
     exists m, source_target_merge [Some (column dt l); None] (Some sd) = Ok ([column dt m], sd) /\
       length m = length sd /\ rows_of is_source sd m = l /\ rows_of is_target sd m = repeat mask (how_many is_target sd)) /\
  (how_many is_target sd = length l -> 0 < how_many is_source sd ->
     exists m, source_target_merge [None; Some (column dt l)] (Some sd) = Ok ([column DFloat m], sd) /\
       length m = length sd /\ rows_of is_target sd m = l /\ rows_of is_source sd m = repeat mask (how_many is_source sd)).
Proof.
  intros sd dt l mask N H K. pose proof (how_many_split sd) as HS.
  split; [intros W Hs Ht|intros Ht Hs].
  - destruct (C04_missing_target_masked sd dt l mask N W K Hs Ht) as (m & E & R). exists m. split; [|exact R].
    assert (Hsd : sd <> []) by (intros ->; cbn in *; lia). assert (L : 0 < length sd - length l) by lia.
    destruct (merge_col_t dt l sd H N Hsd L) as [-> _]. rewrite E. reflexivity.
  - destruct (C04_missing_source_masked sd dt l mask N K Ht Hs) as (m & E & R). exists m. split; [|exact R].
    assert (Hsd : sd <> []) by (intros ->; cbn in *; lia). assert (L : 0 < length sd - length l) by lia.
    destruct (merge_col_t dt l sd H N Hsd L) as [_ ->]. rewrite E. reflexivity.
Qed.

(** Several columns of whole numbers (multi-label or multi-output classes) have no mask: completing them is a ValueError, on either side. *)
Theorem C04_columns_refused : forall (sd : list Z) (dt : dtype) (k : nat) (rows : list (list val)),
  2 <= k -> rows <> [] -> Forall (whole k) rows -> length rows < length sd ->
  source_target_merge [Some (mkArr dt [k] rows); None] (Some sd) = Err ValueError /\
  source_target_merge [None; Some (mkArr dt [k] rows)] (Some sd) = Err ValueError.
Proof.
  intros sd dt k rows K N F L.
  assert (Hsd : sd <> []) by (intros ->; cbn in *; lia).
  assert (R : length rows <> 0) by (destruct rows; easy).
  assert (Z : a_size (mkArr dt [k] rows) =? 0 = false).
  { apply Nat.eqb_neq. unfold a_size, a_len. cbn. nia. }
  assert (Z0 : length rows =? 0 = false) by (now apply Nat.eqb_neq).
  assert (W : forall v, In v (concat rows) -> exists q z, v = VNum q /\ (q == inject_Z z)%Q).
  { intros v Hv. apply in_concat in Hv as (row & Hr & Hv). rewrite Forall_forall in F. destruct (F row Hr) as [_ G].
    rewrite Forall_forall in G. exact (G v Hv). }
  assert (NN : existsb is_nan (concat rows) = false).
  { apply not_true_is_false. intros E. apply existsb_exists in E as (v & Hv & E). destruct (W v Hv) as (q & z & -> & _). discriminate. }
  assert (NI : existsb (fun v => negb (is_integral v)) (concat rows) = false).
  { apply not_true_is_false. intros E. apply existsb_exists in E as (v & Hv & E). destruct (W v Hv) as (q & z & -> & Q).
    apply negb_true_iff in E. assert (I : is_integral (VNum q) = true) by (apply is_integral_iff; unfold int_label; eauto). congruence. }
  assert (T : find_y_type (mkArr dt [k] rows) = Err ValueError).
  { unfold find_y_type. cbn [a_rows a_tail]. rewrite NN, NI. unfold a_len. cbn [a_rows]. rewrite Z0. destruct (Nat.eqb_spec k 1); [lia|reflexivity]. }
  assert (L' : 0 <? length sd - length rows = true) by (apply Nat.ltb_lt; lia).
  unfold source_target_merge. cbn [length pairs_of Nat.ltb Nat.leb]. change (2 mod 2 =? 0) with true. cbn [negb mapM].
  assert (C1 : check_pair (Some (mkArr dt [k] rows), None) = Ok (mkArr dt [k] rows, empty_arr)).
  { unfold check_pair. cbn [fst snd norm_arr]. unfold a_len. cbn [a_rows]. rewrite ?Z0, Z. reflexivity. }
  assert (C2 : check_pair (None, Some (mkArr dt [k] rows)) = Ok (empty_arr, mkArr dt [k] rows)).
  { unfold check_pair. cbn [fst snd norm_arr]. unfold a_len. cbn [a_rows]. rewrite ?Z0, Z. reflexivity. }
  rewrite C1, C2. cbn [bind]. rewrite !infer_given, !extract_source_ok by auto. cbn [bind mapM].
  unfold merge_pair. change (a_size empty_arr =? 0) with true. rewrite Z. unfold a_len. cbn [a_rows]. rewrite L'.
  unfold fill_missing. rewrite T. split; reflexivity.
Qed.

Example C04_column_ex :
  source_target_merge [Some (column DInt [VNum (inject_Z 0); VNum (inject_Z 3)]); None] (Some [-2;1;-5;7]%Z)
    = Ok ([column DInt [VNum (inject_Z (-1)); VNum (inject_Z 0); VNum (inject_Z (-1)); VNum (inject_Z 3)]], [-2;1;-5;7]%Z) /\
  source_target_merge [Some (mkArr DInt [2] [[VNum 1; VNum 0]; [VNum 0; VNum 1]]); None] (Some [-2;1;-5;7]%Z) = Err ValueError.
Proof. split; reflexivity. Qed.
