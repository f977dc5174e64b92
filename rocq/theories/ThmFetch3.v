(** Theorem C171, continued: packing the data sets fetched, Office-Home, the csv file, the data folder. *)
From Coq Require Import String Ascii List ZArith QArith Bool Arith Lia Permutation.
From Verif Require Import Np NpFacts Labels Spec PipeModel PipeProofs UtilsSpec DataModel DataSpec DataProofs ThmData FetchModel FetchSpec FetchProofs ThmFetch
  Fetch2Model Fetch2Spec ThmFetch2.
Import ListNotations.
Local Open Scope nat_scope.
Local Open Scope list_scope.

(** ** Packing for training *)
Lemma tracks_known {Row} (s : @dataset Row) h n : tracks s h -> In n (map fst h) -> exists k d, known s n k d /\ In (n, d) h.
Proof.
  intros [T1 T2] I. apply in_map_iff in I. destruct I as ((n', d) & Q & I). cbn in Q. subst n'. pose proof I as J. apply In_nth_error in I as [i Hi].
  assert (Li : i < length h) by (apply nth_error_Some; congruence).
  exists (S i), d. split; [|exact J]. split; [|split; [lia|]].
  - rewrite T2. apply (nth_error_In _ i). apply combine_nth_error; [rewrite nth_error_map, Hi; reflexivity|].
    rewrite (nth_error_nth' _ 0) by (rewrite seq_length; auto). rewrite seq_nth; auto.
  - rewrite T1, nth_error_map. replace (S i - 1) with i by lia. rewrite Hi. reflexivity.
Qed.
Lemma tracks_found {Row} (s : @dataset Row) h names : tracks s h -> incl names (map fst h) ->
  exists kds, found s names kds /\ Forall2 (fun n kd => In (n, snd kd) h) names kds.
Proof.
  intros T I. induction names as [|n names IH]; [exists []; split; constructor|].
  destruct (tracks_known s h n T (I n (or_introl eq_refl))) as (k & d & K & J).
  destruct IH as (kds & A & B); [intros x Hx; apply I; right; exact Hx|].
  exists ((k, d) :: kds). split; constructor; assumption.
Qed.

Definition total_rows {Row} (kds : list (nat * @dom Row)) : nat := length (concat (map (fun kd => d_X (snd kd)) kds)).

Lemma hidden {Row} (s : @dataset Row) h dt m : reachable s -> tracks s h -> (forall n d, In (n, d) h -> exists y, d_y d = Some (dt, y)) ->
  (dt = YInt /\ m = VNum (inject_Z (-1)) \/ dt = YFloat /\ m = VNan) ->
  forall srcs tgts, incl srcs (map fst h) -> incl tgts (map fst h) -> tgts <> [] ->
  exists X y sd tkds ys, pack s srcs tgts true None RTArray None None = Ok (PArrays X y sd) /\ found s tgts tkds /\
    rows_of is_target sd y = repeat m (total_rows tkds) /\ rows_of is_source sd y = ys /\ labels_under s srcs ys /\ y = ys ++ repeat m (total_rows tkds) /\
    (forall v, In v ys -> exists n d l, In (n, d) h /\ d_y d = Some (dt, l) /\ In v l).
Proof.
  intros Hr T Hd Hm srcs tgts Is It Ne.
  destruct (tracks_found s h srcs T Is) as (skds & Fs & Ms). destruct (tracks_found s h tgts T It) as (tkds & Ft & Mt).
  assert (MV : mask_value None (map snd tkds) = Some m).
  { destruct Mt as [|n kd ns kds J Mt]; [contradiction|]. cbn [map mask_value]. destruct (Hd _ _ J) as (y & ->). destruct Hm as [[-> ->]|[-> ->]]; reflexivity. }
  assert (NE : srcs ++ tgts <> []) by (destruct srcs; [exact Ne | discriminate]).
  destruct (C24_target_labels_masked_partial Row s srcs tgts skds tkds None m Hr Fs Ft NE MV) as (X & y & sd & P & A & B).
  pose proof (inv_reachable s Hr) as I.
  assert (Sm : forall kd, In kd skds -> exists n, In (n, snd kd) h).
  { intros kd J. clear -J Ms. induction Ms as [|n kd0 ns kds Q M IH]; [destruct J|]. destruct J as [->|J]; [exists n; exact Q | apply IH; exact J]. }
  exists X, y, sd, tkds, (concat (map (fun kd => plain_labels (snd kd)) skds)). split; [exact P|]. split; [exact Ft|]. split; [exact A|]. split; [exact B|]. split; [|split].
  - exists (map snd skds). split.
    + clear -Fs I. induction Fs as [|n [k d] ns kds K F IH]; constructor; [apply (known_get s n k d I K) | exact IH].
    + f_equal. rewrite map_map. apply map_ext_in. intros kd J. destruct (Sm kd J) as (n & Jn).
      unfold plain_labels. destruct (Hd n (snd kd) Jn) as (y0 & ->). reflexivity.
  - unfold pack in P. rewrite (pack_sources_ok s srcs skds I Fs) in P. cbn [bind p_X p_y p_sd p_names app] in P.
    rewrite (pack_targets_masked s tgts tkds None m I Ft MV) in P. cbn [bind p_X p_y p_sd p_names] in P.
    destruct (length srcs + length tgts =? 0); [discriminate|]. injection P as _ <- _. f_equal. unfold total_rows.
    clear. induction tkds as [|x l IH]; [reflexivity|]. cbn [map concat]. rewrite app_length, repeat_app, IH. reflexivity.
  - intros v J. apply in_concat in J. destruct J as (l & J1 & J2). apply in_map_iff in J1. destruct J1 as (kd & <- & J1). destruct (Sm kd J1) as (n & Jn).
    destruct (Hd n (snd kd) Jn) as (y0 & E). exists n, (snd kd), y0. split; [exact Jn|]. split; [exact E|]. unfold plain_labels in J2. rewrite E in J2. exact J2.
Qed.

Lemma all_tracks {File Row} enum program (load : string -> list File -> @table Row + fexn) d c d' s :
  (exists fs, program = office_program fs \/ program = amazon_program fs) -> NoDup enum -> fetch_all enum program load d c = (d', Returned s) ->
  exists ts, Forall2 (fun v t => load v (k_files d') = inl t) enum ts /\ tracks s (combine enum (map as_dom ts)) /\ reachable s /\ map fst (combine enum (map as_dom ts)) = enum.
Proof.
  intros Hp ND E. destruct (loop_ok enum program load Hp enum d c empty_ds [] d' s (conj eq_refl eq_refl) ND E) as (ts & A & B & _ & _ & R).
  exists ts. split; [exact A|]. split; [exact B|]. split; [apply R; exists []; reflexivity|].
  clear -A. induction A; [reflexivity|]. cbn [map combine fst]. f_equal. assumption.
Qed.
Lemma typed_tables {File Row} enum (load : string -> list File -> @table Row + fexn) dt fs ts : (forall v t, load v fs = inl t -> fst (snd t) = dt) ->
  Forall2 (fun v t => load v fs = inl t) enum ts -> forall n d, In (n, d) (combine enum (map as_dom ts)) -> exists y, d_y d = Some (dt, y) /\ load n fs = inl (d_X d, (dt, y)).
Proof.
  intros H A. induction A as [|v t vs ts0 E A IH]; intros n d I; [destruct I|]. cbn [map combine] in I. destruct I as [I|I]; [|exact (IH n d I)].
  injection I as <- <-. destruct t as [X [dt' y]]. pose proof (H _ _ E) as Q. cbn in Q. subst dt'. exists y. split; [reflexivity | exact E].
Qed.

Lemma numbers_type z : (forall v, In v z -> v = VNum (inject_Z (-1)) \/ exists k : nat, v = VNum (inject_Z (Z.of_nat k))) -> In (VNum (inject_Z (-1))) z ->
  check_y_masking z = Ok DISCRETE.
Proof.
  intros I M. unfold check_y_masking, find_y_type1, find_y_type, arr1. cbn [a_rows a_tail].
  assert (C : concat (map (fun v : val => [v]) z) = z) by (clear; induction z; cbn; congruence). rewrite C.
  assert (N : existsb is_nan z = false).
  { apply Bool.not_true_iff_false. intros E. apply existsb_exists in E. destruct E as (v & Hv & Q). destruct (I v Hv) as [->|(k & ->)]; discriminate. }
  rewrite N. unfold a_len. cbn [a_rows]. rewrite map_length. replace (length z =? 0) with false by (symmetry; apply Nat.eqb_neq; destruct z; [destruct M | discriminate]).
  assert (G : existsb (fun v => negb (is_integral v)) z = false).
  { apply Bool.not_true_iff_false. intros E. apply existsb_exists in E. destruct E as (v & Hv & Q).
    assert (B : is_integral v = true) by (destruct (I v Hv) as [->|(k & ->)]; [reflexivity|]; unfold is_integral, q_integral; cbn [Qnum Qden inject_Z]; rewrite Z.rem_1_r; reflexivity).
    rewrite B in Q. discriminate. }
  rewrite G. cbn [bind].
  assert (L : existsb (fun v => val_ltb_q v mask_cls_q) z = false).
  { apply Bool.not_true_iff_false. intros E. apply existsb_exists in E. destruct E as (v & Hv & Q). destruct (I v Hv) as [->|(k & ->)]; [discriminate|].
    unfold val_ltb_q in Q. rewrite negb_true_iff in Q. apply Bool.not_true_iff_false in Q. apply Q. apply Qle_bool_iff. unfold mask_cls_q, Qle, inject_Z. cbn [Qnum Qden]. lia. }
  assert (H : existsb (fun v => val_eqb_q v mask_cls_q) z = true) by (apply existsb_exists; exists (VNum (inject_Z (-1))); split; [exact M | reflexivity]).
  rewrite L, H. reflexivity.
Qed.

Definition program_of {File} (p : list (action File)) : Prop := exists fs, p = office_program fs \/ p = amazon_program fs.

(** Office-31: packed for training, every target label is -1, the source labels are those loaded, and the labels are recognised as those of a
    classification task with masked samples. *)
Theorem C171_office31_hidden : forall Row by_name perm dim caltech preset program d c d' (s : @dataset Row) srcs tgts, program_of program ->
  fetch_all office31_domains program (office31_load by_name perm dim caltech preset) d c = (d', Returned s) ->
  incl srcs office31_domains -> incl tgts office31_domains -> tgts <> [] ->
  exists X y sd, pack s srcs tgts true None RTArray None None = Ok (PArrays X y sd) /\
    Forall (eq (VNum (inject_Z (-1)))) (rows_of is_target sd y) /\ labels_under s srcs (rows_of is_source sd y) /\ check_y_masking y = Ok DISCRETE.
Proof.
  intros Row by_name perm dim caltech preset program d c d' s srcs tgts Hp E Is It Ne.
  assert (ND : NoDup office31_domains) by (repeat constructor; cbn; intuition discriminate).
  destruct (all_tracks _ _ _ _ _ _ _ Hp ND E) as (ts & A & T & Hr & Fst).
  assert (Ty : forall v t, office31_load by_name perm dim caltech preset v (k_files d') = inl t -> fst (snd t) = YInt /\ (exists ks : list nat, snd (snd t) = map (fun k => VNum (inject_Z (Z.of_nat k))) ks) /\ fst t <> []).
  { intros v t. unfold office31_load, load_office31. destruct (negb _); [discriminate|].
    destruct (read Row dim _) as [[[|x X] y]|e] eqn:Rd; [discriminate| |discriminate].
    intros Q. injection Q as <-. cbn [fst snd u_X u_y]. split; [reflexivity|]. split; [exists y; reflexivity | discriminate]. }
  pose proof (typed_tables _ _ YInt _ ts (fun v t H => proj1 (Ty v t H)) A) as Tt.
  rewrite <- Fst in Is, It.
  destruct (hidden s _ YInt (VNum (inject_Z (-1))) Hr T (fun n d0 J => match Tt n d0 J with ex_intro _ y (conj H _) => ex_intro _ y H end) (or_introl (conj eq_refl eq_refl)) srcs tgts Is It Ne)
    as (X & y & sd & tkds & ys & P & F & Rt & Rs & Lu & Ey & In1).
  exists X, y, sd. split; [exact P|]. split; [rewrite Rt; apply Forall_forall; intros x Hx; apply repeat_spec in Hx; congruence|]. split; [rewrite Rs; exact Lu|].
  assert (Pos : exists n, total_rows tkds = S n).
  { destruct F as [|n [k d0] ns kds K F]; [contradiction|].
    assert (J : In (n, d0) (combine office31_domains (map as_dom ts))).
    { destruct (tracks_known s _ n T (It n (or_introl eq_refl))) as (k2 & d2 & K2 & J2). pose proof (inv_reachable s Hr) as I.
      destruct (known_get s n k d0 I K) as [_ G1]. destruct (known_get s n k2 d2 I K2) as [_ G2]. rewrite G1 in G2. injection G2 as ->. exact J2. }
    destruct (Tt n d0 J) as (y1 & _ & L1). destruct (Ty _ _ L1) as (_ & _ & NE). cbn [fst] in NE.
    unfold total_rows. cbn [map concat snd]. rewrite app_length. destruct (d_X d0); [contradiction|]. cbn [length plus]. eexists. reflexivity. }
  destruct Pos as (n0 & Pos). apply numbers_type.
  - intros v Hv. rewrite Ey in Hv. apply in_app_or in Hv. destruct Hv as [Hv|Hv]; [|left; apply repeat_spec in Hv; exact Hv].
    right. destruct (In1 v Hv) as (n & d0 & l & J & El & Iv). destruct (Tt n d0 J) as (y1 & E1 & L1). rewrite El in E1. injection E1 as <-.
    destruct (Ty _ _ L1) as (_ & (ks & Ek) & _). cbn [snd] in Ek. subst l. apply in_map_iff in Iv. destruct Iv as (k & <- & _). exists k. reflexivity.
  - rewrite Ey, Pos. apply in_or_app. right. left. reflexivity.
Qed.

(** Amazon reviews: the target labels are hidden too, but by NaN, since the labels are floats: the two classes are taken for values of a regression. *)
Theorem C171_amazon_regression_refuted : forall Row perm program d c d' (s : @dataset Row) srcs tgts, program_of program ->
  fetch_all amazon_review_domains program (amazon_load perm) d c = (d', Returned s) ->
  incl srcs amazon_review_domains -> incl tgts amazon_review_domains -> (exists n dm, In n tgts /\ get_domain s n = Ok dm /\ d_X dm <> []) ->
  exists X y sd, pack s srcs tgts true None RTArray None None = Ok (PArrays X y sd) /\
    Forall (eq VNan) (rows_of is_target sd y) /\ labels_under s srcs (rows_of is_source sd y) /\ find_y_type1 y = Ok CONTINUOUS.
Proof.
  intros Row perm program d c d' s srcs tgts Hp E Is It (n & dm & Hn & Hg & Hd).
  assert (ND : NoDup amazon_review_domains) by (repeat constructor; cbn; intuition discriminate).
  destruct (all_tracks _ _ _ _ _ _ _ Hp ND E) as (ts & A & T & Hr & Fst).
  assert (Ty : forall v t, amazon_load perm v (k_files d') = inl t -> fst (snd t) = YFloat).
  { intros v t. unfold amazon_load. destruct (load_amazon _ _ _ _) as [[X y]|e]; [|discriminate]. intros Q. injection Q as <-. reflexivity. }
  pose proof (typed_tables _ _ YFloat _ ts Ty A) as Tt. rewrite <- Fst in Is, It.
  assert (Ne : tgts <> []) by (intros ->; destruct Hn).
  destruct (hidden s _ YFloat VNan Hr T (fun n d0 J => match Tt n d0 J with ex_intro _ y (conj H _) => ex_intro _ y H end) (or_intror (conj eq_refl eq_refl)) srcs tgts Is It Ne)
    as (X & y & sd & tkds & ys & P & F & Rt & Rs & Lu & Ey & _).
  exists X, y, sd. split; [exact P|]. split; [rewrite Rt; apply Forall_forall; intros x Hx; apply repeat_spec in Hx; congruence|]. split; [rewrite Rs; exact Lu|].
  assert (Pos : total_rows tkds <> 0).
  { pose proof (inv_reachable s Hr) as I. clear -F Hn Hg Hd I. induction F as [|m [k d0] ns kds K F IH]; [destruct Hn|].
    unfold total_rows in *. cbn [map concat snd]. rewrite app_length. destruct Hn as [->|Hn]; [|specialize (IH Hn); lia].
    destruct (known_get s n k d0 I K) as [_ G]. rewrite Hg in G. injection G as <-. destruct (d_X dm); [contradiction | cbn; lia]. }
  unfold find_y_type1, find_y_type, arr1. cbn [a_rows a_tail].
  assert (C : concat (map (fun v : val => [v]) y) = y) by (clear; induction y; cbn; congruence). rewrite C.
  replace (existsb is_nan y) with true; [reflexivity|]. symmetry. apply existsb_exists. exists VNan. split; [|reflexivity].
  rewrite Ey. apply in_or_app. right. destruct (total_rows tkds); [contradiction | left; reflexivity].
Qed.

(** ** Office-Home *)
Lemma fetch_loaded {File Data} (program : list (action File)) (l : list File -> Data + fexn) d c d' t : fetch program l d c = (d', Returned t) -> l (k_files d') = inl t.
Proof.
  unfold fetch, load_outcome.
  assert (A : forall x, (x, match l (k_files x) with inl r => Returned r | inr e => Raised e end) = (d', Returned t) -> l (k_files d') = inl t).
  { intros x E. assert (E1 := f_equal fst E). assert (E2 := f_equal snd E). cbn [fst snd] in E1, E2. subst x. destruct (l (k_files d')); [injection E2 as ->; reflexivity | discriminate]. }
  destruct (k_dir d); [apply A|]. destruct (negb (c_download c)); [discriminate|]. destruct (c_stop c) as [k|]; [destruct (k <? length program); [discriminate|]|]; apply A.
Qed.
Lemma home_register_ok {Row} code : forall (l : list (string * list (Row * string))) s h, tracks s h -> NoDup (map fst h ++ map fst l) ->
  exists s', home_register code s l = Ok s' /\ tracks s' (h ++ map (fun p => (fst p, as_dom (home_table code (snd p)))) l).
Proof.
  induction l as [|[v rows] l IH]; intros s h T N; cbn [home_register].
  - exists s. split; [reflexivity|]. cbn [map]. rewrite app_nil_r. exact T.
  - assert (Nv : ~ In v (map fst h)) by (intros I; cbn [map fst] in N; apply NoDup_remove_2 in N; apply N, in_or_app; left; exact I).
    unfold register, add_domain. rewrite dict_get_absent by (rewrite (tracks_fst _ _ T); exact Nv). cbn [bind].
    destruct (IH _ _ (tracks_extend s h v (as_dom (home_table code rows)) T Nv)) as (s' & E & T').
    { rewrite map_app, <- app_assoc. exact N. }
    exists s'. split; [exact E|]. cbn [map fst snd]. rewrite <- app_assoc in T'. exact T'.
Qed.
(** All domains of Office-Home, in the order of the enumeration; each holds the lines of its domain, each line with its label; without shuffling it is
    exactly what fetch_office_home returns for the domain, with shuffling up to the order. *)
Theorem C171_home_all : forall Row code perm program d c d' (s : @dataset Row), (forall pm, perm = Some pm -> shuffling pm) ->
  fetch program (home_load_all code perm) d c = (d', Returned s) ->
  exists rows, holds s (combine office_home_domains (map (fun r => as_dom (home_table code r)) rows)) /\
    Forall2 (fun v r => Permutation r (home_one perm (k_files d') (number office_home_domains v)) /\
      (perm = None -> home_load code perm v (k_files d') = inl (home_table code r))) office_home_domains rows.
Proof.
  intros Row code perm program d c d' s Hpm E.
  assert (L : home_load_all code perm (k_files d') = inl s).
  { exact (fetch_loaded _ _ _ _ _ _ E). }
  assert (ND : NoDup office_home_domains) by (repeat constructor; cbn; intuition discriminate).
  set (ls := k_files d') in *. clearbody ls. clear E.
  unfold home_load_all in L. set (ps := home_domains_of perm ls) in *.
  assert (Fp : map fst ps = office_home_domains) by reflexivity.
  destruct (home_register_ok code ps empty_ds [] (conj eq_refl eq_refl)) as (s' & E & T); [rewrite Fp; exact ND|].
  rewrite E in L. injection L as ->. cbn [app] in T.
  exists (map snd ps). split.
  - apply tracks_holds.
    + replace (combine _ _) with (map (fun p : string * list (Row * string) => (fst p, as_dom (home_table code (snd p)))) ps); [exact T|]. reflexivity.
    + replace (map fst _) with office_home_domains by reflexivity. exact ND.
  - assert (K : forall v, Permutation (map (fun l => (l_x l, l_y l)) (part (number office_home_domains v) (shuffled perm ls))) (home_one perm ls (number office_home_domains v)) /\
      (perm = None -> home_load code perm v ls = inl (home_table code (map (fun l => (l_x l, l_y l)) (part (number office_home_domains v) (shuffled perm ls)))))).
    { intros v. destruct (C149_one_of_all Row string perm [number office_home_domains v] ls (number office_home_domains v) _ Hpm (or_introl eq_refl)) as (_ & P & Q).
      split; [exact P|]. intros Z. unfold home_load. rewrite <- (Q Z). reflexivity. }
    repeat constructor; apply K.
Qed.

Lemma pack_other {Row} (s : @dataset Row) : Forall (fun d => exists y, d_y d = Some (YOther, y)) (ds_domains s) -> forall names a,
  pack_targets s true (None, None) names a = pack_targets s false (None, None) names a.
Proof.
  intros H. induction names as [|n names IH]; intros a; [reflexivity|]. cbn [pack_targets].
  destruct (dict_getitem String.eqb n (ds_names s)) as [k|e]; [|reflexivity]. cbn [bind].
  unfold get_domain. destruct (dict_getitem String.eqb n (ds_names s)) as [k'|e]; [|reflexivity]. cbn [bind].
  destruct (nth_error (ds_domains s) (k' - 1)) as [d|] eqn:N; [|reflexivity]. cbn [bind].
  apply nth_error_In in N. rewrite Forall_forall in H. destruct (H d N) as (y & E). unfold mask_target. cbn [fst]. unfold labels_of. rewrite E. cbn [fst snd]. apply IH.
Qed.
(** Office-Home: asking for hidden target labels changes nothing, whatever is packed: the labels (strings) are all there. *)
Theorem C171_home_visible_refuted : forall Row code perm program d c d' (s : @dataset Row), fetch program (home_load_all code perm) d c = (d', Returned s) ->
  forall srcs tgts rxy rt, pack s srcs tgts true rxy rt None None = pack s srcs tgts false rxy rt None None.
Proof.
  intros Row code perm program d c d' s E srcs tgts rxy rt.
  assert (L : exists ls, home_load_all code perm ls = inl s).
  { exists (k_files d'). exact (fetch_loaded _ _ _ _ _ _ E). }
  destruct L as (ls & L). unfold home_load_all in L.
  assert (ND : NoDup office_home_domains) by (repeat constructor; cbn; intuition discriminate).
  destruct (home_register_ok code (home_domains_of perm ls) empty_ds [] (conj eq_refl eq_refl)) as (s' & Es & T); [exact ND|].
  rewrite Es in L. injection L as ->. destruct T as [T _].
  assert (O : Forall (fun d => exists y, d_y d = Some (YOther, y)) (ds_domains s)).
  { rewrite T. cbn [app]. apply Forall_forall. intros x Hx. rewrite map_map in Hx. apply in_map_iff in Hx. destruct Hx as (p & <- & _). eexists. reflexivity. }
  unfold pack. destruct (pack_sources s srcs _) as [a1|e]; [|reflexivity]. cbn [bind]. rewrite (pack_other s O). reflexivity.
Qed.

(** ** What one domain comes in *)
(** return_X_y=True: the arrays. return_X_y=False: Office-31 gives them in a Bunch, Amazon reviews and Office-Home in a dataset with this one domain, under
    its name: not the Bunch with X, y and target_names their documentation promises. *)
Theorem C171_container : forall (File Row : Type) enum program (load : string -> list File -> @table Row + fexn) d v c d' t,
  fetch_arrays enum program load d (DMember v) c = (d', Returned t) ->
  (forall ad, fetch_public enum program load ad true d (DMember v) c = (d', Returned (GPair t))) /\
  fetch_public enum program load false false d (DMember v) c = (d', Returned (GBunch t)) /\
  exists s, fetch_public enum program load true false d (DMember v) c = (d', Returned (GDataset s)) /\ holds s [(v, as_dom t)].
Proof.
  intros File Row enum program load d v c d' t E. unfold fetch_public. rewrite E. split; [intros ad; reflexivity|]. split; [reflexivity|].
  eexists. split; [reflexivity|]. apply tracks_holds; [split; reflexivity | repeat constructor; cbn; auto].
Qed.
Theorem C171_container_refuted : forall (File Row : Type) enum program (load : string -> list File -> @table Row + fexn) d a c d' g,
  fetch_public enum program load true false d a c = (d', Returned g) -> ~ exists t, g = GBunch t.
Proof.
  intros File Row enum program load d a c d' g E (t & ->). unfold fetch_public in E. destruct (fetch_arrays enum program load d a c) as [d1 [t1|e|]]; [|discriminate|discriminate].
  destruct (resolve enum a) as [v|e]; [|discriminate]. unfold present in E. destruct (register empty_ds v t1); discriminate.
Qed.

(** ** The csv file *)
(** A header and lines holding the features, the label and the domain: every line is read, in order, whatever the header is. *)
Theorem C171_csv : forall (F : Type) (float_of : string -> option F) header n (recs : list (list (string * F) * string * string)),
  (forall r, In r recs -> length (fst (fst r)) = n /\ forall p, In p (fst (fst r)) -> float_of (fst p) = Some (snd p)) ->
  parse_csv float_of (header :: map (fun r => map fst (fst (fst r)) ++ [snd (fst r); snd r]) recs) =
    Some (Ok (map (fun r => mkLine (map snd (fst (fst r))) (snd (fst r)) (number office_home_domains (lower (snd r)))) recs)).
Proof.
  intros F float_of header n recs H. cbn [parse_csv]. f_equal.
  assert (A : mapM split_row (map (fun r => map fst (fst (fst r)) ++ [snd (fst r); snd r]) recs) = Ok (map (fun r => (map fst (fst (fst r)), snd (fst r), snd r)) recs)).
  { clear H. induction recs as [|r recs IH]; [reflexivity|]. cbn [map mapM]. rewrite IH.
    assert (S1 : split_row (map fst (fst (fst r)) ++ [snd (fst r); snd r]) = Ok (map fst (fst (fst r)), snd (fst r), snd r)).
    { unfold split_row. set (l := map fst (fst (fst r))). rewrite app_length. cbn [length].
      replace (length l + 2 - 2) with (length l) by lia. replace (length l + 2 - 1) with (length l + 1) by lia.
      rewrite nth_error_app2 by lia. rewrite Nat.sub_diag. rewrite nth_error_app2 by lia. replace (length l + 1 - length l) with 1 by lia. cbn [nth_error].
      replace (2 <=? length l + 2) with true by (symmetry; apply Nat.leb_le; lia). rewrite firstn_app, Nat.sub_diag, firstn_all. cbn [firstn]. rewrite app_nil_r. reflexivity. }
    rewrite S1. reflexivity. }
  rewrite A. cbn [bind].
  assert (B : mapM (fun p : list string * string * string => floats float_of (fst (fst p))) (map (fun r => (map fst (fst (fst r)), snd (fst r), snd r)) recs) =
    Ok (map (fun r => map snd (fst (fst r))) recs)).
  { clear A. induction recs as [|r recs IH]; [reflexivity|]. cbn [map mapM fst]. rewrite IH by (intros r0 Hr; apply H; right; exact Hr).
    destruct (H r (or_introl eq_refl)) as [_ H2].
    assert (S1 : floats float_of (map fst (fst (fst r))) = Ok (map snd (fst (fst r)))).
    { clear -H2. unfold floats. induction (fst (fst r)) as [|p l IH]; [reflexivity|]. cbn [map mapM]. rewrite (H2 p (or_introl eq_refl)), IH by (intros q Hq; apply H2; right; exact Hq). reflexivity. }
    rewrite S1. reflexivity. }
  rewrite B. cbn [bind].
  assert (C : forallb (fun x : list F => length x =? length (nth 0 (map (fun r => map snd (fst (fst r))) recs) [])) (map (fun r => map snd (fst (fst r))) recs) = true).
  { apply forallb_forall. intros x Hx. apply in_map_iff in Hx. destruct Hx as (r & <- & Hr). rewrite map_length. rewrite (proj1 (H r Hr)).
    destruct recs as [|r0 recs]; [destruct Hr|]. cbn [map nth]. rewrite map_length, (proj1 (H r0 (or_introl eq_refl))). apply Nat.eqb_refl. }
  rewrite C. f_equal. clear. induction recs as [|r recs IH]; [reflexivity|]. cbn [map combine fst snd]. rewrite IH. reflexivity.
Qed.
(** A file that is not of this form is refused: a line with less than two fields, a field that is no number, lines of different lengths. *)
Theorem C171_csv_refused : forall (F : Type) (float_of : string -> option F) header rows ls, parse_csv float_of (header :: rows) = Some (Ok ls) ->
  length ls = length rows /\ Forall2 (fun row l => 2 <= length row /\ length row = length (l_x l) + 2 /\
     Forall2 (fun s x => float_of s = Some x) (firstn (length row - 2) row) (l_x l)) rows ls /\
  forall r1 r2, In r1 rows -> In r2 rows -> length r1 = length r2.
Proof.
  intros F float_of header rows ls E. cbn [parse_csv] in E. injection E as E.
  destruct (mapM split_row rows) as [parts|e] eqn:A; [|discriminate]. cbn [bind] in E.
  destruct (mapM _ parts) as [X|e] eqn:B; [|discriminate]. cbn [bind] in E.
  destruct (forallb _ X) eqn:C; [|discriminate]. injection E as <-.
  assert (G : Forall2 (fun row q => 2 <= length row /\ length row = length (fst q) + 2 /\ Forall2 (fun s x => float_of s = Some x) (firstn (length row - 2) row) (fst q)) rows (combine X parts) /\ length X = length rows).
  { clear C. revert parts X A B. induction rows as [|row rows IH]; intros parts X A B.
    - cbn in A. injection A as <-. cbn in B. injection B as <-. split; [constructor | reflexivity].
    - cbn [mapM] in A. destruct (split_row row) as [p|e] eqn:S1; [|discriminate]. cbn [bind] in A. destruct (mapM split_row rows) as [parts'|e] eqn:A'; [|discriminate]. cbn [bind] in A. injection A as <-.
      cbn [mapM] in B. destruct (floats float_of (fst (fst p))) as [x|e] eqn:S2; [|discriminate]. cbn [bind] in B.
      destruct (mapM (fun p0 : list string * string * string => floats float_of (fst (fst p0))) parts') as [X'|e] eqn:B'; [|discriminate]. cbn [bind] in B. injection B as <-.
      destruct (IH parts' X' eq_refl B') as [G L]. cbn [combine length]. split; [|congruence]. constructor; [|exact G]. cbn [fst].
      unfold split_row in S1. destruct (nth_error row (length row - 2)) as [y|]; [|discriminate]. destruct (nth_error row (length row - 1)) as [dd|]; [|discriminate].
      destruct (Nat.leb_spec 2 (length row)) as [H2|H2]; [|discriminate]. injection S1 as <-. cbn [fst] in S2.
      assert (Q : Forall2 (fun s x0 => float_of s = Some x0) (firstn (length row - 2) row) x).
      { clear -S2. unfold floats in S2. revert x S2. induction (firstn (length row - 2) row) as [|s l IH]; intros x S2; cbn [mapM] in S2; [injection S2 as <-; constructor|].
        destruct (float_of s) as [f|] eqn:Fs; [|discriminate]. cbn [bind] in S2. destruct (mapM _ l) as [xs|e] eqn:M; [|discriminate]. cbn [bind] in S2. injection S2 as <-. constructor; [exact Fs | apply IH; reflexivity]. }
      split; [exact H2|]. split; [|exact Q]. assert (Lx : length (firstn (length row - 2) row) = length x) by (clear -Q; induction Q; cbn; congruence).
      rewrite firstn_length in Lx. lia. }
  destruct G as [G L]. assert (Lc : length (combine X parts) = length rows) by (clear -G; induction G; cbn; congruence).
  split; [rewrite map_length; exact Lc|]. split.
  - clear -G. induction G; cbn [map]; constructor; auto.
  - rewrite forallb_forall in C. assert (K : forall r, In r rows -> length r = length (nth 0 X []) + 2).
    { intros r Hr. assert (exists q, In q (combine X parts) /\ length r = length (fst q) + 2) as (q & Iq & Q).
      { clear -G Hr. induction G as [|r0 q rs qs H G IH]; [destruct Hr|]. destruct Hr as [->|Hr]; [exists q; split; [left; reflexivity | apply H]|]. destruct (IH Hr) as (q' & I & Q). exists q'. split; [right; exact I | exact Q]. }
      destruct q as [x p]. apply in_combine_l in Iq. apply C, Nat.eqb_eq in Iq. cbn [fst] in Q. lia. }
    intros r1 r2 H1 H2. rewrite (K r1 H1), (K r2 H2). reflexivity.
Qed.

(** ** The data folder *)
(** The argument goes before the environment variable, the variable before the default; '~' is expanded; the folder exists afterwards and none
    disappears; giving the result back changes nothing. *)
Theorem C171_data_home : forall (P : Type) (eqb : P -> P -> bool) default expand env folders arg, (forall a b, eqb a b = true <-> a = b) -> (forall p, expand (expand p) = expand p) ->
  let '(p, folders') := get_data_home eqb default expand env folders arg in
  (forall a, arg = Some a -> p = expand a) /\ (forall e, arg = None -> env = Some e -> p = expand e) /\ (arg = None -> env = None -> p = expand default) /\
  In p folders' /\ (forall x, In x folders' <-> In x folders \/ x = p) /\ forall env', get_data_home eqb default expand env' folders' (Some p) = (p, folders').
Proof.
  intros P eqb default expand env folders arg He Hx. unfold get_data_home.
  set (q := match arg with Some p => p | None => match env with Some p => p | None => default end end).
  assert (M : forall x l, existsb (eqb x) l = true <-> In x l).
  { intros x l. rewrite existsb_exists. split; [intros (y & I & E); apply He in E; subst; exact I | intros I; exists x; split; [exact I | apply He; reflexivity]]. }
  assert (I1 : In (expand q) (if existsb (eqb (expand q)) folders then folders else expand q :: folders)).
  { destruct (existsb (eqb (expand q)) folders) eqn:X; [apply M; exact X | left; reflexivity]. }
  split; [intros a ->; reflexivity|]. split; [intros e -> ->; reflexivity|]. split; [intros -> ->; reflexivity|]. split; [exact I1|]. split.
  - intros x. destruct (existsb (eqb (expand q)) folders) eqn:X; [apply M in X; split; [auto | intros [H| ->]; assumption] | cbn [In]; intuition].
  - intros env'. rewrite Hx. apply M in I1. rewrite I1. reflexivity.
Qed.

(** ** Examples *)
Definition ex_office : list (ofile nat) := [mkOF 0 20 1 true 8 200; mkOF 0 10 1 true 8 100; mkOF 1 10 1 true 8 101; mkOF 2 20 1 true 8 202; mkOF 2 20 2 false 6 0].
Definition ex_amazon : list (afile nat) := [mkAF 0 [1; 2] [1; 0]%Z; mkAF 1 [3] [1]%Z; mkAF 2 [4] [0]%Z; mkAF 3 [5; 6] [0; 1]%Z].
Definition ex_home : list (list string) := [["f1"; "label"; "domain"]; ["7"; "Bed"; "Art"]; ["8"; "Fan"; "Product"]; ["9"; "Bed"; "Clipart"]; ["7"; "Fan"; "RealWorld"]; ["8"; "Bed"; "Product"]]%string.
Definition ex_float (s : string) : option nat := if String.eqb s "7" then Some 7 else if String.eqb s "8" then Some 8 else if String.eqb s "9" then Some 9 else None.
Definition ex_code (s : string) : Z := if String.eqb s "Bed" then 0%Z else 1%Z.

Example C171_office_ex : exists d' s, fetch_all office31_domains (office_program ex_office) (office31_load (fun l => l) None 8 [] CatNone) clean (mkCall true None) = (d', Returned s) /\
  pack s ["amazon"]%string ["dslr"; "webcam"]%string true None RTArray None None =
    Ok (PArrays [100; 200; 202; 101] [VNum (inject_Z 0); VNum (inject_Z 1); VNum (inject_Z (-1)); VNum (inject_Z (-1))] [1; 1; -3; -2]%Z) /\
  fetch_public office31_domains (office_program ex_office) (office31_load (fun l => l) None 8 [] CatNone) false true d' (DStr "WebCam") (mkCall false None) =
    (d', Returned (GPair ([101], (YInt, [VNum (inject_Z 0)])))).
Proof. do 2 eexists. split; [vm_compute; reflexivity|]. split; vm_compute; reflexivity. Qed.
Example C171_amazon_ex : exists d' s, fetch_all amazon_review_domains (amazon_program ex_amazon) (amazon_load None) clean (mkCall true None) = (d', Returned s) /\
  pack s ["books"]%string ["elec"]%string true None RTArray None None = Ok (PArrays [1; 2; 5; 6] [VNum (inject_Z 1); VNum (inject_Z 0); VNan; VNan] [1; 1; -4; -4]%Z).
Proof. do 2 eexists. split; vm_compute; reflexivity. Qed.
Example C171_home_ex : exists ls d' s, parse_csv ex_float ex_home = Some (Ok ls) /\
  fetch (office_program ls) (home_load_all ex_code None) clean (mkCall true None) = (d', Returned s) /\
  pack s ["art"]%string ["product"]%string true None RTArray None None = Ok (PArrays [[7]; [8]; [8]] [VNum (inject_Z 0); VNum (inject_Z 1); VNum (inject_Z 0)] [1; -3; -3]%Z).
Proof. do 3 eexists. split; [vm_compute; reflexivity|]. split; vm_compute; reflexivity. Qed.
Example C171_case_ex : same_but_case "WebCam" "webcam" /\ parse_csv ex_float [["h"]; ["7"]]%string = Some (Err IndexError) /\
  parse_csv ex_float [["h"]; ["x"; "Bed"; "Art"]]%string = Some (Err ValueError) /\ parse_csv ex_float [] = None.
Proof.
  split; [|repeat split; reflexivity].
  apply sbc_capital; [unfold capital; vm_compute; lia | reflexivity|]. do 2 apply sbc_same. apply sbc_capital; [unfold capital; vm_compute; lia | reflexivity|]. do 2 apply sbc_same. constructor.
Qed.
