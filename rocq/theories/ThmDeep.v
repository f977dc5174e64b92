(** Theorems C60-C64 and C98-C102: samplers, DeepDADataset, DomainAwareCriterion, DomainAwareNet. *)
From Coq Require Import String List ZArith QArith Bool Arith Lia Reals Lra Permutation Sorted.
From Verif Require Import Np NpFacts Labels RVec RVecFacts Spec SpecFacts UtilsProofs DeepModel DeepSpec DeepProofs DeepProofs2 DeepProofs3.
Import ListNotations.
Local Open Scope nat_scope.
Local Open Scope list_scope.

Section Deep.
  Context {Row : Type}.
  Variable row_ok : Row -> bool.
  Notation consistent := (consistent row_ok).

(** C60. *)
Theorem C60_epoch (d : ds Row) bs mode pp pn : consistent d -> 0 < bs -> mode <> SOther ->
  let sd := t_sd _ d in let ns := how_many is_source sd in let nt := how_many is_target sd in
  0 < ns -> 0 < nt -> (forall k, Permutation (seq 0 ns) (pp k)) -> (forall k, Permutation (seq 0 nt) (pn k)) ->
  let n := match mode with SMax => Nat.max (bs * (ns / bs)) (bs * (nt / bs)) | SMin => Nat.min (bs * (ns / bs)) (bs * (nt / bs))
           | SSource => bs * (ns / bs) | _ => bs * (nt / bs) end in
  exists ps qs, balanced_epoch Row d bs mode pp pn = Ok (interleave ps qs) /\ length ps = n /\ length qs = n /\
    (forall i, In i ps -> In i (positions is_source sd)) /\ (forall i, In i qs -> In i (positions is_target sd)) /\
    (forall i, In i (positions is_source sd) -> n / ns <= uses i ps <= n / ns + 1) /\
    (forall i, In i (positions is_target sd) -> n / nt <= uses i qs <= n / nt + 1).
Proof.
  intros C Hb HM sd ns nt Hs Ht HP HQ n.
  assert (HN : num_samples mode bs ns nt = Ok n).
  { unfold num_samples. destruct (Nat.eqb_spec bs 0); [lia|]. rewrite !whole_mult by auto. unfold n. now destruct mode. }
  destruct (balanced_ok row_ok d bs mode n pp pn C HN Hs Ht HP HQ) as (ps & qs & A & B & B' & D & D' & E & E'). exists ps, qs.
  fold sd in D, D', E, E'. fold ns nt in E, E'.
  split; [exact A|]. split; [exact B|]. split; [exact B'|]. split; [exact D|]. split; [exact D'|]. split; intros i Hi; rewrite Nat.add_1_r; auto.
Qed.

Theorem C60_batches (d : ds Row) bs mode pp pn : consistent d -> 0 < bs -> mode <> SOther ->
  let sd := t_sd _ d in let ns := how_many is_source sd in let nt := how_many is_target sd in
  0 < ns -> 0 < nt -> (forall k, Permutation (seq 0 ns) (pp k)) -> (forall k, Permutation (seq 0 nt) (pn k)) ->
  exists e batches, balanced_epoch Row d bs mode pp pn = Ok e /\ balanced_batches Row d bs mode pp pn = Ok batches /\ concat batches = e /\
    length batches = (match mode with SMax => Nat.max (ns / bs) (nt / bs) | SMin => Nat.min (ns / bs) (nt / bs) | SSource => ns / bs | _ => nt / bs end) /\
    (forall b, In b batches -> length b = 2 * bs /\ (forall i, In i b -> i < length sd) /\
       how_many (fun i => is_source (nth i sd 0%Z)) b = bs /\ how_many (fun i => is_target (nth i sd 0%Z)) b = bs).
Proof.
  intros C Hb HM sd ns nt Hs Ht HP HQ.
  destruct (C60_epoch d bs mode pp pn C Hb HM Hs Ht HP HQ) as (ps & qs & A & B & B' & D & D' & _). fold sd in B, B', D, D'. fold ns nt in B, B'.
  set (q := match mode with SMax => Nat.max (ns / bs) (nt / bs) | SMin => Nat.min (ns / bs) (nt / bs) | SSource => ns / bs | _ => nt / bs end).
  assert (Q : length ps = q * bs /\ length qs = q * bs).
  { rewrite B, B'. unfold q. destruct mode; rewrite ?Nat.mul_max_distr_l, ?Nat.mul_min_distr_l; split; ring. }
  destruct Q as [Qp Qq]. exists (interleave ps qs). unfold balanced_batches. rewrite A. cbn [bind]. eexists. split; [reflexivity|]. split; [reflexivity|].
  split; [apply chunks_concat; lia|].
  rewrite (chunks_exact (2 * bs) q) by (rewrite ?interleave_length; lia). split; [now rewrite map_length, seq_length|].
  intros b Hbt. apply in_map_iff in Hbt as (j & <- & Hj). apply in_seq in Hj.
  replace (j * (2 * bs)) with (2 * (j * bs)) by lia. rewrite interleave_skipn by lia.
  assert (LS : forall l : list nat, length l = q * bs -> length (firstn bs (skipn (j * bs) l)) = bs).
  { intros l L. rewrite firstn_length, skipn_length, L. assert (bs + j * bs <= q * bs) by nia. lia. }
  rewrite interleave_firstn by (rewrite !skipn_length; lia).
  set (p1 := firstn bs (skipn (j * bs) ps)). set (q1 := firstn bs (skipn (j * bs) qs)).
  assert (L1 : length p1 = bs) by (apply LS; auto). assert (L2 : length q1 = bs) by (apply LS; auto).
  assert (SUB : forall (l : list nat) x, In x (firstn bs (skipn (j * bs) l)) -> In x l).
  { intros l x Hx. rewrite <- (firstn_skipn (j * bs) l). apply in_app_iff. right. rewrite <- (firstn_skipn bs (skipn (j * bs) l)). apply in_app_iff. auto. }
  assert (IP : forall i, In i p1 -> i < length sd /\ is_source (nth i sd 0%Z) = true).
  { intros i Hi. apply SUB, D in Hi. apply positions_In in Hi as (x & E & P). split; [apply nth_error_Some; congruence|]. apply (nth_error_nth _ _ 0%Z) in E. now rewrite E. }
  assert (IQ : forall i, In i q1 -> i < length sd /\ is_target (nth i sd 0%Z) = true).
  { intros i Hi. apply SUB, D' in Hi. apply positions_In in Hi as (x & E & P). split; [apply nth_error_Some; congruence|]. apply (nth_error_nth _ _ 0%Z) in E. now rewrite E. }
  split; [rewrite interleave_length; lia|]. split.
  { intros i Hi. apply (Permutation_in _ (interleave_perm p1 q1 ltac:(lia))) in Hi. apply in_app_iff in Hi as [Hi|Hi]; [now apply IP|now apply IQ]. }
  rewrite !(how_many_perm _ _ _ (interleave_perm p1 q1 ltac:(lia))), !how_many_app. split.
  - rewrite (proj2 (how_many_0 _ q1)); [|intros x Hx; destruct (IQ x Hx) as [_ T]; rewrite is_target_negb in T; now apply negb_true_iff].
    rewrite (how_many_all _ p1); [lia|]. intros x Hx. now apply IP.
  - rewrite (proj2 (how_many_0 _ p1)); [|intros x Hx; destruct (IP x Hx) as [_ T]; rewrite is_target_negb, T; reflexivity].
    rewrite (how_many_all _ q1); [lia|]. intros x Hx. now apply IQ.
Qed.

(** When both sides are smaller than the batch size, an epoch is empty in every mode: nothing is trained. *)
Theorem C60_small_sides_give_no_batch (d : ds Row) bs mode pp pn : consistent d -> mode <> SOther ->
  let sd := t_sd _ d in 0 < how_many is_source sd < bs -> 0 < how_many is_target sd < bs ->
  (forall k, Permutation (seq 0 (how_many is_source sd)) (pp k)) -> (forall k, Permutation (seq 0 (how_many is_target sd)) (pn k)) ->
  balanced_batches Row d bs mode pp pn = Ok [].
Proof.
  intros C HM sd Hs Ht HP HQ.
  destruct (C60_batches d bs mode pp pn C ltac:(lia) HM ltac:(apply Hs) ltac:(apply Ht) HP HQ) as (e & bl & _ & A & _ & L & _).
  rewrite A. rewrite !Nat.div_small in L by (fold sd; lia). destruct bl; [reflexivity|]. destruct mode; discriminate L.
Qed.

(** C61. *)
Theorem C61_batches (d : ds Row) bs (src : bool) perm : consistent d -> 0 < bs ->
  let sd := t_sd _ d in let side := if src then is_source else is_target in let n := how_many side sd in
  0 < n -> Permutation (seq 0 n) perm ->
  exists e batches, only_epoch Row d bs (Some src) perm = Ok e /\ only_batches Row d bs (Some src) perm = Ok batches /\ concat batches = e /\
    NoDup e /\ (forall i, In i e -> In i (positions side sd)) /\ length batches = n / bs /\ (forall b, In b batches -> length b = bs).
Proof.
  intros C Hb sd side n Hn HP. destruct (only_ok row_ok d bs src perm C Hb Hn HP) as (e & A & L & ND & I). fold sd side in L, I. fold n in L.
  exists e. unfold only_batches. rewrite A. cbn [bind]. eexists. split; [reflexivity|]. split; [reflexivity|]. split; [apply chunks_concat; auto|].
  split; [exact ND|]. split; [exact I|]. rewrite whole_mult in L by auto.
  rewrite (chunks_exact bs (n / bs)) by lia. split; [now rewrite map_length, seq_length|].
  intros b Hbt. apply in_map_iff in Hbt as (j & <- & Hj). apply in_seq in Hj. rewrite firstn_length, skipn_length, L.
  assert (bs + j * bs <= (n / bs) * bs) by nia. lia.
Qed.
Theorem C61_unknown_side (d : ds Row) bs perm : only_batches Row d bs None perm = Err ValueError.
Proof. reflexivity. Qed.

(** C62: the constructor gives a consistent dataset with the given content. *)
Theorem C62_constructor X y sd w d : dataset Row row_ok X (Some y) (DomArr sd) w = Ok d -> X <> [] -> y <> [] -> sd <> [] ->
  consistent d /\ t_X _ d = X /\ t_y _ d = y /\ t_sd _ d = sd /\ t_w _ d = match w with None => [] | Some l => l end.
Proof.
  intros H NX NY NS. destruct (dataset_inv row_ok X (Some y) (DomArr sd) w d H) as (C & A & B & D & E).
  split; [exact C|]. split; [exact A|]. destruct y; [congruence|]. destruct sd; [congruence|]. auto.
Qed.
Theorem C62_constructor_accepts X y sd w : (forall x, In x X -> row_ok x = true) -> length y = length X -> length sd = length X ->
  match w with None => True | Some l => l = [] \/ length l = length X end -> exists d, dataset Row row_ok X (Some y) (DomArr sd) w = Ok d.
Proof.
  intros HR Ly Ls Lw. destruct (dataset_ok row_ok X (Some y) (DomArr sd) w HR eq_refl) as (d & A & _).
  - now apply given_y_length.
  - now apply given_sd_length.
  - destruct w; auto.
  - eauto.
Qed.

(** Selections. *)
Theorem C62_select_source d rw : consistent d -> exists r, select_source Row row_ok d rw = Ok r /\ consistent r /\ selection (map is_source (t_sd _ d)) d r rw.
Proof. intros C. apply select_mask_ok; auto. rewrite map_length. apply C. Qed.
Theorem C62_select_target d rw : consistent d -> exists r, select_target Row row_ok d rw = Ok r /\ consistent r /\ selection (map is_target (t_sd _ d)) d r rw.
Proof. intros C. apply select_mask_ok; auto. rewrite map_length. apply C. Qed.
Theorem C62_select_domain d k rw : consistent d ->
  exists r, select_domain Row row_ok d k rw = Ok r /\ consistent r /\ selection (map (fun s => (s =? k)%Z) (t_sd _ d)) d r rw.
Proof. intros C. apply select_mask_ok; auto. rewrite map_length. apply C. Qed.
Theorem C62_select_with_labels d rw : consistent d ->
  exists r, select_with_labels Row row_ok d rw = Ok r /\ consistent r /\ selection (map (fun v => negb (val_eqb_q v (inject_Z (-1)))) (t_y _ d)) d r rw.
Proof.
  intros C. unfold select_with_labels. rewrite (c_has _ _ C). apply select_mask_ok; auto. rewrite map_length. apply C.
Qed.
Theorem C62_select_condition d c rw : consistent d ->
  match c with
  | OnX _ p => exists r, select_cond Row row_ok d c rw = Ok r /\ consistent r /\ selection (map p (t_X _ d)) d r rw
  | OnY _ p => exists r, select_cond Row row_ok d c rw = Ok r /\ consistent r /\
                 selection (map (fun v => negb (val_eqb_q v (inject_Z (-1))) && p v) (t_y _ d)) d r rw
  | OnDomain _ p => exists r, select_cond Row row_ok d c rw = Ok r /\ consistent r /\ selection (map p (t_sd _ d)) d r rw
  | OnWeight _ p => t_w _ d <> [] -> exists r, select_cond Row row_ok d c rw = Ok r /\ consistent r /\ selection (map p (t_w _ d)) d r rw
  | OnOther _ => select_cond Row row_ok d c rw = Err ValueError
  end.
Proof.
  intros C. destruct c as [p|p|p|p|]; cbn [select_cond].
  - apply select_mask_ok; auto. apply map_length.
  - rewrite (c_has _ _ C). unfold np_map2. rewrite !map_length, Nat.eqb_refl. cbn [bind].
    assert (E : map2 andb (map (fun v => negb (val_eqb_q v (inject_Z (-1)))) (t_y _ d)) (map p (t_y _ d)) =
      map (fun v => negb (val_eqb_q v (inject_Z (-1))) && p v) (t_y _ d)) by (clear; induction (t_y Row d); cbn; congruence).
    rewrite E. apply select_mask_ok; auto. rewrite map_length. apply C.
  - apply select_mask_ok; auto. rewrite map_length. apply C.
  - intros W. apply has_weights_iff in W. rewrite W. apply has_weights_iff in W. apply select_mask_ok; auto. rewrite map_length.
    destruct (c_w _ _ C) as [E|E]; [congruence|exact E].
  - reflexivity.
Qed.

(** Selecting whole domains keeps the number of each sample within its domain. *)
Theorem C62_numbers_kept d r p rw : consistent d -> consistent r -> selection (map p (t_sd _ d)) d r rw ->
  t_idx _ r = kept (map p (t_sd _ d)) (t_idx _ d).
Proof.
  intros C C' (A & _ & B & _). rewrite (c_idx _ _ C'), (c_idx _ _ C). rewrite B, A, <- !kept_select, select_self.
  rewrite select_length by (rewrite map_length; apply C). rewrite count_map. rewrite <- (c_sd _ _ C).
  symmetry. apply (ranks_kept p (t_sd _ d) []).
Qed.

(** Source and target parts together are the dataset. *)
Theorem C62_partition d s t rw rw' : consistent d -> select_source Row row_ok d rw = Ok s -> select_target Row row_ok d rw' = Ok t ->
  Permutation (samples s ++ samples t) (samples d).
Proof.
  intros C Hs Ht. destruct (C62_select_source d rw C) as (s' & Es & _ & S1 & S2 & S3 & _). destruct (C62_select_target d rw' C) as (t' & Et & _ & T1 & T2 & T3 & _).
  rewrite Es in Hs. injection Hs as ->. rewrite Et in Ht. injection Ht as ->. unfold samples. rewrite S1, S2, S3, T1, T2, T3, <- !kept_select.
  pose proof (c_y _ _ C) as Ly. pose proof (c_sd _ _ C) as Ls.
  rewrite <- !select_combine; try lia; try (rewrite !combine_length; lia); try (rewrite !select_length; rewrite ?map_length; lia).
  assert (E : map is_target (t_sd Row d) = map negb (map is_source (t_sd Row d))) by (rewrite map_map; apply map_ext, is_target_negb).
  rewrite E. apply select_perm. rewrite map_length, !combine_length. lia.
Qed.

(** Splitting by domain: one selection per domain present, in increasing order. *)
Theorem C62_per_domain_split d rw : consistent d -> exists l, per_domain_split Row row_ok d rw = Ok l /\
  StronglySorted Z.lt (map fst l) /\ (forall k, In k (map fst l) <-> In k (t_sd _ d)) /\
  (forall k r, In (k, r) l -> consistent r /\ selection (map (fun s => (s =? k)%Z) (t_sd _ d)) d r rw).
Proof.
  intros C. unfold per_domain_split.
  assert (G : forall ks, exists l, mapM (fun k => r <- select_domain Row row_ok d k rw ;; Ok (k, r)) ks = Ok l /\ map fst l = ks /\
    (forall k r, In (k, r) l -> consistent r /\ selection (map (fun s => (s =? k)%Z) (t_sd _ d)) d r rw)).
  { induction ks as [|k ks (l & E & M & H)]; [exists []; repeat split; auto; contradiction|].
    destruct (C62_select_domain d k rw C) as (r & Er & Cr & Sr). cbn [mapM]. rewrite Er. cbn [bind]. rewrite E. cbn [bind].
    exists ((k, r) :: l). split; [reflexivity|]. split; [cbn; congruence|]. intros k' r' [Q|Q]; [injection Q as <- <-; auto|auto]. }
  destruct (G (unique (t_sd _ d))) as (l & E & M & H). exists l. split; [exact E|]. rewrite M. split; [apply unique_sorted|]. split; [intros k; apply unique_In|exact H].
Qed.

(** Merging. *)
Theorem C62_merge a b kw : consistent a -> consistent b ->
  (kw = true -> (t_w _ a = [] /\ t_w _ b = []) \/ (length (t_w _ a) = length (t_X _ a) /\ length (t_w _ b) = length (t_X _ b))) ->
  exists d, merge Row row_ok a b kw = Ok d /\ consistent d /\ t_X _ d = t_X _ a ++ t_X _ b /\ t_y _ d = t_y _ a ++ t_y _ b /\
    t_sd _ d = t_sd _ a ++ t_sd _ b /\ t_w _ d = if kw then t_w _ a ++ t_w _ b else [].
Proof.
  intros Ca Cb HW. unfold merge. pose proof (c_y _ _ Ca). pose proof (c_sd _ _ Ca). pose proof (c_y _ _ Cb). pose proof (c_sd _ _ Cb).
  set (X := t_X Row a ++ t_X Row b). set (y := t_y Row a ++ t_y Row b). set (sd := t_sd Row a ++ t_sd Row b).
  assert (Ly : length y = length X) by (unfold y, X; rewrite !app_length; lia). assert (Ls : length sd = length X) by (unfold sd, X; rewrite !app_length; lia).
  assert (GY : given_y (length X) (Some y) = y) by (rewrite <- Ly; cbn; now destruct y).
  assert (GS : given_sd (length X) (DomArr sd) = sd) by (rewrite <- Ls; cbn; now destruct sd).
  destruct (dataset_ok row_ok X (Some y) (DomArr sd) (Some (merged_w Row kw a b))) as (d & E & C & E1 & E2 & E3 & E4).
  - intros x Hx. apply in_app_iff in Hx as [Hx|Hx]; [now apply (c_rows _ _ Ca)|now apply (c_rows _ _ Cb)].
  - reflexivity.
  - now rewrite GY.
  - now rewrite GS.
  - cbn. unfold merged_w. destruct kw; [|auto]. destruct (HW eq_refl) as [[-> ->]|[L1 L2]]; [auto|right]. unfold X. rewrite !app_length. lia.
  - exists d. split; [exact E|]. split; [exact C|]. rewrite E1, E2, E3, E4, GY, GS. auto.
Qed.
(** Keeping the weights when only one of two non-empty datasets has weights is an error. *)
Theorem C62_merge_mixed_weights a b : consistent a -> consistent b -> t_X _ a <> [] -> t_X _ b <> [] ->
  (t_w _ a = [] /\ t_w _ b <> []) \/ (t_w _ a <> [] /\ t_w _ b = []) -> merge Row row_ok a b true = Err AssertionError.
Proof.
  intros Ca Cb Na Nb HW. pose proof (c_y _ _ Ca). pose proof (c_sd _ _ Ca). pose proof (c_y _ _ Cb). pose proof (c_sd _ _ Cb).
  unfold merge, dataset. rewrite (proj2 (forallb_forall _ _)); [|intros x Hx; apply in_app_iff in Hx as [Hx|Hx]; [now apply (c_rows _ _ Ca)|now apply (c_rows _ _ Cb)]].
  assert (La : length (t_X Row a) <> 0) by (destruct (t_X Row a); [congruence|discriminate]).
  assert (Lb : length (t_X Row b) <> 0) by (destruct (t_X Row b); [congruence|discriminate]).
  unfold initialize. destruct (t_sd Row a ++ t_sd Row b) as [|k l] eqn:E; [apply (f_equal (@length Z)) in E; rewrite app_length in E; cbn in E; lia|].
  cbn [bind]. unfold finish. match goal with |- context [is_correct Row ?q] => assert (F : is_correct Row q = false) end.
  { unfold is_correct, has_weights, merged_w. cbn [t_X t_y t_sd t_w]. rewrite !app_length. apply andb_false_iff. right. apply orb_false_iff.
    destruct HW as [[W1 W2]|[W1 W2]]; rewrite ?W1, ?W2; cbn [length app].
    - destruct (c_w _ _ Cb) as [Q|Q]; [congruence|]. rewrite Q. split; [apply Nat.eqb_neq; lia|]. apply negb_false_iff, negb_true_iff, Nat.eqb_neq. lia.
    - destruct (c_w _ _ Ca) as [Q|Q]; [congruence|]. rewrite Q. split; [apply Nat.eqb_neq; lia|]. apply negb_false_iff, negb_true_iff, Nat.eqb_neq. lia. }
  rewrite F. reflexivity.
Qed.

(** Items and loops over a dataset. *)
Theorem C62_items d : consistent d ->
  (forall i, i < length (t_X _ d) -> exists it, getitem Row d i = Ok it /\ item_at d i it) /\
  (forall i, length (t_X _ d) <= i -> getitem Row d i = Err IndexError) /\
  length (items Row d) = length (t_X _ d) /\
  (forall i, i < length (t_X _ d) -> exists it, nth_error (items Row d) i = Some it /\ item_at d i it).
Proof.
  intros C. split; [intros; now apply (getitem_ok row_ok)|]. split; [intros; now apply getitem_out|]. now apply (items_spec row_ok).
Qed.
Theorem C62_weights d w : consistent d ->
  (length w = length (t_X _ d) -> exists r, add_weights Row d w = Ok r /\ consistent r /\ t_X _ r = t_X _ d /\ t_y _ r = t_y _ d /\ t_sd _ r = t_sd _ d /\ t_w _ r = w) /\
  (w <> [] -> length w <> length (t_X _ d) -> add_weights Row d w = Err AssertionError) /\
  consistent (remove_weights Row d) /\ t_w _ (remove_weights Row d) = [].
Proof.
  intros C. pose proof (c_y _ _ C) as Ly. pose proof (c_sd _ _ C) as Ls. unfold add_weights. split; [|split; [|split]].
  - intros L. assert (E : is_correct Row (mkDs Row (t_X Row d) (t_y Row d) (t_sd Row d) w (t_has_y Row d) (t_idx Row d)) = true).
    { unfold is_correct. cbn [t_X t_y t_sd t_w]. rewrite Ly, Ls, L, !Nat.eqb_refl. reflexivity. }
    rewrite E. eexists. split; [reflexivity|]. split; [|repeat split]. destruct C. constructor; cbn; auto.
  - intros NW L. assert (E : is_correct Row (mkDs Row (t_X Row d) (t_y Row d) (t_sd Row d) w (t_has_y Row d) (t_idx Row d)) = false).
    { unfold is_correct, has_weights. cbn [t_X t_y t_sd t_w]. apply andb_false_iff. right. apply orb_false_iff. split; [apply Nat.eqb_neq; auto|].
      destruct w; [congruence|reflexivity]. }
    now rewrite E.
  - destruct C. constructor; cbn; auto.
  - reflexivity.
Qed.

(** Copying a dataset, and giving the arrays in a dict, whose entries win over the arguments. *)
Theorem C62_copy d : consistent d -> exists r, copy Row d = Ok r /\ consistent r /\ t_X _ r = t_X _ d /\ t_y _ r = t_y _ d /\ t_sd _ r = t_sd _ d /\ t_w _ r = t_w _ d.
Proof.
  intros C. pose proof (c_y _ _ C) as Ly. pose proof (c_sd _ _ C) as Ls. unfold copy, merge_in_place, merged_w. cbn [t_X t_y t_sd t_w t_has_y t_idx app].
  assert (K : forall i, is_correct Row (mkDs Row (t_X Row d) (t_y Row d) (t_sd Row d) (t_w Row d) (t_has_y Row d) i) = true).
  { intros i. unfold is_correct, has_weights. cbn [t_X t_y t_sd t_w]. rewrite Ly, Ls, !Nat.eqb_refl. cbn [andb]. destruct (c_w _ _ C) as [-> |E]; [now rewrite orb_true_r|].
    now rewrite E, Nat.eqb_refl. }
  rewrite K. cbn [bind]. unfold finish. rewrite K. cbn [t_X t_y t_sd t_w t_has_y]. rewrite infer_idx_ok. cbn [bind]. eexists. split; [reflexivity|].
  split; [|cbn; auto]. destruct C. constructor; cbn; auto. now rewrite c_sd.
Qed.
Theorem C62_dict X yd sdd wd y sd w : (forall x, In x X -> row_ok x = true) ->
  dataset_dict Row row_ok X yd sdd wd y sd w =
  dataset Row row_ok X (match yd with Some l => Some l | None => y end) (match sdd with Some l => l | None => sd end) (match wd with Some l => Some l | None => w end).
Proof. intros HR. unfold dataset_dict, dataset. now rewrite (proj2 (forallb_forall _ _) HR). Qed.

(** C98: after an in-place merge, looping over the dataset only gives the samples it had before. *)
Theorem C98_loop_misses_added_refuted a b kw d : consistent a -> consistent b -> t_X _ b <> [] -> merge_in_place Row a b kw = Ok d ->
  t_X _ d = t_X _ a ++ t_X _ b /\ getitem Row d (length (t_X _ a)) = Err IndexError /\
  length (items Row d) = length (t_X _ a) /\ length (items Row d) < length (t_X _ d).
Proof.
  intros Ca Cb Nb H. unfold merge_in_place in H. set (d0 := mkDs _ _ _ _ _ _ _) in H. destruct (is_correct Row d0) eqn:K; [|discriminate]. injection H as <-.
  assert (EX : t_X Row d0 = t_X _ a ++ t_X _ b) by reflexivity.
  assert (Lb : length (t_X Row b) <> 0) by (destruct (t_X Row b); [congruence|discriminate]).
  assert (LI : length (t_idx Row a) = length (t_X Row a)) by (rewrite (c_idx _ _ Ca); now rewrite map_length, seq_length).
  unfold is_correct in K. apply andb_true_iff in K as [K K3]. apply andb_true_iff in K as [K1 K2]. apply Nat.eqb_eq in K1, K2.
  assert (LX : length (t_X Row d0) = length (t_X Row a) + length (t_X Row b)) by (rewrite EX; apply app_length).
  assert (OUT : getitem Row d0 (length (t_X Row a)) = Err IndexError).
  { unfold getitem, at_. destruct (nth_error (t_X Row d0) (length (t_X Row a))) eqn:E1; [|reflexivity].
    destruct (nth_error (t_sd Row d0) (length (t_X Row a))) eqn:E2; [|apply nth_error_None in E2; lia]. cbn [bind].
    assert (E3 : nth_error (t_idx Row d0) (length (t_X Row a)) = None) by (apply nth_error_None; cbn; lia). now rewrite E3. }
  assert (IN : forall i, i < length (t_X Row a) -> exists it, getitem Row d0 i = Ok it).
  { intros i Hi. unfold getitem, at_. destruct (nth_error (t_X Row d0) i) eqn:E1; [|apply nth_error_None in E1; lia].
    destruct (nth_error (t_sd Row d0) i) eqn:E2; [|apply nth_error_None in E2; lia].
    destruct (nth_error (t_idx Row d0) i) eqn:E3; [|apply nth_error_None in E3; cbn in E3; lia].
    destruct (nth_error (t_y Row d0) i) eqn:E4; [|apply nth_error_None in E4; lia]. cbn [bind].
    destruct (has_weights Row d0) eqn:HW; [|cbn [bind]; eauto].
    destruct (nth_error (t_w Row d0) i) eqn:E5; [cbn [bind]; eauto|]. apply nth_error_None in E5.
    apply orb_true_iff in K3 as [K3|K3]; [apply Nat.eqb_eq in K3; lia|discriminate K3]. }
  split; [exact EX|]. split; [exact OUT|].
  assert (LEN : length (items Row d0) = length (t_X Row a)).
  { unfold items. rewrite (items_from_prefix d0 (length (t_X Row a))); [lia|exact IN|eauto|lia|lia]. }
  split; [exact LEN|]. lia.
Qed.

(** C99: what is assumed when labels, domains or weights are not given. *)
Theorem C99_defaults X : (forall x, In x X -> row_ok x = true) -> exists d, dataset Row row_ok X None DomNone None = Ok d /\ consistent d /\
  t_X _ d = X /\ t_y _ d = repeat (VNum (inject_Z (-1))) (length X) /\ t_sd _ d = repeat 0%Z (length X) /\ t_w _ d = [] /\
  t_idx _ d = seq 0 (length X).
Proof.
  intros HR. destruct (dataset_ok row_ok X None DomNone None HR eq_refl) as (d & A & C & B & D & E & F); try (cbn; now rewrite repeat_length); [now left|].
  exists d. split; [exact A|]. split; [exact C|]. split; [exact B|]. split; [exact D|]. split; [exact E|]. split; [exact F|].
  rewrite (c_idx _ _ C), E, B. cbn [given_sd]. rewrite <- (map_id (seq 0 (length X))) at 2. apply map_ext_in. intros i Hi. apply in_seq in Hi.
  unfold rank. rewrite nth_repeat. rewrite (how_many_all _ (firstn i (repeat 0%Z (length X)))).
  - rewrite firstn_length, repeat_length. lia.
  - intros x Hx. assert (H : In x (repeat 0%Z (length X))) by (rewrite <- (firstn_skipn i (repeat 0%Z (length X))); apply in_app_iff; auto).
    apply repeat_spec in H. now subst.
Qed.
Theorem C99_int_domain_refuted X y k w : (forall x, In x X -> row_ok x = true) -> dataset Row row_ok X y (DomInt k) w = Err TypeError.
Proof. intros HR. unfold dataset. now rewrite (proj2 (forallb_forall _ _) HR). Qed.

(** C100. Predictions of a module that treats the samples of a batch one by one. *)
Theorem C100_target_rows f infer bs d sd w : (forall b, infer b = map (fun it => f (i_X Row it)) b) -> 0 < bs -> consistent d ->
  0 < how_many is_target (t_sd _ d) ->
  predict_proba Row row_ok infer bs (InDs _ d) sd w false = Ok (map f (rows_of is_target (t_sd _ d) (t_X _ d))).
Proof.
  intros HI Hb C HT. unfold predict_proba. cbn [prepare_input bind].
  destruct (C62_select_target d true C) as (r & E & Cr & S). rewrite E. cbn [bind]. rewrite (predict_ds row_ok f infer HI bs r Hb Cr).
  destruct (selection_target d r true S) as [A B]. rewrite A. rewrite rows_of_length by apply C. destruct (Nat.eqb_spec (how_many is_target (t_sd Row d)) 0); [lia|reflexivity].
Qed.
Theorem C100_all_rows f infer bs d sd w : (forall b, infer b = map (fun it => f (i_X Row it)) b) -> 0 < bs -> consistent d -> t_X _ d <> [] ->
  predict_proba Row row_ok infer bs (InDs _ d) sd w true = Ok (map f (t_X _ d)).
Proof.
  intros HI Hb C NE. unfold predict_proba. cbn [prepare_input bind]. rewrite (predict_ds row_ok f infer HI bs d Hb C).
  destruct (t_X Row d); [congruence|reflexivity].
Qed.
Theorem C100_arrays f infer bs X sd (allow : bool) : (forall b, infer b = map (fun it => f (i_X Row it)) b) -> 0 < bs ->
  (forall x, In x X -> row_ok x = true) -> length sd = length X -> (if allow then X <> [] else 0 < how_many is_target sd) ->
  predict_proba Row row_ok infer bs (InArr _ X) (DomArr sd) None allow = Ok (map f (if allow then X else rows_of is_target sd X)).
Proof.
  intros HI Hb HR L H. assert (NX : X <> []) by (destruct allow; [auto|]; intros ->; destruct sd; [cbn in H; lia|discriminate]).
  destruct (dataset_ok row_ok X None (DomArr sd) None HR eq_refl) as (d & A & C & B & D & E & F); [cbn; apply repeat_length|now apply given_sd_length|now left|].
  assert (ES : t_sd _ d = sd) by (rewrite E; cbn; destruct sd; [destruct X; [congruence|discriminate]|reflexivity]).
  assert (PI : predict_proba Row row_ok infer bs (InArr _ X) (DomArr sd) None allow = predict_proba Row row_ok infer bs (InDs _ d) (DomArr sd) None allow).
  { unfold predict_proba. cbn [prepare_input]. now rewrite A. }
  rewrite PI. destruct allow.
  - rewrite (C100_all_rows f infer bs d _ _ HI Hb C); rewrite B; auto.
  - rewrite (C100_target_rows f infer bs d _ _ HI Hb C); rewrite ?ES, ?B; auto.
Qed.

(** C102. Without domain labels all samples count as source samples, and nothing is left to predict. *)
Theorem C102_no_domain_raises_refuted infer bs X w : (forall x, In x X -> row_ok x = true) -> w = None \/ (exists l, w = Some l /\ length l = length X) ->
  predict Row row_ok infer bs (InArr _ X) DomNone w false = Err ValueError.
Proof.
  intros HR HW. unfold predict, predict_proba. cbn [prepare_input].
  destruct (dataset_ok row_ok X None DomNone w HR eq_refl) as (d & A & C & B & D & E & F); try (cbn; now rewrite repeat_length).
  { destruct HW as [-> |(l & -> & L)]; [now left|]. right. exact L. }
  rewrite A. cbn [bind]. destruct (C62_select_target d true C) as (r & Er & Cr & S). rewrite Er. cbn [bind].
  destruct (selection_target d r true S) as [A1 _]. assert (Z : t_X _ r = []).
  { rewrite A1, E. cbn [given_sd]. rewrite rows_of_select. clear. induction (t_X Row d) as [|x l IH] in X |- *; [destruct X; reflexivity|].
    destruct X as [|x0 X]; [reflexivity|]. cbn. apply IH. }
  rewrite (proj2 (items_nil row_ok r Cr) Z). reflexivity.
Qed.

(** C101. *)
Lemma hits_mean y p : length y = length p -> np_map2 hit y p = Ok (map2 hit y p) /\
  vsum (map2 hit y p) = INR (length (filter (fun vk => val_eqb_q (fst vk) (inject_Z (Z.of_nat (snd vk)))) (combine y p))).
Proof.
  intros L. split; [unfold np_map2; now rewrite L, Nat.eqb_refl|]. clear L. revert p. induction y as [|v y IH]; intros [|k p]; try reflexivity.
  cbn [map2 vsum combine filter fst snd]. unfold hit at 1. rewrite IH. destruct (val_eqb_q v (inject_Z (Z.of_nat k))); [|lra].
  cbn [length]. rewrite S_INR. lra.
Qed.
Lemma score_pred f infer bs d sd (allow : bool) y w p : (forall b, infer b = map (fun it => f (i_X Row it)) b) -> 0 < bs -> consistent d -> t_X _ d <> [] ->
  (allow = true \/ forall s, In s (t_sd _ d) -> (s < 0)%Z) -> mapM (fun x => np_argmax (f x)) (t_X _ d) = Ok p ->
  score Row row_ok infer bs (InDs _ d) y sd w allow = accuracy_score y p w.
Proof.
  intros HI Hb C NE HA HP. unfold score. cbn [prepare_input bind].
  assert (MM : forall l, mapM (fun x => np_argmax (f x)) l = mapM np_argmax (map f l)).
  { induction l as [|x l IH]; [reflexivity|]. cbn. now rewrite IH. }
  assert (P : exists d', (if allow then Ok d else select_target Row row_ok d true) = Ok d' /\
     predict Row row_ok infer bs (InDs Row d') sd None allow = Ok p).
  { destruct allow.
    - exists d. split; [reflexivity|]. unfold predict. rewrite (C100_all_rows f) by auto. cbn [bind]. now rewrite <- MM.
    - destruct HA as [|HA]; [discriminate|]. destruct (C62_select_target d true C) as (r & Er & Cr & S). exists r. split; [exact Er|].
      destruct (selection_target d r true S) as [A1 A2].
      assert (ALL : forall s, In s (t_sd _ d) -> is_target s = true) by (intros s Hs; apply Z.ltb_lt; auto).
      assert (XR : t_X _ r = t_X _ d).
      { rewrite A1, rows_of_select. apply select_all; [rewrite map_length; apply C|]. apply forallb_forall. intros b Hb'. apply in_map_iff in Hb' as (s & <- & Hs). now apply ALL. }
      assert (SR : t_sd _ r = t_sd _ d) by (rewrite A2; clear - ALL; induction (t_sd Row d) as [|s l IH]; [reflexivity|]; cbn; rewrite ALL by (cbn; auto); f_equal; apply IH; intros; apply ALL; cbn; auto).
      unfold predict. rewrite (C100_target_rows f) by (first [solve [auto] | rewrite SR, (how_many_all _ _ ALL), (c_sd _ _ C); destruct (t_X Row d); [congruence|cbn; lia]]).
      cbn [bind]. rewrite SR, XR. rewrite rows_of_select, select_all; [now rewrite <- MM|rewrite map_length; apply C|].
      apply forallb_forall. intros b Hb'. apply in_map_iff in Hb' as (s & <- & Hs). now apply ALL. }
  destruct P as (d' & -> & E). cbn [bind]. now rewrite E.
Qed.
Theorem C101_accuracy f infer bs d sd (allow : bool) y p : (forall b, infer b = map (fun it => f (i_X Row it)) b) -> 0 < bs -> consistent d -> t_X _ d <> [] ->
  (allow = true \/ forall s, In s (t_sd _ d) -> (s < 0)%Z) -> length y = length (t_X _ d) -> mapM (fun x => np_argmax (f x)) (t_X _ d) = Ok p ->
  score Row row_ok infer bs (InDs _ d) y sd None allow =
    Ok (INR (length (filter (fun vk => val_eqb_q (fst vk) (inject_Z (Z.of_nat (snd vk)))) (combine y p))) / INR (length y))%R.
Proof.
  intros HI Hb C NE HA Ly HP. rewrite (score_pred f infer bs d sd allow y None p) by auto. unfold accuracy_score.
  assert (L : length y = length p) by (apply mapM_ok_length in HP; lia). destruct (hits_mean y p L) as [-> H]. cbn [bind]. unfold mean. rewrite H. f_equal. f_equal. f_equal.
  clear - L. revert p L. induction y as [|v y IH]; intros [|k p] L; try discriminate; auto. cbn. f_equal. apply IH. now injection L.
Qed.
(** With sample weights: the share of the weight on the correctly predicted samples. *)
Theorem C101_weighted f infer bs d sd (allow : bool) y w p : (forall b, infer b = map (fun it => f (i_X Row it)) b) -> 0 < bs -> consistent d -> t_X _ d <> [] ->
  (allow = true \/ forall s, In s (t_sd _ d) -> (s < 0)%Z) -> length y = length (t_X _ d) -> length w = length (t_X _ d) -> vsum w <> 0%R ->
  mapM (fun x => np_argmax (f x)) (t_X _ d) = Ok p ->
  score Row row_ok infer bs (InDs _ d) y sd (Some w) allow =
    Ok (vsum (map snd (filter (fun q => val_eqb_q (fst (fst q)) (inject_Z (Z.of_nat (snd (fst q))))) (combine (combine y p) w))) / vsum w)%R.
Proof.
  intros HI Hb C NE HA Ly Lw NZ HP. rewrite (score_pred f infer bs d sd allow y (Some w) p) by auto. unfold accuracy_score.
  assert (L : length y = length p) by (apply mapM_ok_length in HP; lia). destruct (hits_mean y p L) as [-> _]. cbn [bind]. unfold np_dot.
  assert (LH : length w = length (map2 hit y p)) by (rewrite map2_length; lia). rewrite LH, Nat.eqb_refl. cbn [bind]. rewrite (proj2 (Reqb_false _ _) NZ).
  assert (E : dot w (map2 hit y p) = vsum (map snd (filter (fun q => val_eqb_q (fst (fst q)) (inject_Z (Z.of_nat (snd (fst q))))) (combine (combine y p) w)))); [|now rewrite E].
  assert (L2 : length y = length w) by lia. clear - L L2. revert p w L L2. induction y as [|v y IH]; intros [|k p] [|a w] L L2; try discriminate; [reflexivity|].
  cbn [map2 combine filter fst snd]. unfold dot in *. cbn [map2 vsum]. rewrite IH by (cbn in *; lia). unfold hit. destruct (val_eqb_q v (inject_Z (Z.of_nat k))); cbn; lra.
Qed.
(** With source and target samples, and source samples not allowed, score raises instead of scoring the target samples. *)
Theorem C101_mixed_raises_refuted f infer bs d sd y : (forall b, infer b = map (fun it => f (i_X Row it)) b) -> 0 < bs -> consistent d ->
  0 < how_many is_source (t_sd _ d) -> 0 < how_many is_target (t_sd _ d) -> length y = length (t_X _ d) -> (forall x, f x <> []) ->
  score Row row_ok infer bs (InDs _ d) y sd None false = Err ValueError.
Proof.
  intros HI Hb C Hs Ht Ly HF. unfold score. cbn [prepare_input bind]. destruct (C62_select_target d true C) as (r & Er & Cr & S). rewrite Er. cbn [bind].
  destruct (selection_target d r true S) as [A1 A2]. unfold predict. rewrite (C100_target_rows f); auto.
  - cbn [bind]. set (rows := rows_of is_target (t_sd Row r) (t_X Row r)).
    assert (LR : length rows <= how_many is_target (t_sd _ d)).
    { unfold rows. rewrite rows_of_length by apply Cr. rewrite A2. unfold how_many. rewrite <- (rev_involutive (filter _ (filter _ _))).
      clear. rewrite rev_involutive. induction (t_sd Row d) as [|s l IH]; cbn; [lia|]. destruct (is_target s) eqn:E; cbn; [rewrite E; cbn|]; lia. }
    assert (P : exists p, mapM np_argmax (map f rows) = Ok p /\ length p = length rows).
    { clear - HF. induction rows as [|x l (p & E & L)]; [exists []; auto|]. cbn. specialize (HF x). destruct (f x) as [|a q]; [congruence|].
      unfold np_argmax at 1. cbn [map np_argmin bind]. rewrite E. cbn [bind]. eexists. split; [reflexivity|]. cbn. lia. }
    destruct P as (p & -> & Lp). cbn [bind]. unfold accuracy_score, np_map2. pose proof (how_many_split (t_sd _ d)). rewrite (c_sd _ _ C) in *.
    destruct (Nat.eqb_spec (length y) (length p)); [lia|reflexivity].
  - rewrite A2. unfold how_many in *. clear - Ht. induction (t_sd Row d) as [|s l IH]; cbn in *; [lia|]. destruct (is_target s) eqn:E; cbn in *; [rewrite E; cbn; lia|auto].
Qed.
End Deep.

(** C63, C64. *)
Section Loss.
  Context {P D F : Type}.
  Variable base : list P -> list val -> res tensor.
  Variable adapt : list val -> list P -> list P -> option (list D) -> option (list D) -> option (list F) -> option (list F)
                   -> option (list nat) -> option (list nat) -> res R.
  Variable reg : R.
  Notation forward := (criterion_forward P D F base adapt reg).

Lemma opt_select_ok {A} m (o : option (list A)) : (forall l, o = Some l -> length l = length m) -> opt_select m o = Ok (option_map (select m) o).
Proof. intros H. destruct o as [l|]; [|reflexivity]. cbn. rewrite np_select_ok; [reflexivity|]. symmetry. now apply H. Qed.

(** The loss is the base criterion on the source samples and their labels, plus the weighted adaptation term, which gets the source labels only. *)
Theorem C63_source_labels_only pred dom feat sd idx y : length pred = length sd -> length y = length sd ->
  (forall l, dom = Some l -> length l = length sd) -> (forall l, feat = Some l -> length l = length sd) -> (forall l, idx = Some l -> length l = length sd) ->
  forward false pred dom feat sd idx y =
    (b <- base (rows_of is_source sd pred) (rows_of is_source sd y) ;;
     a <- adapt (rows_of is_source sd y) (rows_of is_source sd pred) (rows_of is_target sd pred)
            (option_map (rows_of is_source sd) dom) (option_map (rows_of is_target sd) dom)
            (option_map (rows_of is_source sd) feat) (option_map (rows_of is_target sd) feat)
            (option_map (rows_of is_source sd) idx) (option_map (rows_of is_target sd) idx) ;;
     Ok (match b with Scalar s => Scalar (s + reg * a) | Vec l => Vec (map (fun s => s + reg * a)%R l) end)).
Proof.
  intros Lp Ly Ld Lf Li. unfold criterion_forward. change (fun s => (0 <=? s)%Z) with is_source. cbv zeta.
  assert (E : map negb (map is_source sd) = map is_target sd) by (rewrite map_map; apply map_ext; intros; symmetry; apply is_target_negb).
  rewrite E. rewrite !np_select_ok by (now rewrite map_length). rewrite !opt_select_ok by (intros; rewrite map_length; auto). cbn [bind].
  assert (M : forall A p (o : option (list A)), option_map (select (map p sd)) o = option_map (rows_of p sd) o)
    by (intros A p [l|]; cbn; [now rewrite rows_of_select|reflexivity]).
  rewrite !M, <- !rows_of_select. destruct (base _ _); [|reflexivity]. cbn [bind]. destruct (adapt _ _ _ _ _ _ _ _ _); reflexivity.
Qed.
Theorem C63_target_labels_unused pred dom feat sd idx y y' : length y = length sd -> length y' = length sd ->
  rows_of is_source sd y = rows_of is_source sd y' -> forward false pred dom feat sd idx y = forward false pred dom feat sd idx y'.
Proof.
  intros L L' H. unfold criterion_forward. change (fun s => (0 <=? s)%Z) with is_source. cbv zeta.
  rewrite !(np_select_ok (map is_source sd) y), !(np_select_ok (map is_source sd) y') by (now rewrite map_length). rewrite <- !rows_of_select, H. reflexivity.
Qed.

(** C64: without a domain labelled 0, each weight multiplies the loss of its own sample. *)
Theorem C64_aligned l w sd : length w = length sd -> length l = how_many is_source sd -> 0 < how_many is_source sd -> (forall s, In s sd -> s <> 0%Z) ->
  get_loss (Vec l) (Some w) sd = Ok (Some (mean (map2 Rmult (rows_of is_source sd w) l))).
Proof.
  intros Lw Ll Hs HZ. unfold get_loss.
  assert (E : map (fun s => (0 <? s)%Z) sd = map is_source sd).
  { apply map_ext_in. intros s Hin. unfold is_source. specialize (HZ s Hin). destruct (Z.ltb_spec 0 s), (Z.leb_spec 0 s); auto; lia. }
  rewrite E, np_select_ok by (now rewrite map_length). cbn [bind]. rewrite <- rows_of_select. unfold broadcast_mul.
  rewrite rows_of_length, Ll, Nat.eqb_refl by auto. cbn [bind tensor_mean].
  assert (LR : length (rows_of is_source sd w) = how_many is_source sd) by (apply rows_of_length; auto).
  destruct (rows_of is_source sd w) as [|a r]; [cbn in LR; lia|]. destruct l as [|b l]; [cbn in Ll; lia|]. reflexivity.
Qed.
(** Source domain 0 (the default label of the dataset): an error as soon as there are two source samples. *)
Theorem C64_zero_labels_raise_refuted l w sd : length w = length sd -> length l = how_many is_source sd -> 2 <= how_many is_source sd ->
  (forall s, In s sd -> (s <= 0)%Z) -> get_loss (Vec l) (Some w) sd = Err RuntimeError.
Proof.
  intros Lw Ll Hs HZ. unfold get_loss. rewrite np_select_ok by (now rewrite map_length). cbn [bind].
  assert (E : select (map (fun s => (0 <? s)%Z) sd) w = []).
  { clear - HZ. revert w. induction sd as [|s sd IH]; intros [|a w]; try reflexivity. cbn. destruct (Z.ltb_spec 0 s) as [H|H].
    - specialize (HZ s (or_introl eq_refl)). lia.
    - apply IH. intros. apply HZ. cbn. auto. }
  rewrite E. unfold broadcast_mul. cbn [length]. destruct (Nat.eqb_spec 0 (length l)); [lia|]. destruct l as [|a [|b l]]; cbn in *; try lia. reflexivity.
Qed.
(** With a reducing criterion (the default), weights are refused. *)
Theorem C64_reduced_loss_raises r w sd : length w = length sd -> 2 <= how_many (fun s => (0 <? s)%Z) sd -> get_loss (Scalar r) (Some w) sd = Err ValueError.
Proof.
  intros Lw H. unfold get_loss. rewrite np_select_ok by (now rewrite map_length). cbn [bind].
  rewrite select_length by (now rewrite map_length). rewrite count_map. destruct (Nat.ltb_spec 1 (how_many (fun s => (0 <? s)%Z) sd)); [reflexivity|lia].
Qed.
End Loss.

(** Source domains 0 and 1: the weight of the second sample silently multiplies both losses. *)
Theorem C64_wrong_weights_refuted : get_loss (Vec [1; 2]%R) (Some [3; 5; 7]%R) [0; 1; -1]%Z = Ok (Some (mean [5 * 1; 5 * 2]%R)) /\
  mean (map2 Rmult (rows_of is_source [0; 1; -1]%Z [3; 5; 7]%R) [1; 2]%R) <> mean [5 * 1; 5 * 2]%R.
Proof. split; [reflexivity|]. unfold rows_of, mean. cbn. lra. Qed.

(** Examples: two source domains and one target domain. *)
Definition ex_ok (x : nat) : bool := true.
Definition ex_X : list nat := [10; 11; 12; 13; 14].
Definition ex_y : list val := [VNum 0; VNum 1; VNum (-1 # 1); VNum 1; VNum (-1 # 1)].
Definition ex_sd : list Z := [1; 2; -3; 1; -3]%Z.
Definition ex_d : ds nat := mkDs nat ex_X ex_y ex_sd [] [true; true; false; true; false] [0; 0; 0; 1; 1].
Lemma ex_consistent : consistent ex_ok ex_d.
Proof. constructor; try reflexivity. now left. Qed.

Example C62_ex : dataset nat ex_ok ex_X (Some ex_y) (DomArr ex_sd) None = Ok ex_d /\
  select_target nat ex_ok ex_d true = Ok (mkDs nat [12; 14] [VNum (-1 # 1); VNum (-1 # 1)] [-3; -3]%Z [] [false; false] [0; 1]) /\
  select_domain nat ex_ok ex_d 1%Z true = Ok (mkDs nat [10; 13] [VNum 0; VNum 1] [1; 1]%Z [] [true; true] [0; 1]) /\
  length (items nat ex_d) = 5.
Proof. repeat split. Qed.
Example C62_merge_ex : exists d, merge nat ex_ok ex_d ex_d true = Ok d /\ t_idx _ d = [0; 0; 0; 1; 1; 2; 1; 2; 3; 3].
Proof. eexists. split; reflexivity. Qed.
Example C62_merge_mixed_ex : merge nat ex_ok ex_d (mkDs nat [1] [VNum 0] [1%Z] [2%R] [true] [0]) true = Err AssertionError.
Proof. reflexivity. Qed.

(** Batch size 2, three source and two target samples: one batch with two of each; batch size 1 and mode max: three batches, a target sample twice. *)
Example C60_ex : balanced_batches nat ex_d 2 SMax (fun _ => [2; 0; 1]) (fun _ => [1; 0]) = Ok [[3; 4; 0; 2]] /\
  balanced_batches nat ex_d 1 SMax (fun _ => [2; 0; 1]) (fun k => if k =? 0 then [1; 0] else [0; 1]) = Ok [[3; 4]; [0; 2]; [1; 2]] /\
  balanced_batches nat ex_d 4 SMax (fun _ => [2; 0; 1]) (fun _ => [1; 0]) = Ok [] /\
  balanced_batches nat ex_d 2 SOther (fun _ => [2; 0; 1]) (fun _ => [1; 0]) = Err AttributeError.
Proof. repeat split. Qed.
Example C60_ex_hyps : consistent ex_ok ex_d /\ 0 < how_many is_source (t_sd _ ex_d) /\ 0 < how_many is_target (t_sd _ ex_d) /\
  Permutation (seq 0 (how_many is_source (t_sd _ ex_d))) [2; 0; 1] /\ Permutation (seq 0 (how_many is_target (t_sd _ ex_d))) [1; 0].
Proof.
  split; [exact ex_consistent|]. repeat split; cbn; try lia; [|apply perm_swap].
  apply Permutation_sym, (perm_trans (perm_swap 0 2 [1])), perm_skip, perm_swap.
Qed.
Example C61_ex : only_batches nat ex_d 2 (Some true) [2; 0; 1] = Ok [[3; 0]] /\ only_batches nat ex_d 1 (Some false) [1; 0] = Ok [[4]; [2]].
Proof. split; reflexivity. Qed.

(** The base loss is the sum of the labels, the adaptation loss the number of target predictions. *)
Definition ex_base (p : list nat) (y : list val) : res tensor := Ok (Vec (map INR p)).
Definition ex_adapt (y : list val) (ps pt : list nat) (ds dt : option (list nat)) (fs ft : option (list nat)) (is it : option (list nat)) : res R := Ok (INR (length pt)).
Example C63_ex : criterion_forward nat nat nat ex_base ex_adapt 2 false [5; 6; 7] None None [1; -1; 2]%Z None [VNum 0; VNan; VNum 1] =
  Ok (Vec [INR 5 + 2 * INR 1; INR 7 + 2 * INR 1]%R).
Proof. reflexivity. Qed.
Example C64_ex : get_loss (Vec [1; 2]%R) (Some [3; 5; 7]%R) [1; -1; 2]%Z = Ok (Some (mean [3 * 1; 7 * 2]%R)).
Proof. reflexivity. Qed.
Example C64_raise_ex : get_loss (Vec [1; 2]%R) (Some [3; 5; 7]%R) [0; -1; 0]%Z = Err RuntimeError /\ get_loss (Scalar 1) (Some [3; 5; 7]%R) [1; -1; 2]%Z = Err ValueError.
Proof. split; reflexivity. Qed.

Example C98_ex : exists d, merge_in_place nat ex_d ex_d true = Ok d /\ length (t_X _ d) = 10 /\ length (items nat d) = 5.
Proof. eexists. repeat split. Qed.
Example C99_ex : dataset nat ex_ok [4; 5] None DomNone None = Ok (mkDs nat [4; 5] [VNum (-1 # 1); VNum (-1 # 1)] [0; 0]%Z [] [false; false] [0; 1]) /\
  dataset nat ex_ok [4; 5] None (DomInt 1) None = Err TypeError.
Proof. split; reflexivity. Qed.
Definition ex_infer (b : list (item nat)) : list (list R) := map (fun it => [INR (i_X nat it)]) b.
Example C100_ex : predict_proba nat ex_ok ex_infer 2 (InDs _ ex_d) DomNone None false = Ok [[INR 12]; [INR 14]] /\
  predict_proba nat ex_ok ex_infer 2 (InDs _ ex_d) DomNone None true = Ok [[INR 10]; [INR 11]; [INR 12]; [INR 13]; [INR 14]].
Proof. split; reflexivity. Qed.
Example C101_ex : score nat ex_ok ex_infer 2 (InDs _ ex_d) [VNum 0; VNum 0; VNum 1; VNum 0; VNum 0] DomNone None true = Ok (4 / 5)%R /\
  score nat ex_ok ex_infer 2 (InDs _ ex_d) [VNum 0; VNum 0; VNum 1; VNum 0; VNum 0] DomNone None false = Err ValueError.
Proof.
  split; [|reflexivity]. rewrite (C101_accuracy ex_ok (fun x => [INR x]) ex_infer 2 ex_d DomNone true _ [0; 0; 0; 0; 0]); auto; try (cbn; lia).
  - cbn. f_equal. lra.
  - exact ex_consistent.
  - discriminate.
Qed.
Example C102_ex : predict nat ex_ok ex_infer 2 (InArr _ [1; 2; 3]) DomNone None false = Err ValueError.
Proof. reflexivity. Qed.
