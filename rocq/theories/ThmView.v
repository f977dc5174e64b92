(** Theorems C158, C159: views and histories of DeepDADataset. *)
From Coq Require Import List ZArith QArith Bool Arith Lia Reals Lra Sorted.
From Verif Require Import Np NpFacts Labels RVec Spec DeepModel DeepSpec DeepProofs ThmDeep ViewModel ViewSpec.
Import ListNotations.
Local Open Scope nat_scope.
Local Open Scope list_scope.

Section View.
  Context {Row : Type}.
  Variable row_ok : Row -> bool.
  Notation consistent := (consistent row_ok).

Lemma rebuild X y sd w : (forall x, In x X -> row_ok x = true) -> length y = length X -> length sd = length X ->
  given_w w = [] \/ length (given_w w) = length X ->
  dataset Row row_ok X (Some y) (DomArr sd) w = Ok (mkDs Row X y sd (given_w w) (map labelled y) (map (rank sd) (seq 0 (length X)))).
Proof.
  intros HR Ly Ls HW. unfold dataset. rewrite (proj2 (forallb_forall _ _) HR).
  assert (GY : given_y (length X) (Some y) = y) by (rewrite <- Ly; cbn; now destruct y).
  assert (GS : given_sd (length X) (DomArr sd) = sd) by (rewrite <- Ls; cbn; now destruct sd).
  rewrite init_finish; rewrite ?GY, ?GS; auto.
Qed.

Lemma view_w d rw : given_w (if has_weights Row d && rw then Some (t_w _ d) else None) = if rw then t_w _ d else [].
Proof. unfold has_weights. destruct (t_w Row d); cbn; destruct rw; reflexivity. Qed.

(** C158: the constructor applied to the array view gives the dataset back, numbers included. *)
Theorem C158_arrays : forall d, consistent d ->
  let '(X, y, sd, w) := as_arrays d true in dataset Row row_ok X (Some y) (DomArr sd) w = Ok d.
Proof.
  intros d C. unfold as_arrays. pose proof (view_w d true) as V. rewrite rebuild; rewrite ?V.
  - f_equal. destruct d as [X y sd w h i]. destruct C as [C1 C2 C3 C4 C5 C6]. cbn in *. now subst h i.
  - apply (c_rows _ _ C).
  - apply (c_y _ _ C).
  - apply (c_sd _ _ C).
  - apply (c_w _ _ C).
Qed.
(** return_weights=False: the same without weights. *)
Theorem C158_arrays_without_weights : forall d, consistent d ->
  let '(X, y, sd, w) := as_arrays d false in w = None /\ dataset Row row_ok X (Some y) (DomArr sd) w = Ok (remove_weights Row d).
Proof.
  intros d C. unfold as_arrays. pose proof (view_w d false) as V. split; [now rewrite andb_false_r|]. rewrite rebuild; rewrite ?V; auto.
  - f_equal. destruct d as [X y sd w h i]. destruct C as [C1 C2 C3 C4 C5 C6]. cbn in *. now subst h i.
  - apply (c_rows _ _ C).
  - apply (c_y _ _ C).
  - apply (c_sd _ _ C).
Qed.
(** The same for the dict view, with or without the numbers. *)
Theorem C158_dict : forall d b, consistent d -> of_dict row_ok (as_dict d b) = Ok d.
Proof.
  intros d b C. unfold of_dict, as_dict. rewrite C62_dict by apply (c_rows _ _ C).
  pose proof (C158_arrays d C) as A. unfold as_arrays in A. rewrite andb_true_r in A. now destruct (has_weights Row d).
Qed.
(** Dicts: no entry at all gives the empty dataset, entries without "X" an error. *)
Theorem C158_dict_X : forall y sd w i,
  of_dict row_ok (mkDict None None None None None) = Ok (mkDs Row [] [] [] [] [] []) /\
  (y <> None \/ sd <> None \/ w <> None \/ i <> None -> of_dict row_ok (mkDict None y sd w i) = Err ValueError).
Proof. intros y sd w i. split; [reflexivity|]. intros H. destruct y, sd, w, i; try reflexivity. destruct H as [H|[H|[H|H]]]; congruence. Qed.
(** The views of a dataset changed in place (stale numbers) give a consistent dataset with the same content. *)
Theorem C158_repairs : forall a b kw d, consistent a -> consistent b -> merge_in_place Row a b kw = Ok d ->
  exists r, of_dict row_ok (as_dict d true) = Ok r /\ consistent r /\ same_content r d.
Proof.
  intros a b kw d Ca Cb H. unfold merge_in_place in H.
  match type of H with (if ?c then _ else _) = _ => destruct c eqn:Q; [|discriminate H] end. injection H as <-.
  unfold is_correct, has_weights in Q. cbn [t_X t_y t_sd t_w] in Q. apply andb_true_iff in Q as [_ Q].
  assert (HR : forall x, In x (t_X Row a ++ t_X Row b) -> row_ok x = true).
  { intros x Hx. apply in_app_iff in Hx as [Hx|Hx]; [now apply (c_rows _ _ Ca)|now apply (c_rows _ _ Cb)]. }
  pose proof (c_y _ _ Ca) as Y1. pose proof (c_sd _ _ Ca) as S1. pose proof (c_y _ _ Cb) as Y2. pose proof (c_sd _ _ Cb) as S2.
  unfold of_dict, as_dict. cbn [t_X t_y t_sd t_w t_has_y t_idx]. rewrite C62_dict by exact HR.
  match goal with |- context [if has_weights Row ?q then _ else _] => pose proof (view_w q true) as V; rewrite andb_true_r in V; cbn [t_w] in V end.
  assert (W : merged_w Row kw a b = [] \/ length (merged_w Row kw a b) = length (t_X Row a ++ t_X Row b)).
  { apply orb_true_iff in Q as [Q|Q]; [apply Nat.eqb_eq in Q; auto|]. left. now destruct (merged_w Row kw a b). }
  match type of V with given_w ?w = _ => replace (match w with Some l => Some l | None => None end) with w by (now destruct w); remember w as w' eqn:Ew end.
  rewrite rebuild; rewrite ?V, ?app_length; auto; try lia.
  - eexists. split; [reflexivity|]. split; [|split; [|split; [|split]]; reflexivity].
    constructor; cbn [t_X t_y t_sd t_w t_has_y t_idx]; rewrite ?app_length in *; auto; lia.
  - now rewrite app_length in W.
Qed.

(** The number of samples, and the domains: every label once, in increasing order. *)
Theorem C158_len : forall d, consistent d -> len d = Ok (length (t_X _ d)) /\
  (is_empty d = Ok true <-> t_X _ d = []) /\ (is_empty d = Ok false <-> t_X _ d <> []).
Proof.
  intros d C. assert (E : len d = Ok (length (t_X _ d))).
  { unfold len, is_correct, has_weights. rewrite (c_y _ _ C), (c_sd _ _ C), !Nat.eqb_refl. cbn [andb].
    destruct (c_w _ _ C) as [-> | ->]; [cbn; now rewrite orb_true_r|now rewrite Nat.eqb_refl]. }
  split; [exact E|]. unfold is_empty. rewrite E. cbn [bind]. destruct (t_X Row d); cbn; split; split; congruence.
Qed.
Theorem C158_domains : forall (d : ds Row), (forall k, In k (domains d) <-> In k (t_sd _ d)) /\ NoDup (domains d) /\ StronglySorted Z.lt (domains d).
Proof.
  intros d. unfold domains. split; [intros k; apply unique_In|]. split; [apply unique_NoDup|]. apply unique_sorted.
Qed.

(** add_domain: the samples of both, in order; the form in which the domain is given does not matter. *)
Theorem C158_add_domain : forall a b, consistent a -> consistent b ->
  exists r, add_domain row_ok a (DSet b) = Ok r /\ consistent r /\ t_X _ r = t_X _ a ++ t_X _ b /\ t_y _ r = t_y _ a ++ t_y _ b /\ t_sd _ r = t_sd _ a ++ t_sd _ b /\
  (forall i, add_domain row_ok a (DDict (as_dict b i)) = Ok r) /\
  (forall rw, let '(X, y, sd, w) := as_arrays b rw in add_domain row_ok a (DTuple X (Some y) (DomArr sd) w) = Ok r).
Proof.
  intros a b Ca Cb. destruct (C62_merge row_ok a b false Ca Cb) as (r & E & C & E1 & E2 & E3 & _); [discriminate|].
  exists r. unfold add_domain. cbn [bind]. split; [exact E|]. split; [exact C|]. split; [exact E1|]. split; [exact E2|]. split; [exact E3|]. split.
  - intros i. rewrite (C158_dict b i Cb). exact E.
  - intros [|].
    + pose proof (C158_arrays b Cb) as A. destruct (as_arrays b true) as [[[X y] sd] w]. rewrite A. exact E.
    + pose proof (C158_arrays_without_weights b Cb) as A. destruct (as_arrays b false) as [[[X y] sd] w]. destruct A as [_ A]. rewrite A. cbn [bind]. rewrite <- E. reflexivity.
Qed.
(** Weights: those of the dataset and those of the added domain are dropped. *)
Theorem C158_add_domain_weights_refuted : forall a b r, add_domain row_ok a (DSet b) = Ok r -> t_w _ r = [].
Proof. intros a b r H. unfold add_domain in H. cbn [bind] in H. unfold merge in H. apply dataset_inv in H as (_ & _ & _ & _ & E). exact E. Qed.

(** ** C159: histories. *)
Lemma labels_of (l : list val) : map labelled l = map (fun v => negb (val_eqb_q v (inject_Z (-1)))) l.
Proof. reflexivity. Qed.

(** Whatever is called, raising or not: samples, labels and domains stay aligned, and are those of the dataset and of all the
    datasets merged, in order. *)
Theorem C159_rows : forall os d, rows_aligned row_ok d -> sane row_ok os ->
  rows_aligned row_ok (run os d) /\
  t_X _ (run os d) = t_X _ d ++ flat_map (t_X Row) (merged os) /\
  t_y _ (run os d) = t_y _ d ++ flat_map (t_y Row) (merged os) /\
  t_sd _ (run os d) = t_sd _ d ++ flat_map (t_sd Row) (merged os).
Proof.
  induction os as [|o os IH]; intros d A S.
  - cbn. rewrite !app_nil_r. auto.
  - unfold sane, merged in S. cbn [flat_map] in S. apply Forall_app in S as [So S].
    assert (K : rows_aligned row_ok (fst (step d o)) /\
      t_X _ (fst (step d o)) = t_X _ d ++ flat_map (t_X Row) (merged [o]) /\
      t_y _ (fst (step d o)) = t_y _ d ++ flat_map (t_y Row) (merged [o]) /\
      t_sd _ (fst (step d o)) = t_sd _ d ++ flat_map (t_sd Row) (merged [o])).
    { destruct A as [A1 A2 A3 A4]. destruct o as [b kw| |[w|]|]; cbn; rewrite ?app_nil_r; try (now split; [constructor|]).
      apply Forall_inv in So. split; [|auto]. constructor; cbn.
      - rewrite !app_length, A1, (c_y _ _ So). reflexivity.
      - rewrite !app_length, A2, (c_sd _ _ So). reflexivity.
      - now rewrite map_app, A3, (c_has _ _ So).
      - intros x Hx. apply in_app_iff in Hx as [Hx|Hx]; [now apply A4|now apply (c_rows _ _ So)]. }
    destruct K as (K & KX & KY & KS). destruct (IH _ K S) as (I & IX & IY & IS). cbn [run fold_left]. fold (run os (fst (step d o))).
    rewrite IX, IY, IS, KX, KY, KS. split; [exact I|]. unfold merged. cbn [flat_map]. rewrite !app_nil_r, !flat_map_app, !app_assoc. auto.
Qed.

(** If no call raises, the weights are aligned too, and the dataset has a length. *)
Theorem C159_successful : forall os d, rows_aligned row_ok d -> sane row_ok os -> len d = Ok (length (t_X _ d)) -> all_succeed os d ->
  len (run os d) = Ok (length (t_X _ (run os d))) /\ (t_w _ (run os d) = [] \/ length (t_w _ (run os d)) = length (t_X _ (run os d))).
Proof.
  intros os d A S L H. assert (Q : is_correct Row (run os d) = true).
  { assert (Q0 : is_correct Row d = true) by (unfold len in L; now destruct (is_correct Row d)). clear L.
    revert d A S H Q0. induction os as [|o os IH]; intros d A S H Q0; [exact Q0|]. cbn [run fold_left]. fold (run os (fst (step d o))).
    destruct H as [H1 H2]. unfold sane, merged in S. cbn [flat_map] in S. apply Forall_app in S as [So S]. apply IH; auto.
    - destruct (C159_rows [o] d A) as [K _]; [unfold sane, merged; cbn [flat_map]; now rewrite app_nil_r|exact K].
    - destruct o as [b kw| |[w|]|]; cbn in H1 |- *; try discriminate H1.
      + match type of H1 with (if ?c then _ else _) = _ => now destruct c end.
      + match type of H1 with (if ?c then _ else _) = _ => now destruct c end.
      + unfold is_correct, has_weights, remove_weights. cbn. destruct A as [A1 A2 _ _]. rewrite A1, A2, Nat.eqb_refl. cbn. now rewrite orb_true_r. }
  unfold len. rewrite Q. split; [reflexivity|]. unfold is_correct in Q. apply andb_true_iff in Q as [_ Q]. apply orb_true_iff in Q as [Q|Q].
  - right. symmetry. now apply Nat.eqb_eq.
  - left. unfold has_weights in Q. destruct (t_w Row (run os d)); [auto|discriminate].
Qed.

(** After any history, removing the weights makes the dataset usable. *)
Theorem C159_recover : forall os d, rows_aligned row_ok d -> sane row_ok os ->
  len (remove_weights Row (run os d)) = Ok (length (t_X _ (run os d))).
Proof.
  intros os d A S. destruct (C159_rows os d A S) as [[K1 K2 _ _] _]. unfold len, is_correct, has_weights, remove_weights. cbn.
  rewrite K1, K2, Nat.eqb_refl. cbn. now rewrite orb_true_r.
Qed.

(** Arguments of the wrong type are refused without any change. *)
Theorem C159_type_errors : forall (d : ds Row), step d OpMergeOther = (d, Err TypeError) /\ step d (OpAddWeights None) = (d, Err ValueError).
Proof. intros d. split; reflexivity. Qed.

(** Weights of the wrong length are refused, but they replace the weights: the dataset has no length any more. *)
Theorem C159_refused_weights_refuted : forall d w, consistent d -> w <> [] -> length w <> length (t_X _ d) ->
  snd (step d (OpAddWeights (Some w))) = Err AssertionError /\
  t_w _ (fst (step d (OpAddWeights (Some w)))) = w /\ len (fst (step d (OpAddWeights (Some w)))) = Err AssertionError.
Proof.
  intros d w C N L. cbn. unfold len.
  assert (E : is_correct Row (mkDs Row (t_X Row d) (t_y Row d) (t_sd Row d) w (t_has_y Row d) (t_idx Row d)) = false).
  { unfold is_correct, has_weights. cbn [t_X t_y t_sd t_w]. apply andb_false_iff. right. apply orb_false_iff.
    split; [apply Nat.eqb_neq; auto|]. destruct w; [congruence|reflexivity]. }
  rewrite E. auto.
Qed.
(** A refused merge (only one of the two has weights) has already merged the samples. *)
Theorem C159_refused_merge_refuted : forall a b, consistent a -> consistent b -> t_X _ a <> [] -> t_X _ b <> [] ->
  (t_w _ a = [] /\ t_w _ b <> []) \/ (t_w _ a <> [] /\ t_w _ b = []) ->
  snd (step a (OpMerge b true)) = Err AssertionError /\
  t_X _ (fst (step a (OpMerge b true))) = t_X _ a ++ t_X _ b /\ len (fst (step a (OpMerge b true))) = Err AssertionError.
Proof.
  intros a b Ca Cb Na Nb HW.
  assert (La : length (t_X Row a) <> 0) by (destruct (t_X Row a); [congruence|discriminate]).
  assert (Lb : length (t_X Row b) <> 0) by (destruct (t_X Row b); [congruence|discriminate]).
  unfold len. cbn [step fst snd]. match goal with |- context [is_correct Row ?q] => assert (F : is_correct Row q = false) end.
  { unfold is_correct, has_weights, merged_w. cbn [t_X t_y t_sd t_w]. rewrite !app_length. apply andb_false_iff. right. apply orb_false_iff.
    destruct HW as [[W1 W2]|[W1 W2]]; rewrite ?W1, ?W2; cbn [length app].
    - destruct (c_w _ _ Cb) as [Q|Q]; [congruence|]. rewrite Q. split; [apply Nat.eqb_neq; lia|]. apply negb_false_iff, negb_true_iff, Nat.eqb_neq. lia.
    - destruct (c_w _ _ Ca) as [Q|Q]; [congruence|]. rewrite Q. split; [apply Nat.eqb_neq; lia|]. apply negb_false_iff, negb_true_iff, Nat.eqb_neq. lia. }
  rewrite F. auto.
Qed.
End View.

Definition ex_b : ds nat := mkDs nat [20; 21] [VNum 0; VNum (-1 # 1)] [4; -3]%Z [1; 2]%R [true; false] [0; 0].
Lemma ex_b_consistent : consistent ex_ok ex_b.
Proof. constructor; try reflexivity. now right. Qed.
Example C158_ex : consistent ex_ok ex_d /\ consistent ex_ok ex_b /\
  of_dict ex_ok (as_dict ex_b true) = Ok ex_b /\ domains ex_d = [-3; 1; 2]%Z /\
  exists r, add_domain ex_ok ex_d (DSet ex_b) = Ok r /\ t_X _ r = [10; 11; 12; 13; 14; 20; 21] /\ t_idx _ r = [0; 0; 0; 1; 1; 0; 2] /\ t_w _ r = [].
Proof.
  split; [apply ex_consistent|]. split; [apply ex_b_consistent|]. split; [reflexivity|]. split; [reflexivity|]. eexists. split; [reflexivity|]. repeat split.
Qed.
(** Merging a weighted domain, refused; then the weights are removed. *)
Example C159_ex : rows_aligned ex_ok ex_d /\ sane ex_ok [OpMerge ex_b true; OpRemoveWeights; OpMerge ex_b false] /\
  all_succeed [OpMerge ex_b false; OpAddWeights (Some [1;1;1;1;1;2;2]%R)] ex_d /\
  len (run [OpMerge ex_b true] ex_d) = Err AssertionError /\ len (run [OpMerge ex_b true; OpRemoveWeights; OpMerge ex_b false] ex_d) = Ok 9.
Proof.
  split; [constructor; reflexivity|]. split; [repeat (apply Forall_cons; [apply ex_b_consistent|]); apply Forall_nil|]. split; [cbn; auto|]. split; reflexivity.
Qed.
