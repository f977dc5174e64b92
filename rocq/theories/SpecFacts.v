(** Facts about the specification vocabulary and its link to the array library. *)
From Coq Require Import List ZArith Bool Arith Lia Sorting.Permutation Sorting.Sorted.
From Verif Require Import Np NpFacts Spec.
Import ListNotations.

Lemma is_target_negb d : is_target d = negb (is_source d).
Proof. unfold is_target, is_source. destruct (Z.ltb_spec d 0), (Z.leb_spec 0 d); auto; lia. Qed.

Lemma rows_of_select {A} p sd (xs : list A) : rows_of p sd xs = select (map p sd) xs.
Proof. symmetry. apply select_filter. Qed.

Lemma rows_of_combine {A B} p sd (xs : list A) (ys : list B) : length xs = length ys ->
  rows_of p sd (combine xs ys) = combine (rows_of p sd xs) (rows_of p sd ys).
Proof. intros. rewrite !rows_of_select. now apply select_combine. Qed.

Lemma rows_of_map {A B} (f : A -> B) p sd xs : rows_of p sd (map f xs) = map f (rows_of p sd xs).
Proof. rewrite !rows_of_select. apply select_map. Qed.

Lemma rows_of_length {A} p sd (xs : list A) : length sd = length xs ->
  length (rows_of p sd xs) = how_many p sd.
Proof.
  intros H. rewrite rows_of_select, select_length by now rewrite map_length.
  unfold how_many. clear H. induction sd as [|d sd IH]; simpl; auto. destruct (p d); simpl; auto.
Qed.

Lemma rows_of_self p sd : rows_of p sd sd = filter p sd.
Proof. rewrite rows_of_select. apply select_self. Qed.

Lemma count_map {A} (p : A -> bool) l : count (map p l) = how_many p l.
Proof. unfold how_many. induction l as [|d l IH]; simpl; auto. destruct (p d); simpl; auto. Qed.

Lemma how_many_ext {A} (p q : A -> bool) l : (forall x, p x = q x) -> how_many p l = how_many q l.
Proof. intros H. unfold how_many. now rewrite (filter_ext _ _ H). Qed.

Lemma rows_of_ext {A} p q sd (xs : list A) : (forall x, p x = q x) -> rows_of p sd xs = rows_of q sd xs.
Proof. intros H. rewrite !rows_of_select. now rewrite (map_ext _ _ H). Qed.

Lemma how_many_split sd : how_many is_source sd + how_many is_target sd = length sd.
Proof.
  rewrite (how_many_ext is_target (fun d => negb (is_source d))) by apply is_target_negb.
  rewrite <- !count_map, <- (map_map is_source negb), count_negb. apply map_length.
Qed.

Lemma rows_of_partition {A} sd (xs : list A) : length sd = length xs ->
  Permutation (rows_of is_source sd xs ++ rows_of is_target sd xs) xs.
Proof.
  intros H. rewrite (rows_of_ext is_target (fun d => negb (is_source d))) by apply is_target_negb.
  rewrite !rows_of_select, <- (map_map is_source negb).
  apply select_perm. now rewrite map_length.
Qed.

Lemma positions_flatnonzero {A} (p : A -> bool) l : positions p l = flatnonzero (map p l).
Proof.
  unfold positions, flatnonzero. generalize 0 as k.
  induction l as [|x l IH]; intros k; simpl; auto.
  destruct (p x); simpl; now rewrite IH.
Qed.

Lemma positions_In {A} (p : A -> bool) l i :
  In i (positions p l) <-> exists x, nth_error l i = Some x /\ p x = true.
Proof.
  rewrite positions_flatnonzero, flatnonzero_In, nth_error_map.
  destruct (nth_error l i) as [x|]; simpl; split.
  - intros H. exists x. split; congruence.
  - intros [y [H1 H2]]. congruence.
  - easy.
  - intros [y [H1 H2]]. congruence.
Qed.

Lemma positions_sorted {A} (p : A -> bool) l : StronglySorted lt (positions p l).
Proof. rewrite positions_flatnonzero. apply flatnonzero_sorted. Qed.

Lemma positions_NoDup {A} (p : A -> bool) l : NoDup (positions p l).
Proof. rewrite positions_flatnonzero. apply flatnonzero_NoDup. Qed.

Lemma positions_length {A} (p : A -> bool) l : length (positions p l) = how_many p l.
Proof. rewrite positions_flatnonzero, flatnonzero_length. apply count_map. Qed.

Lemma how_many_0 {A} (p : A -> bool) l : how_many p l = 0 <-> forall x, In x l -> p x = false.
Proof.
  unfold how_many. induction l as [|a l IH]; simpl; split; auto; try easy.
  - destruct (p a) eqn:E; simpl; [easy|]. intros H x [->|Hx]; auto. now apply IH.
  - intros H. rewrite (H a) by auto. apply IH. auto.
Qed.

Lemma how_many_all {A} (p : A -> bool) l :
  (forall x, In x l -> p x = true) -> how_many p l = length l.
Proof.
  unfold how_many. induction l as [|a l IH]; simpl; auto.
  intros H. rewrite (H a) by auto. simpl. f_equal. auto.
Qed.

Lemma how_many_le {A} (p : A -> bool) l : how_many p l <= length l.
Proof. unfold how_many. induction l as [|a l IH]; simpl; auto. destruct (p a); simpl; lia. Qed.

Lemma how_many_app {A} (p : A -> bool) l1 l2 : how_many p (l1 ++ l2) = how_many p l1 + how_many p l2.
Proof. unfold how_many. now rewrite filter_app, app_length. Qed.

Lemma how_many_full {A} (p : A -> bool) l :
  how_many p l = length l -> forall x, In x l -> p x = true.
Proof.
  unfold how_many. induction l as [|a l IH]; simpl; [easy|].
  pose proof (how_many_le p l) as HL. unfold how_many in HL.
  destruct (p a) eqn:E; simpl; [|lia]. intros H x [->|Hx]; auto.
Qed.
