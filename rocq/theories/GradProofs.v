(** Lemmas about gradual domain adaptation. *)
From Coq Require Import String List ZArith QArith Bool Arith Lia Reals Lra Sorted Permutation.
From Verif Require Import Np NpFacts Labels UtilsModel Spec SpecFacts UtilsProofs RVec RVecFacts OTSpec OTProofs SelfModel SelfSpec SelfProofs.
Import ListNotations.
Local Open Scope nat_scope.
Local Open Scope list_scope.

(** ** int() *)
Lemma Int_part_spec x z : (IZR z <= x < IZR z + 1)%R -> Int_part x = z.
Proof.
  intros [H1 H2]. destruct (base_Int_part x) as [B1 B2].
  assert (IZR (Int_part x) < IZR (z + 1))%R by (rewrite plus_IZR; lra). apply lt_IZR in H.
  assert (IZR z < IZR (Int_part x + 1))%R by (rewrite plus_IZR; lra). apply lt_IZR in H0. lia.
Qed.
Lemma py_int_IZR z : (0 <= z)%Z -> py_int (IZR z) = z.
Proof.
  intros H. unfold py_int. destruct (Rle_dec 0 (IZR z)) as [_|N].
  - apply Int_part_spec. lra.
  - exfalso. apply N. now apply (IZR_le 0).
Qed.
Lemma py_int_bounds x z : (0 <= x)%R -> (x <= IZR z)%R -> (0 <= py_int x <= z)%Z.
Proof.
  intros H0 H. unfold py_int. destruct (Rle_dec 0 x); [|lra]. destruct (base_Int_part x) as [B1 B2].
  split.
  - assert (IZR (-1) < IZR (Int_part x))%R by (simpl; lra). apply lt_IZR in H1. lia.
  - assert (IZR (Int_part x) <= IZR z)%R by lra. now apply le_IZR in H1.
Qed.

(** ** sort *)
Lemma insert_R_perm x l : Permutation (x :: l) (insert_R x l).
Proof. induction l as [|y l IH]; simpl; [auto|]. destruct (Rle_dec x y); [auto|]. rewrite perm_swap. now constructor. Qed.
Lemma np_sort_perm l : Permutation l (np_sort l).
Proof. induction l as [|x l IH]; simpl; [auto|]. rewrite <- insert_R_perm. now constructor. Qed.
Lemma insert_R_sorted x l : StronglySorted Rle l -> StronglySorted Rle (insert_R x l).
Proof.
  intros S. induction S as [|y l S IH F]; simpl; [repeat constructor|]. destruct (Rle_dec x y) as [H|H].
  - constructor; [constructor; auto|]. constructor; [auto|]. rewrite Forall_forall in *. intros z Hz. specialize (F z Hz). lra.
  - constructor; [exact IH|]. apply Forall_forall. intros z Hz. apply (Permutation_in _ (Permutation_sym (insert_R_perm x l))) in Hz.
    rewrite Forall_forall in F. destruct Hz as [<-|Hz]; [lra|auto].
Qed.
Lemma np_sort_sorted l : StronglySorted Rle (np_sort l).
Proof. induction l; simpl; [constructor|]. now apply insert_R_sorted. Qed.
Lemma np_sort_length l : length (np_sort l) = length l.
Proof. symmetry. apply Permutation_length, np_sort_perm. Qed.

Lemma sortedR_nth (l : list R) i j : StronglySorted Rle l -> i <= j < length l -> (nth i l 0 <= nth j l 0)%R.
Proof.
  intros S. revert i j. induction S as [|x l S IH F]; intros i j [H1 H2]; simpl in H2; [lia|].
  destruct j as [|j]; [assert (i = 0) by lia; subst; lra|]. destruct i as [|i]; simpl.
  - rewrite Forall_forall in F. apply F, nth_In. lia.
  - apply IH. lia.
Qed.

Lemma filter_perm_length {A} (p : A -> bool) l l' : Permutation l l' -> length (filter p l) = length (filter p l').
Proof. induction 1; simpl; auto; try congruence. - destruct (p x); simpl; auto. - destruct (p x), (p y); reflexivity. Qed.

(** Entries not smaller than the entry at position [p] of a sorted list. *)
Lemma filter_all {A} (q : A -> bool) l : (forall x, In x l -> q x = true) -> filter q l = l.
Proof. induction l as [|x l IH]; simpl; intros H; [auto|]. rewrite H by auto. f_equal. auto. Qed.
Lemma filter_none {A} (q : A -> bool) l : (forall x, In x l -> q x = false) -> filter q l = [].
Proof. induction l as [|x l IH]; simpl; intros H; [auto|]. rewrite H by auto. auto. Qed.

Lemma above_sorted s p : StronglySorted Rle s -> p < length s ->
  length s - p <= length (filter (fun g => Rleb (nth p s 0%R) g) s) /\
  (NoDup s -> length (filter (fun g => Rleb (nth p s 0%R) g) s) = length s - p).
Proof.
  intros S Hp.
  assert (D : filter (fun g => Rleb (nth p s 0%R) g) s = filter (fun g => Rleb (nth p s 0%R) g) (firstn p s) ++ filter (fun g => Rleb (nth p s 0%R) g) (skipn p s)).
  { now rewrite <- filter_app, firstn_skipn. }
  rewrite D, app_length.
  assert (A : filter (fun g => Rleb (nth p s 0%R) g) (skipn p s) = skipn p s).
  { apply filter_all. intros x Hx. apply (In_nth _ _ 0%R) in Hx as (i & Hi & <-). rewrite skipn_length in Hi.
    apply Rleb_iff. assert (E : nth i (skipn p s) 0%R = nth (p + i) s 0%R).
    { clear. revert p. induction s as [|x s IH]; intros [|p]; simpl; auto; destruct i; auto. }
    rewrite E. apply sortedR_nth; auto. lia. }
  rewrite A, skipn_length. split; [lia|]. intros N. rewrite (filter_none _ (firstn p s)); [reflexivity|].
  intros x Hx. apply (In_nth _ _ 0%R) in Hx as (i & Hi & <-). rewrite firstn_length in Hi.
  assert (E : nth i (firstn p s) 0%R = nth i s 0%R).
  { clear - Hi. revert i p Hi. induction s as [|x s IH]; intros i [|p] Hi; simpl in *; auto; try lia. destruct i; auto. apply IH. lia. }
  rewrite E. apply Rleb_false. pose proof (sortedR_nth s i p S ltac:(lia)) as Q. destruct Q as [Q|Q]; [exact Q|].
  exfalso. apply (proj1 (NoDup_nth s 0%R) N) in Q; lia.
Qed.

(** ** masks *)
Lemma concat_matrix_length {A} n m (M : list (list A)) : matrix n m M -> length (concat M) = n * m.
Proof.
  intros [L F]. subst n. induction F as [|r M H F IH]; simpl; [auto|]. rewrite app_length, IH. lia.
Qed.
Lemma map_matrix {A B} (f : A -> B) n m M : matrix n m M -> matrix n m (map (map f) M).
Proof.
  intros [L F]. split; [now rewrite map_length|]. apply Forall_forall. intros r Hr. apply in_map_iff in Hr as (r0 & <- & H0).
  rewrite map_length. rewrite Forall_forall in F. auto.
Qed.
Lemma count_map_filter {A} (p : A -> bool) l : count (map p l) = length (filter p l).
Proof. induction l as [|x l IH]; simpl; [auto|]. destruct (p x); simpl; lia. Qed.

Lemma argwhere_pairs n m M : matrix n m M -> argwhere M = set_pairs M n m.
Proof.
  intros [L F]. unfold argwhere, set_pairs.
  assert (G : forall k, (forall i, i < length M -> nth (k + i) (repeat [] k ++ M) [] = nth i M []) ->
     concat (map (fun ir : nat * list bool => map (fun j => (fst ir, j)) (flatnonzero (snd ir))) (combine (seq k (length M)) M)) =
     filter (fun p => entry false (repeat [] k ++ M) (fst p) (snd p)) (list_prod (seq k (length M)) (seq 0 m))).
  { clear L n. induction F as [|r M H F IH]; intros k E; [reflexivity|]. simpl.
    rewrite filter_app. f_equal.
    - specialize (E 0 ltac:(simpl; lia)). simpl in E. rewrite Nat.add_0_r in E.
      rewrite <- H. assert (Q : forall j0 r0, (forall j, j < length r0 -> nth (j0 + j) r false = nth j r0 false) ->
        map (fun j => (k, j)) (where_from j0 r0) =
        filter (fun p => entry false (repeat [] k ++ r :: M) (fst p) (snd p)) (map (fun y => (k, y)) (seq j0 (length r0)))).
      { intros j0 r0. revert j0. induction r0 as [|b r0 IH0]; intros j0 HQ; [reflexivity|]. cbn [length seq map filter fst snd where_from].
        pose proof (HQ 0 ltac:(simpl; lia)) as Q0. simpl in Q0. rewrite Nat.add_0_r in Q0. unfold entry at 1. rewrite E, Q0.
        rewrite <- IH0.
        - destruct b; reflexivity.
        - intros j Hj. specialize (HQ (S j) ltac:(simpl; lia)). simpl in HQ. now rewrite <- HQ, Nat.add_succ_r. }
      apply Q. auto.
    - assert (RA : repeat [] k ++ r :: M = (repeat [] k ++ [r]) ++ M) by (now rewrite <- app_assoc).
      specialize (IH (S k)). rewrite IH.
      + apply filter_ext_in. intros [i j] Hij. apply in_prod_iff in Hij as [Hi _]. apply in_seq in Hi. cbn [fst snd].
        unfold entry. f_equal. destruct (Nat.le_exists_sub (S k) i) as (q & -> & _); [lia|].
        rewrite RA, !app_nth2; rewrite ?app_length, ?repeat_length; simpl; try lia. f_equal. lia.
      + intros i Hi. rewrite app_nth2; rewrite repeat_length; [|lia]. f_equal. lia. }
  rewrite <- L. apply (G 0). auto.
Qed.
Lemma argwhere_length M : length (argwhere M) = count (concat M).
Proof.
  unfold argwhere. generalize 0. induction M as [|r M IH]; intros k; simpl; [reflexivity|].
  rewrite app_length, count_app, IH, map_length, flatnonzero_length. reflexivity.
Qed.

Lemma cut_off_spec alpha gamma n m : (0 <= alpha)%R -> matrix n m gamma -> 0 < n -> 0 < m ->
  exists mi mask th, cut_off_gamma alpha gamma m = Ok (mi, mask) /\ mask = map (map (fun g => Rleb th g)) gamma /\
    mi = py_int (Rmin (alpha * INR (n + m)) (IZR (Z.of_nat (n * m) - 1))) /\
    (0 <= mi < Z.of_nat (n * m))%Z /\ (mi + 1 <= Z.of_nat (count (concat mask)))%Z /\
    (NoDup (concat gamma) -> Z.of_nat (count (concat mask)) = (mi + 1)%Z) /\ In th (concat gamma).
Proof.
  intros Ha M Hn Hm. unfold cut_off_gamma. cbv zeta. assert (Ln : length gamma = n) by apply M. rewrite Ln.
  assert (P : 0 < n * m) by (apply Nat.mul_pos_pos; auto).
  set (mi := py_int _).
  assert (B : (0 <= mi <= Z.of_nat (n * m) - 1)%Z).
  { apply py_int_bounds; [|apply Rmin_r]. apply Rmin_glb; [|apply (IZR_le 0); lia].
    apply Rmult_le_pos; [auto|apply pos_INR]. }
  set (s := np_sort (concat gamma)).
  assert (Ls : length s = n * m) by (unfold s; rewrite np_sort_length; now apply concat_matrix_length).
  rewrite Ls. set (p := Z.to_nat (Z.of_nat (n * m) - mi - 1)).
  assert (EP : py_index (n * m) (- mi - 1) = Ok p).
  { unfold py_index. destruct ((0 <=? - mi - 1)%Z && (- mi - 1 <? Z.of_nat (n * m))%Z) eqn:Q.
    - apply andb_true_iff in Q as [Q _]. apply Z.leb_le in Q. lia.
    - destruct ((- mi - 1 <? 0)%Z && (- Z.of_nat (n * m) <=? - mi - 1)%Z) eqn:Q'.
      + f_equal. unfold p. f_equal. lia.
      + apply andb_false_iff in Q' as [Q'|Q']; [apply Z.ltb_ge in Q'|apply Z.leb_gt in Q']; lia. }
  rewrite EP. cbn [bind]. exists mi. eexists. exists (nth p s 0%R). split; [reflexivity|]. split; [reflexivity|]. split; [reflexivity|].
  split; [lia|].
  assert (Hp : p < length s) by (unfold p; lia).
  rewrite <- concat_map, count_map_filter.
  rewrite (filter_perm_length _ _ _ (np_sort_perm (concat gamma))). fold s.
  destruct (above_sorted s p (np_sort_sorted _) Hp) as [A1 A2].
  split; [unfold p in *; lia|]. split.
  - intros ND. rewrite A2; [unfold p; lia|]. eapply Permutation_NoDup; [apply np_sort_perm|exact ND].
  - eapply Permutation_in; [apply Permutation_sym, np_sort_perm|]. now apply nth_In.
Qed.
