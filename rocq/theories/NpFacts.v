(** Lemmas about the array library. *)
From Coq Require Import List ZArith Bool Arith Lia Sorting.Sorted Sorting.Permutation.
From Verif Require Import Np.
Import ListNotations.

Lemma bind_ok {A B} (r : res A) (f : A -> res B) b :
  bind r f = Ok b -> exists a, r = Ok a /\ f a = Ok b.
Proof. destruct r; simpl; intros H; [eauto | discriminate]. Qed.

Lemma mapM_ok_length {A B} (f : A -> res B) l ys : mapM f l = Ok ys -> length ys = length l.
Proof.
  revert ys; induction l as [|x l IH]; simpl; intros ys H.
  - now injection H as <-.
  - destruct (f x) as [y|]; simpl in H; [|discriminate].
    destruct (mapM f l) as [ys'|]; simpl in H; [|discriminate].
    injection H as <-. simpl. f_equal. now apply IH.
Qed.

Lemma mapM_ok_iff {A B} (f : A -> res B) l ys :
  mapM f l = Ok ys <-> Forall2 (fun x y => f x = Ok y) l ys.
Proof.
  revert ys; induction l as [|x l IH]; simpl; intros ys; split; intros H.
  - injection H as <-. constructor.
  - inversion H; reflexivity.
  - destruct (f x) as [y|] eqn:E; simpl in H; [|discriminate].
    destruct (mapM f l) as [ys'|]; simpl in H; [|discriminate].
    injection H as <-. constructor; auto. now apply IH.
  - inversion H as [|? y ? ys' H1 H2]; subst. rewrite H1. simpl.
    apply IH in H2. now rewrite H2.
Qed.

Lemma mapM_pure {A B} (f : A -> B) l : mapM (fun x => Ok (f x)) l = Ok (map f l).
Proof. induction l; simpl; auto. now rewrite IHl. Qed.

Lemma mapM_ext {A B} (f g : A -> res B) l :
  (forall x, In x l -> f x = g x) -> mapM f l = mapM g l.
Proof.
  induction l as [|x l IH]; simpl; intros H; auto.
  rewrite H by auto. rewrite IH; auto.
Qed.

Lemma mapM_app {A B} (f : A -> res B) l1 l2 :
  mapM f (l1 ++ l2) = (a <- mapM f l1 ;; b <- mapM f l2 ;; Ok (a ++ b)).
Proof.
  induction l1 as [|x l1 IH]; simpl.
  - now destruct (mapM f l2).
  - destruct (f x); simpl; auto. rewrite IH.
    destruct (mapM f l1); simpl; auto. now destruct (mapM f l2).
Qed.

(** ** Masks *)

Lemma count_le m : count m <= length m.
Proof. induction m as [|[]]; simpl; lia. Qed.

Lemma count_app a b : count (a ++ b) = count a + count b.
Proof. induction a as [|[]]; simpl; lia. Qed.

Lemma count_negb m : count m + count (map negb m) = length m.
Proof. induction m as [|[]]; simpl; lia. Qed.

Lemma count_repeat_true n : count (repeat true n) = n.
Proof. induction n; simpl; lia. Qed.

Lemma count_repeat_false n : count (repeat false n) = 0.
Proof. induction n; simpl; lia. Qed.

Lemma select_filter {A B} (p : B -> bool) (bs : list B) (xs : list A) :
  select (map p bs) xs = map snd (filter (fun q => p (fst q)) (combine bs xs)).
Proof.
  revert xs; induction bs as [|b bs IH]; destruct xs as [|x xs]; simpl; auto.
  destruct (p b); simpl; now rewrite IH.
Qed.

Lemma select_self {A} (p : A -> bool) xs : select (map p xs) xs = filter p xs.
Proof. induction xs as [|x xs IH]; simpl; auto. destruct (p x); simpl; now rewrite IH. Qed.

Lemma select_length {A} m (xs : list A) : length m = length xs -> length (select m xs) = count m.
Proof.
  revert xs; induction m as [|b m IH]; destruct xs; simpl; intros H; auto; try discriminate.
  destruct b; simpl; auto.
Qed.

Lemma select_map {A B} (f : A -> B) m xs : select m (map f xs) = map f (select m xs).
Proof.
  revert xs; induction m as [|b m IH]; destruct xs; simpl; auto.
  destruct b; simpl; now rewrite IH.
Qed.

Lemma select_app {A} m1 m2 (x1 x2 : list A) :
  length m1 = length x1 -> select (m1 ++ m2) (x1 ++ x2) = select m1 x1 ++ select m2 x2.
Proof.
  revert x1; induction m1 as [|b m IH]; destruct x1; simpl; intros H; auto; try discriminate.
  destruct b; simpl; rewrite IH; auto.
Qed.

Lemma select_all {A} m (xs : list A) :
  length m = length xs -> forallb id m = true -> select m xs = xs.
Proof.
  revert xs; induction m as [|b m IH]; destruct xs; simpl; intros H1 H2; auto; try discriminate.
  destruct b; simpl in H2; [|discriminate]. f_equal; auto.
Qed.

Lemma select_combine {A B} m (xs : list A) (ys : list B) :
  length xs = length ys -> select m (combine xs ys) = combine (select m xs) (select m ys).
Proof.
  revert xs ys; induction m as [|b m IH]; intros [|x xs] [|y ys] H; simpl in *; auto; try discriminate.
  destruct b; simpl; rewrite IH; auto.
Qed.

Lemma select_In {A} m (xs : list A) x :
  In x (select m xs) -> exists i, nth_error m i = Some true /\ nth_error xs i = Some x.
Proof.
  revert xs; induction m as [|b m IH]; intros [|y xs] H; simpl in *; try easy.
  destruct b; simpl in H.
  - destruct H as [->|H]; [now exists 0 | destruct (IH _ H) as [i []]; now exists (S i)].
  - destruct (IH _ H) as [i []]; now exists (S i).
Qed.

Lemma select_In_iff {A} m (xs : list A) x :
  In x (select m xs) <-> exists i, nth_error m i = Some true /\ nth_error xs i = Some x.
Proof.
  split; [apply select_In|].
  revert xs; induction m as [|b m IH]; intros [|y xs] [i [H1 H2]]; destruct i; simpl in *; try easy.
  - injection H1 as ->. injection H2 as ->. now left.
  - destruct b; simpl; [right|]; apply IH; eauto.
Qed.

Lemma select_incl {A} m (xs : list A) : incl (select m xs) xs.
Proof. intros x H. apply select_In in H as [i [_ H]]. eapply nth_error_In; eauto. Qed.

Lemma select_NoDup {A} m (xs : list A) : NoDup xs -> NoDup (select m xs).
Proof.
  revert xs; induction m as [|b m IH]; intros [|y xs] H; simpl; try constructor.
  inversion H; subst. destruct b; auto. constructor; auto.
  intros C. apply select_incl in C. contradiction.
Qed.

(** A sample is selected iff its complement mask does not select it. *)
Lemma select_perm {A} m (xs : list A) : length m = length xs ->
  Permutation (select m xs ++ select (map negb m) xs) xs.
Proof.
  revert xs; induction m as [|b m IH]; intros [|y xs] H; simpl in *; auto; try discriminate.
  injection H as H. destruct b; simpl.
  - constructor. auto.
  - rewrite <- Permutation_middle. constructor. auto.
Qed.

Lemma place_length {A} m (vals out : list A) : length (place m vals out) = length out.
Proof.
  revert vals out; induction m as [|b m IH]; intros vals [|o out]; simpl; auto.
  destruct b; [destruct vals|]; simpl; now rewrite IH.
Qed.

Lemma place_select {A} m (vals out : list A) :
  length m = length out -> length vals = count m -> select m (place m vals out) = vals.
Proof.
  revert vals out; induction m as [|b m IH]; intros vals [|o out]; simpl; intros H1 H2; try discriminate.
  - now destruct vals.
  - destruct b; simpl in *.
    + destruct vals as [|v vals]; simpl in *; [discriminate|]. f_equal. apply IH; lia.
    + apply IH; lia.
Qed.

Lemma place_select_neg {A} m (vals out : list A) :
  select (map negb m) (place m vals out) = select (map negb m) out.
Proof.
  revert vals out; induction m as [|b m IH]; intros vals [|o out]; simpl; auto.
  destruct b; simpl; [destruct vals; simpl; auto|]. now rewrite IH.
Qed.

(** Two writes with complementary masks: result determined, independent of [out]. *)
Lemma place_place_neg_split {A} m (xs out : list A) :
  length m = length xs -> length out = length xs ->
  place (map negb m) (select (map negb m) xs) (place m (select m xs) out) = xs.
Proof.
  revert xs out; induction m as [|b m IH]; intros [|x xs] [|o out]; simpl; intros H1 H2; auto; try discriminate.
  destruct b; simpl; f_equal; apply IH; lia.
Qed.

Lemma place_all_select {A} m (xs out : list A) :
  length m = length xs -> length out = length xs -> forallb id m = true ->
  place m (select m xs) out = xs.
Proof.
  revert xs out; induction m as [|b m IH]; intros [|x xs] [|o out]; simpl; intros H1 H2 H3; auto; try discriminate.
  destruct b; simpl in *; [|discriminate]. f_equal; apply IH; auto; lia.
Qed.

Lemma place_nil_vals {A} m (out : list A) : place m [] out = out.
Proof.
  revert out; induction m as [|b m IH]; intros [|o out]; simpl; auto.
  destruct b; now rewrite IH.
Qed.

Lemma place_nth {A} m (vals out : list A) i :
  length m = length out -> length vals = count m -> i < length out ->
  nth_error (place m vals out) i =
  if nth i m false then nth_error vals (count (firstn i m)) else nth_error out i.
Proof.
  revert vals out i; induction m as [|b m IH]; intros vals [|o out] i; simpl; intros H1 H2 H3; try lia.
  destruct b; simpl in *.
  - destruct vals as [|v vals]; simpl in *; [lia|].
    destruct i; simpl; auto. rewrite IH by lia.
    destruct (nth i m false); auto.
  - destruct i; simpl; auto. apply IH; lia.
Qed.

Lemma place_repeat {A} m (v : A) out : length m = length out ->
  place m (repeat v (count m)) out =
  map (fun bo => if fst bo : bool then v else snd bo) (combine m out).
Proof.
  revert out; induction m as [|b m IH]; intros [|o out]; simpl; intros H; auto; try discriminate.
  destruct b; simpl; f_equal; apply IH; lia.
Qed.

Lemma np_setmask_scalar_ok {A} m (v : A) out : length m = length out ->
  np_setmask_scalar m v out = Ok (map (fun bo => if fst bo : bool then v else snd bo) (combine m out)).
Proof.
  intros H. unfold np_setmask_scalar, np_setmask. rewrite H, Nat.eqb_refl. simpl length.
  destruct (1 =? count m) eqn:E.
  - apply Nat.eqb_eq in E. rewrite <- place_repeat by auto. rewrite <- E. reflexivity.
  - now rewrite place_repeat.
Qed.

(** ** where / flatnonzero *)

Lemma where_from_In m k i : In i (where_from k m) <-> k <= i /\ nth_error m (i - k) = Some true.
Proof.
  revert k; induction m as [|b m IH]; intros k; simpl.
  - split; [easy|]. intros [_ H]. destruct (i - k); discriminate.
  - assert (E : forall j, k < j -> nth_error (b :: m) (j - k) = nth_error m (j - S k)).
    { intros j Hj. replace (j - k) with (S (j - S k)) by lia. reflexivity. }
    destruct b; simpl.
    + rewrite IH. split.
      * intros [<-|[H1 H2]]; [split; auto; now rewrite Nat.sub_diag|].
        split; [lia|]. rewrite E; auto; lia.
      * intros [H1 H2]. destruct (Nat.eq_dec k i) as [->|]; [now left|right].
        split; [lia|]. rewrite E in H2; auto; lia.
    + rewrite IH. split.
      * intros [H1 H2]. split; [lia|]. rewrite E; auto; lia.
      * intros [H1 H2]. destruct (Nat.eq_dec k i) as [->|].
        { rewrite Nat.sub_diag in H2. discriminate. }
        split; [lia|]. rewrite E in H2; auto; lia.
Qed.

Lemma flatnonzero_In m i : In i (flatnonzero m) <-> nth_error m i = Some true.
Proof.
  unfold flatnonzero. rewrite where_from_In, Nat.sub_0_r. split; [tauto|]. split; auto; lia.
Qed.

Lemma where_from_sorted m k : StronglySorted lt (where_from k m).
Proof.
  revert k; induction m as [|b m IH]; intros k; simpl; try constructor.
  destruct b; auto. constructor; auto.
  apply Forall_forall. intros i H. apply where_from_In in H. lia.
Qed.

Lemma flatnonzero_sorted m : StronglySorted lt (flatnonzero m).
Proof. apply where_from_sorted. Qed.

Lemma StronglySorted_lt_NoDup l : StronglySorted lt l -> NoDup l.
Proof.
  induction 1; constructor; auto. intros C.
  rewrite Forall_forall in H0. apply H0 in C. lia.
Qed.

Lemma flatnonzero_NoDup m : NoDup (flatnonzero m).
Proof. apply StronglySorted_lt_NoDup, flatnonzero_sorted. Qed.

Lemma where_from_length m k : length (where_from k m) = count m.
Proof. revert k; induction m as [|[]]; intros k; simpl; auto. Qed.

Lemma flatnonzero_length m : length (flatnonzero m) = count m.
Proof. apply where_from_length. Qed.

Lemma flatnonzero_lt m i : In i (flatnonzero m) -> i < length m.
Proof. rewrite flatnonzero_In. intros H. apply nth_error_Some. congruence. Qed.

Lemma where_from_map m k : where_from (S k) m = map S (where_from k m).
Proof. revert k; induction m as [|[]]; intros k; simpl; auto; now rewrite IHm. Qed.

(** [xs[np.flatnonzero(m)] = xs[m]] *)
Lemma np_take_where {A} m (pre xs : list A) : length m = length xs ->
  np_take (where_from (length pre) m) (pre ++ xs) = Ok (select m xs).
Proof.
  revert pre xs; induction m as [|b m IH]; intros pre [|x xs] H; simpl in *; auto; try discriminate.
  assert (E : np_take (where_from (S (length pre)) m) (pre ++ x :: xs) = Ok (select m xs)).
  { replace (pre ++ x :: xs) with ((pre ++ [x]) ++ xs) by (rewrite <- app_assoc; reflexivity).
    replace (S (length pre)) with (length (pre ++ [x])) by (rewrite app_length; simpl; lia).
    apply IH; lia. }
  destruct b; auto. unfold np_take in *. simpl.
  rewrite nth_error_app2, Nat.sub_diag by lia. simpl. now rewrite E.
Qed.

Lemma np_take_flatnonzero {A} m (xs : list A) : length m = length xs ->
  np_take (flatnonzero m) xs = Ok (select m xs).
Proof. apply (np_take_where m [] xs). Qed.

Lemma np_take_ok_iff {A} idx (xs ys : list A) :
  np_take idx xs = Ok ys <-> Forall2 (fun i y => nth_error xs i = Some y) idx ys.
Proof.
  unfold np_take. rewrite mapM_ok_iff. split; intros H; induction H; constructor; auto.
  - destruct (nth_error xs x); congruence.
  - now rewrite H.
Qed.

Lemma np_take_ok {A} idx (xs : list A) d : Forall (fun i => i < length xs) idx ->
  np_take idx xs = Ok (map (fun i => nth i xs d) idx).
Proof.
  intros H. apply np_take_ok_iff. induction H; simpl; constructor; auto.
  now apply nth_error_nth'.
Qed.

Lemma np_take_length {A} idx (xs ys : list A) : np_take idx xs = Ok ys -> length ys = length idx.
Proof. apply mapM_ok_length. Qed.

Lemma np_take_err {A} idx (xs : list A) :
  (exists i, In i idx /\ length xs <= i) -> np_take idx xs = Err IndexError.
Proof.
  intros [i [Hi Hl]]. induction idx as [|j idx IH]; simpl in *; [easy|].
  unfold np_take in *; simpl. destruct (nth_error xs j) eqn:E; simpl; auto.
  destruct Hi as [->|Hi].
  - apply nth_error_None in Hl. congruence.
  - now rewrite IH.
Qed.

Lemma np_take_app {A} i1 i2 (xs : list A) :
  np_take (i1 ++ i2) xs = (a <- np_take i1 xs ;; b <- np_take i2 xs ;; Ok (a ++ b)).
Proof. apply mapM_app. Qed.

Lemma np_take_seq {A} (xs : list A) : np_take (seq 0 (length xs)) xs = Ok xs.
Proof.
  apply np_take_ok_iff.
  assert (G : forall (pre ys : list A), Forall2 (fun i y => nth_error (pre ++ ys) i = Some y)
                               (seq (length pre) (length ys)) ys).
  { intros pre ys; revert pre; induction ys as [|y ys IH]; intros pre; simpl; constructor.
    - now rewrite nth_error_app2, Nat.sub_diag by lia.
    - specialize (IH (pre ++ [y])). rewrite app_length, <- app_assoc in IH. simpl in IH.
      now rewrite Nat.add_1_r in IH. }
  apply (G [] xs).
Qed.

(** ** update / place_idx *)

Lemma update_length {A} i (v : A) out : length (update i v out) = length out.
Proof. revert i; induction out; intros [|i]; simpl; auto. Qed.

Lemma update_nth {A} i (v : A) out j :
  nth_error (update i v out) j =
  if (j =? i) && (j <? length out) then Some v else nth_error out j.
Proof.
  revert i j; induction out as [|o out IH]; intros [|i] [|j]; simpl; auto.
  - now rewrite andb_false_r.
  - rewrite IH. simpl. reflexivity.
Qed.

Lemma place_idx_length {A} idx (vals out : list A) : length (place_idx idx vals out) = length out.
Proof.
  revert vals out; induction idx as [|i idx IH]; intros [|v vals] out; simpl; auto.
  now rewrite IH, update_length.
Qed.

Lemma place_idx_notin {A} idx (vals out : list A) j :
  ~ In j idx -> nth_error (place_idx idx vals out) j = nth_error out j.
Proof.
  revert vals out; induction idx as [|i idx IH]; intros [|v vals] out H; simpl; auto.
  rewrite IH by (simpl in H; tauto). rewrite update_nth.
  destruct (j =? i) eqn:E; auto. apply Nat.eqb_eq in E. subst. simpl in H. tauto.
Qed.

Lemma place_idx_nth {A} idx (vals out : list A) k i v :
  NoDup idx -> nth_error idx k = Some i -> nth_error vals k = Some v -> i < length out ->
  nth_error (place_idx idx vals out) i = Some v.
Proof.
  revert vals out k; induction idx as [|i0 idx IH]; intros [|v0 vals] out [|k] ND H1 H2 H3; simpl in *; try easy.
  - injection H1 as ->. injection H2 as ->. inversion ND; subst.
    rewrite place_idx_notin by auto. rewrite update_nth, Nat.eqb_refl.
    apply Nat.ltb_lt in H3. now rewrite H3.
  - inversion ND; subst. apply IH with (k := k); auto. now rewrite update_length.
Qed.

(** ** unique *)

Lemma insert_uniq_In z l x : In x (insert_uniq z l) <-> x = z \/ In x l.
Proof.
  induction l as [|h t IH]; simpl.
  - split; intros [H|H]; auto.
  - destruct (Z.ltb_spec z h); simpl; [intuition|].
    destruct (Z.eqb_spec z h); simpl; [subst; intuition|]. rewrite IH. intuition.
Qed.

Lemma unique_In l x : In x (unique l) <-> In x l.
Proof.
  induction l as [|h t IH]; simpl; [tauto|].
  fold (unique t). rewrite insert_uniq_In, IH. intuition.
Qed.

Lemma insert_uniq_sorted z l : StronglySorted Z.lt l -> StronglySorted Z.lt (insert_uniq z l).
Proof.
  induction 1 as [|h t Hs IH Hf]; simpl.
  - repeat constructor.
  - destruct (Z.ltb_spec z h).
    + constructor; [constructor; auto|]. constructor; auto.
      eapply Forall_impl; [|exact Hf]. simpl. lia.
    + destruct (Z.eqb_spec z h).
      * constructor; auto.
      * constructor; auto. apply Forall_forall. intros x Hx.
        apply insert_uniq_In in Hx as [->|Hx]; [lia|]. rewrite Forall_forall in Hf. auto.
Qed.

Lemma unique_sorted l : StronglySorted Z.lt (unique l).
Proof. induction l; simpl; [constructor|]. now apply insert_uniq_sorted. Qed.

Lemma StronglySorted_Zlt_NoDup l : StronglySorted Z.lt l -> NoDup l.
Proof.
  induction 1; constructor; auto. intros C.
  rewrite Forall_forall in H0. apply H0 in C. lia.
Qed.

Lemma unique_NoDup l : NoDup (unique l).
Proof. apply StronglySorted_Zlt_NoDup, unique_sorted. Qed.

Lemma StronglySorted_Zlt_ext l1 l2 :
  StronglySorted Z.lt l1 -> StronglySorted Z.lt l2 -> (forall x, In x l1 <-> In x l2) -> l1 = l2.
Proof.
  intros H1; revert l2; induction H1 as [|a l1 Hs IH Hf]; intros l2 H2 E.
  - destruct l2 as [|b l2]; auto. exfalso. apply (E b). now left.
  - destruct H2 as [|b l2 Hs2 Hf2].
    + exfalso. apply (E a). now left.
    + rewrite Forall_forall in *.
      assert (a = b).
      { destruct (Z.lt_trichotomy a b) as [L|[?|L]]; auto.
        - assert (In a (b :: l2)) as [->|C] by (apply E; now left); [lia|]. apply Hf2 in C. lia.
        - assert (In b (a :: l1)) as [->|C] by (apply E; now left); [lia|]. apply Hf in C. lia. }
      subst b. f_equal. apply IH; auto. intros x. split; intros Hx.
      * assert (In x (a :: l2)) as [->|]; auto. { apply E; now right. } apply Hf in Hx; lia.
      * assert (In x (a :: l1)) as [->|]; auto. { apply E; now right. } apply Hf2 in Hx; lia.
Qed.

Lemma unique_ext l1 l2 : (forall x, In x l1 <-> In x l2) -> unique l1 = unique l2.
Proof.
  intros H. apply StronglySorted_Zlt_ext; try apply unique_sorted.
  intros x. now rewrite !unique_In.
Qed.

Lemma unique_length_le1 l : length (unique l) <= 1 <-> (forall x y, In x l -> In y l -> x = y).
Proof.
  split.
  - intros H x y Hx Hy. apply unique_In in Hx, Hy.
    destruct (unique l) as [|a [|b t]]; simpl in *; try lia; intuition congruence.
  - intros H. pose proof (unique_NoDup l) as ND. pose proof (fun x => proj1 (unique_In l x)) as Hin.
    destruct (unique l) as [|a [|b t]]; simpl in *; try lia.
    exfalso. inversion ND; subst. apply H2. left. apply H; apply Hin; auto.
Qed.

Lemma unique_nil l : unique l = [] <-> l = [].
Proof.
  split.
  - intros H. destruct l as [|x l]; auto. exfalso.
    assert (In x (unique (x :: l))) by (apply unique_In; now left). rewrite H in *. easy.
  - now intros ->.
Qed.

(** ** dictionaries *)

Section Dict.
  Context {K V : Type} (eqb : K -> K -> bool).
  Hypothesis eqb_spec : forall a b, eqb a b = true <-> a = b.

  Lemma eqb_refl' a : eqb a a = true.
  Proof. now apply eqb_spec. Qed.

  Lemma dict_get_set k v d k' :
    dict_get eqb k' (dict_set eqb k v d : dict K V) = if eqb k' k then Some v else dict_get eqb k' d.
  Proof.
    induction d as [|[k0 v0] d IH]; simpl; auto.
    destruct (eqb k k0) eqn:E; simpl.
    - apply eqb_spec in E as ->. destruct (eqb k' k0); auto.
    - rewrite IH. destruct (eqb k' k0) eqn:E1; auto.
      apply eqb_spec in E1 as ->. destruct (eqb k0 k) eqn:E2; auto.
      apply eqb_spec in E2 as ->. rewrite eqb_refl' in E. discriminate.
  Qed.

  Lemma dict_get_In k d v : dict_get eqb k (d : dict K V) = Some v -> In (k, v) d.
  Proof.
    induction d as [|[k0 v0] d IH]; simpl; [easy|].
    destruct (eqb k k0) eqn:E; intros H.
    - apply eqb_spec in E as ->. injection H as ->. now left.
    - right; auto.
  Qed.

  Lemma dict_get_NoDup k v d : NoDup (map fst d) -> In (k, v) d -> dict_get eqb k (d : dict K V) = Some v.
  Proof.
    induction d as [|[k0 v0] d IH]; simpl; [easy|].
    intros ND [H|H]; inversion ND; subst.
    - injection H as -> ->. now rewrite eqb_refl'.
    - destruct (eqb k k0) eqn:E; auto. apply eqb_spec in E as ->.
      exfalso. apply H2. apply in_map_iff. now exists (k0, v).
  Qed.

  Lemma dict_get_None k d : dict_get eqb k (d : dict K V) = None <-> ~ In k (map fst d).
  Proof.
    induction d as [|[k0 v0] d IH]; simpl; [tauto|].
    destruct (eqb k k0) eqn:E.
    - apply eqb_spec in E as ->. split; [easy|]. intros H. exfalso. auto.
    - rewrite IH. split; [|tauto]. intros H [->|C]; [|tauto]. rewrite eqb_refl' in E. discriminate.
  Qed.

  Lemma dict_set_keys k v d : 
    map fst (dict_set eqb k v (d : dict K V)) =
    if existsb (eqb k) (map fst d) then map fst d else map fst d ++ [k].
  Proof.
    induction d as [|[k0 v0] d IH]; simpl; auto.
    destruct (eqb k k0); simpl; auto. rewrite IH. destruct (existsb _ _); auto.
  Qed.

  Lemma dict_set_NoDup k v d : NoDup (map fst d) -> NoDup (map fst (dict_set eqb k v (d : dict K V))).
  Proof.
    intros H. rewrite dict_set_keys. destruct (existsb (eqb k) (map fst d)) eqn:E; auto.
    apply Permutation_NoDup with (l := k :: map fst d).
    - apply Permutation_cons_append.
    - constructor; auto. intros C. assert (existsb (eqb k) (map fst d) = true); [|congruence].
      apply existsb_exists. exists k. split; auto. apply eqb_refl'.
  Qed.

  Lemma dict_get_update d e k : 
    dict_get eqb k (dict_update eqb d e : dict K V) =
    match dict_get eqb k (rev e) with Some v => Some v | None => dict_get eqb k d end.
  Proof.
    unfold dict_update. rewrite <- fold_left_rev_right.
    induction (rev e) as [|[k0 v0] l IH]; simpl; auto.
    rewrite dict_get_set. simpl. destruct (eqb k k0); auto.
  Qed.
End Dict.
