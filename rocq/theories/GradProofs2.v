(** Lemmas about gradual domain adaptation: the data of a step, the loop. *)
From Coq Require Import String List ZArith QArith Bool Arith Lia Reals Lra Sorted Permutation.
From Verif Require Import Np NpFacts Labels UtilsModel Spec SpecFacts UtilsProofs RVec RVecFacts OTSpec OTProofs OTProofs2 SelfModel SelfSpec SelfProofs GradProofs.
Import ListNotations.
Local Open Scope nat_scope.
Local Open Scope list_scope.

Lemma set_pairs_In M n m i j : In (i, j) (set_pairs M n m) <-> i < n /\ j < m /\ entry false M i j = true.
Proof. unfold set_pairs. rewrite filter_In, in_prod_iff, !in_seq. simpl. intuition lia. Qed.

Lemma list_prod_NoDup {A B} (l : list A) (l' : list B) : NoDup l -> NoDup l' -> NoDup (list_prod l l').
Proof.
  intros H H'. induction H as [|x l N H IH]; simpl; [constructor|].
  assert (D : forall a b, NoDup a -> NoDup b -> (forall z, In z a -> ~ In z b) -> NoDup (a ++ b : list (A * B))).
  { intros a b Ha Hb. induction Ha as [|z a Nz Ha IHa]; simpl; intros Q; [auto|]. constructor.
    - intros I. apply in_app_or in I as [I|I]; [auto|]. eapply Q; eauto; now left.
    - apply IHa. intros w Hw. apply Q. now right. }
  apply D; auto.
  - clear - H'. induction H' as [|y l' N H IH]; simpl; constructor; auto. intros I. apply in_map_iff in I as (w & E & I). congruence.
  - intros [a b] I J. apply in_map_iff in I as (w & E & I). injection E as <- <-. apply in_prod_iff in J as [J _]. auto.
Qed.
Lemma set_pairs_NoDup M n m : NoDup (set_pairs M n m).
Proof. unfold set_pairs. apply NoDup_filter, list_prod_NoDup; apply seq_NoDup. Qed.

Lemma entry_map {A B} (f : A -> B) d d' n m M i j : matrix n m M -> i < n -> j < m -> entry d' (map (map f) M) i j = f (entry d M i j).
Proof.
  intros [L F] Hi Hj. unfold entry. rewrite (nth_indep _ [] (map f [])) by (rewrite map_length; lia). rewrite (map_nth (map f)).
  rewrite (nth_indep _ d' (f d)); [apply map_nth|]. rewrite map_length. rewrite Forall_forall in F. rewrite F; [auto|]. apply nth_In. lia.
Qed.
Lemma entry_grid {A} (f : nat -> nat -> A) d n m i j : i < n -> j < m -> entry d (map (fun i => map (fun j => f i j) (seq 0 m)) (seq 0 n)) i j = f i j.
Proof.
  intros Hi Hj. unfold entry. rewrite (nth_map_seq (fun i => map (fun j => f i j) (seq 0 m))) by auto. now rewrite nth_map_seq.
Qed.
Lemma grid_matrix {A} (f : nat -> nat -> A) n m : matrix n m (map (fun i => map (fun j => f i j) (seq 0 m)) (seq 0 n)).
Proof.
  split; [now rewrite map_length, seq_length|]. apply Forall_forall. intros r Hr. apply in_map_iff in Hr as (i & <- & _).
  now rewrite map_length, seq_length.
Qed.

Lemma advanced_spec gamma n m : matrix n m gamma -> 0 < n -> 0 < m ->
  exists mi mask, advanced_cut_off_gamma gamma m = Ok (mi, mask) /\ matrix n m mask /\ Z.of_nat (count (concat mask)) = (mi + 1)%Z /\
    forall i j, i < n -> j < m ->
      (entry false mask i j = true <->
        best (fun q => q < m) (fun q => entry 0%R gamma i q) j \/ best (fun q => q < n) (fun q => entry 0%R gamma q j) i).
Proof.
  intros M Hn Hm. destruct M as [L F]. unfold advanced_cut_off_gamma. cbv zeta. rewrite L.
  destruct (mapM_total np_argmax gamma) as [rm Erm].
  { intros r Hr. apply np_argmin_total. rewrite Forall_forall in F. specialize (F r Hr). destruct r; simpl in *; [lia|discriminate]. }
  rewrite Erm. cbn [bind].
  destruct (mapM_total (fun j => np_argmax (map (fun r => nth j r 0%R) gamma)) (seq 0 m)) as [cm Ecm].
  { intros j _. apply np_argmin_total. destruct gamma; simpl in *; [lia|discriminate]. }
  rewrite Ecm. cbn [bind].
  assert (VR : forall i, i < n -> np_argmax (nth i gamma []) = Ok (nth i rm 0)).
  { intros i Hi. apply (mapM_nth np_argmax gamma rm i [] 0 Erm). lia. }
  assert (VC : forall j, j < m -> np_argmax (map (fun r => nth j r 0%R) gamma) = Ok (nth j cm 0)).
  { intros j Hj. pose proof (mapM_nth _ _ _ j 0 0 Ecm) as Q. rewrite seq_length, seq_nth in Q by auto. now apply Q. }
  do 2 eexists. split; [reflexivity|]. split; [apply grid_matrix|]. split; [lia|].
  intros i j Hi Hj. rewrite (entry_grid (fun i j => (j =? nth i rm 0) || (i =? nth j cm 0))) by auto.
  assert (LR : length (nth i gamma []) = m).
  { rewrite Forall_forall in F. apply F, nth_In. lia. }
  assert (BR : best (fun q => q < m) (fun q => entry 0%R gamma i q) (nth i rm 0)).
  { destruct (np_argmax_spec _ _ (VR i Hi)) as (A & B & C). rewrite LR in *. split; [auto|]. split; [intros q Hq; now apply B|].
    intros q Hq E. destruct (Nat.le_gt_cases (nth i rm 0) q) as [|G]; [auto|]. specialize (C q G). unfold entry in E. rewrite E in C. lra. }
  assert (BC : best (fun q => q < n) (fun q => entry 0%R gamma q j) (nth j cm 0)).
  { destruct (np_argmax_spec _ _ (VC j Hj)) as (A & B & C). rewrite map_length, L in *.
    assert (EQ : forall q, q < n -> nth q (map (fun r => nth j r 0%R) gamma) 0%R = entry 0%R gamma q j).
    { intros q Hq. unfold entry. rewrite (nth_indep _ 0%R ((fun r => nth j r 0%R) [])) by (rewrite map_length; lia).
      now rewrite (map_nth (fun r => nth j r 0%R)). }
    split; [auto|]. split; [intros q Hq; rewrite <- !EQ by auto; now apply B|].
    intros q Hq E. destruct (Nat.le_gt_cases (nth j cm 0) q) as [|G]; [auto|]. specialize (C q G). rewrite !EQ in C by auto. rewrite E in C. lra. }
  rewrite orb_true_iff, !Nat.eqb_eq. split.
  - intros [->|E]; [left; exact BR|right]. rewrite E. exact BC.
  - intros [B|B]; [left; exact (best_unique _ _ _ _ B BR)|right; exact (best_unique _ _ _ _ B BC)].
Qed.

(** ** the data of a step *)
Lemma np_getrow_nth {A} (l : list A) i d x : np_getrow l i = Ok x -> i < length l /\ x = nth i l d.
Proof.
  unfold np_getrow. destruct (nth_error l i) as [y|] eqn:E; [|discriminate]. intros [= <-]. split.
  - apply nth_error_Some. congruence.
  - symmetry. now apply nth_error_nth.
Qed.

Definition step_row (n t : nat) (Xs Xt : list (list R)) (p : nat * nat) : list R :=
  between n t (nth (fst p) Xs []) (nth (snd p) Xt []).

Lemma firstn_update {A} i (v : A) out : i < length out -> firstn (S i) (update i v out) = firstn i out ++ [v].
Proof.
  revert i. induction out as [|x out IH]; intros [|i] H; simpl in *; try lia; [reflexivity|]. f_equal. apply IH. lia.
Qed.
Lemma skipn_update {A} i (v : A) out k : i < k -> skipn k (update i v out) = skipn k out.
Proof. revert i k. induction out as [|x out IH]; intros [|i] [|k] H; simpl; auto; try lia. apply IH. lia. Qed.

Lemma interp_rows n t (a b : list R) : 0 < n ->
  map2 (fun x y => (INR n - INR t) * x / INR n + INR t * y / INR n)%R a b = between n t a b.
Proof.
  intros H. unfold between. apply map2_ext_in. intros x y _ _. field. apply not_0_INR. lia.
Qed.

Lemma fill_spec n t Xs Xt pairs : 0 < n -> forall idx out out', fill_steps n t Xs Xt idx pairs out = Ok out' -> idx <= length out ->
  idx + length pairs <= length out /\
  out' = firstn idx out ++ map (step_row n t Xs Xt) pairs ++ skipn (idx + length pairs) out /\
  Forall (fun p => fst p < length Xs /\ snd p < length Xt) pairs.
Proof.
  intros Hn. induction pairs as [|[i j] pairs IH]; intros idx out out' H Hi; cbn [fill_steps] in H.
  - injection H as <-. simpl. rewrite Nat.add_0_r, firstn_skipn. repeat split; auto.
  - apply bind_ok in H as (a & Ea & H). apply bind_ok in H as (b & Eb & H). apply bind_ok in H as (r & Er & H).
    destruct (Nat.ltb_spec idx (length out)) as [Hl|Hl]; [|discriminate].
    apply IH in H; [|rewrite RVecFacts.update_length; lia]. rewrite RVecFacts.update_length in H. destruct H as (H1 & H2 & H3).
    apply np_getrow_nth with (d := []) in Ea as [Hi1 ->]. apply np_getrow_nth with (d := []) in Eb as [Hj1 ->].
    apply np_map2_ok in Er as [_ ->]. rewrite interp_rows in H2 by auto.
    split; [simpl; lia|]. split.
    + rewrite H2, firstn_update, skipn_update by lia. rewrite <- app_assoc. simpl. now rewrite Nat.add_succ_r.
    + constructor; auto.
Qed.

Lemma fill_total n t Xs Xt w pairs : Forall (fun r => length r = w) Xs -> Forall (fun r => length r = w) Xt ->
  Forall (fun p => fst p < length Xs /\ snd p < length Xt) pairs ->
  forall idx out, idx + length pairs <= length out -> exists out', fill_steps n t Xs Xt idx pairs out = Ok out'.
Proof.
  intros Hs Ht. induction 1 as [|[i j] pairs [Hi Hj] F IH]; intros idx out L; cbn [fill_steps]; [eauto|]. cbn [fst snd] in *.
  unfold np_getrow. rewrite (nth_error_nth' Xs [] Hi), (nth_error_nth' Xt [] Hj). cbn [bind].
  rewrite Forall_forall in Hs, Ht. rewrite np_map2_eq by (rewrite Hs, Ht; auto; apply nth_In; auto). cbn [bind].
  simpl in L. destruct (Nat.ltb_spec idx (length out)); [|lia]. apply IH. rewrite RVecFacts.update_length. lia.
Qed.
Lemma fill_too_many n t Xs Xt w pairs : Forall (fun r => length r = w) Xs -> Forall (fun r => length r = w) Xt ->
  Forall (fun p => fst p < length Xs /\ snd p < length Xt) pairs ->
  forall idx out, idx <= length out -> length out < idx + length pairs -> fill_steps n t Xs Xt idx pairs out = Err IndexError.
Proof.
  intros Hs Ht. induction 1 as [|[i j] pairs [Hi Hj] F IH]; intros idx out L1 L; cbn [fill_steps]; [simpl in L; lia|]. cbn [fst snd] in *.
  unfold np_getrow. rewrite (nth_error_nth' Xs [] Hi), (nth_error_nth' Xt [] Hj). cbn [bind].
  rewrite Forall_forall in Hs, Ht. rewrite np_map2_eq by (rewrite Hs, Ht; auto; apply nth_In; auto). cbn [bind].
  simpl in L. destruct (Nat.ltb_spec idx (length out)); [|reflexivity]. apply IH; rewrite RVecFacts.update_length; lia.
Qed.

(** A step that does not raise: one row per kept pair, in row-major order of the pairs. *)
Lemma data_at_step_spec n t mi mask w Xs Xt D a b : 0 < n -> matrix a b mask -> (mi + 1 <= Z.of_nat (count (concat mask)))%Z ->
  data_at_step n t mi mask w Xs Xt = Ok D ->
  D = map (step_row n t Xs Xt) (set_pairs mask a b) /\ Z.of_nat (length (set_pairs mask a b)) = (mi + 1)%Z /\
  Forall (fun p => fst p < length Xs /\ snd p < length Xt) (set_pairs mask a b).
Proof.
  intros Hn M HC H. unfold data_at_step in H. destruct (Z.ltb_spec (mi + 1) 0) as [|P]; [discriminate|].
  pose proof (argwhere_length mask) as LA.
  apply fill_spec in H; [|auto|lia]. destruct H as (H1 & H2 & H3). rewrite repeat_length in H1.
  rewrite (argwhere_pairs a b) in * by auto.
  assert (Q : length (set_pairs mask a b) = Z.to_nat (mi + 1)) by lia. split; [|split; [lia|auto]].
  rewrite H2. cbn [firstn app Nat.add]. rewrite skipn_all2; [now rewrite app_nil_r|]. rewrite repeat_length. lia.
Qed.

Lemma between_end n (a b : list R) : 0 < n -> length a = length b -> between n n a b = b.
Proof.
  intros Hn. unfold between. revert b. induction a as [|x a IH]; intros [|y b] L; simpl in *; try lia; [reflexivity|].
  f_equal; [|apply IH; lia]. field. apply not_0_INR. lia.
Qed.

(** ** the loop *)
Section G.
  Context {Est : Type}.
  Variable fitE : nat -> list (list R) -> list val -> res Est.
  Variable predictE : Est -> list R -> val.

  Lemma loop_spec n mi0 mi mask w Xs Xt ys a b : 0 < n -> matrix a b mask -> (mi + 1 <= Z.of_nat (count (concat mask)))%Z ->
    let gen := fun t => map (step_row n t Xs Xt) (set_pairs mask a b) in
    forall k t0 cur e cur' e' data,
    cur = mi0 + 100 * t0 ->
    gradually_trained fitE predictE (fun t => mi0 + 100 * t) Xs ys gen t0 e ->
    gradual_loop Est fitE predictE (seq (S t0) k) n mi mask w Xs Xt cur e = Ok (cur', e', data) ->
    cur' = mi0 + 100 * (t0 + k) /\ gradually_trained fitE predictE (fun t => mi0 + 100 * t) Xs ys gen (t0 + k) e' /\
    map fst data = map gen (seq (S t0) k) /\ (0 < k -> Z.of_nat (length (set_pairs mask a b)) = (mi + 1)%Z).
  Proof.
    intros Hn M HC gen. induction k as [|k IH]; intros t0 cur e cur' e' data HM GT H; cbn [seq gradual_loop] in H.
    - injection H as <- <- <-. rewrite Nat.add_0_r. repeat split; auto. lia.
    - apply bind_ok in H as (D & HD & H). cbv zeta in H. apply bind_ok in H as (e1 & HF & H). apply bind_ok in H as (r & HR & H).
      destruct r as [[c2 e2] d2]. cbn [fst snd] in H. injection H as -> -> <-.
      destruct (data_at_step_spec n (S t0) mi mask w Xs Xt D a b Hn M HC HD) as (-> & LP & _).
      apply IH in HR; [|lia|].
      + destruct HR as (-> & GT' & MD & _). replace (t0 + S k) with (S t0 + k) by lia. repeat split; auto. simpl. now f_equal.
      + eapply gt_next; [exact GT|]. replace (mi0 + 100 * S t0) with (cur + 100) by lia. exact HF.
  Qed.

  Lemma gradual_loop_total n mi mask w Xs Xt a b : (forall c A l, exists e, fitE c A l = Ok e) ->
    Forall (fun r => length r = w) Xs -> Forall (fun r => length r = w) Xt -> matrix a b mask -> a = length Xs -> b = length Xt ->
    (0 <= mi + 1)%Z -> Z.of_nat (count (concat mask)) = (mi + 1)%Z ->
    forall steps cur e, exists r, gradual_loop Est fitE predictE steps n mi mask w Xs Xt cur e = Ok r.
  Proof.
    intros HF Hs Ht M Ea Eb P HC. induction steps as [|t steps IH]; intros cur e; cbn [gradual_loop]; [eauto|].
    assert (HD : exists D, data_at_step n t mi mask w Xs Xt = Ok D).
    { unfold data_at_step. destruct (Z.ltb_spec (mi + 1) 0); [lia|]. eapply fill_total; eauto.
      - rewrite (argwhere_pairs a b) by auto. apply Forall_forall. intros [i j] Hij. apply set_pairs_In in Hij. cbn. lia.
      - rewrite argwhere_length, repeat_length. lia. }
    destruct HD as [D ->]. cbn [bind]. destruct (HF (cur + 100) D (map (predictE e) D)) as [e1 ->]. cbn [bind].
    destruct (IH (cur + 100) e1) as [r ->]. cbn [bind]. eauto.
  Qed.
End G.

(** ** ties *)
Lemma insert_R_const c n : insert_R c (repeat c n) = repeat c (S n).
Proof. destruct n; simpl; [reflexivity|]. destruct (Rle_dec c c); [reflexivity|lra]. Qed.
Lemma np_sort_const c n : np_sort (repeat c n) = repeat c n.
Proof. induction n; simpl; [reflexivity|]. now rewrite IHn, insert_R_const. Qed.
Lemma concat_const {A} (c : A) n m : concat (repeat (repeat c m) n) = repeat c (n * m).
Proof. induction n; simpl; [reflexivity|]. rewrite IHn. now rewrite repeat_app. Qed.
Lemma const_matrix {A} (c : A) n m : matrix n m (repeat (repeat c m) n).
Proof. split; [apply repeat_length|]. apply Forall_forall. intros r Hr. apply repeat_spec in Hr. subst. apply repeat_length. Qed.
