(** Theorem C169: what the parameter random_state does. *)
From Coq Require Import List ZArith QArith Bool Arith Lia Sorting.Permutation Sorting.Sorted.
From Verif Require Import Np NpFacts Labels Spec SpecFacts UtilsModel UtilsSpec SelectModel SplitModel SplitSpec SplitProofs SplitProofs2 ThmSplit
  SeedModel SeedSpec.
Import ListNotations.
Local Open Scope nat_scope.

Section Seed.
  Variables G T : Type.
  Variable seeded : Z -> G.
  Variable permutation : nat -> G -> list nat * G.
  Variable choice_with : nat -> nat -> G -> list nat * G.
  Variable mode : list nat -> nat -> G -> list nat * G.
  Notation world := (world G T).
  Notation split := (split G T seeded permutation mode).
  Notation lodo_all := (lodo_all G T seeded permutation).
  Notation run := (run G T).
  Notation draw := (draw G T).
  Notation check_random_state := (check_random_state G seeded).

Definition bodies (body : nat -> world -> world) (i j : nat) (w : world) : world := fold_left (fun w i => body i w) (seq i j) w.

Lemma run_own {S} (one : G -> res S * G) k : forall g body i w body' i' w',
  fst (run one (Own g) body i k w) = fst (run one (Own g) body' i' k w').
Proof.
  induction k as [|k IH]; intros g body i w body' i' w'; [reflexivity|]. cbn [SeedModel.run SeedModel.draw].
  destruct (one g) as [[s|e] g']; [|reflexivity]. specialize (IH g' body (Datatypes.S i) (body i w) body' (Datatypes.S i') (body' i' w')).
  destruct (run one (Own g') body (Datatypes.S i) k (body i w)) as [y v], (run one (Own g') body' (Datatypes.S i') k (body' i' w')) as [y' v'].
  cbn [fst] in *. now subst.
Qed.
Lemma run_own_world {S} (one : G -> res S * G) k : forall g body i w, exists j, j <= k /\ snd (run one (Own g) body i k w) = bodies body i j w /\
  (forall l, fst (run one (Own g) body i k w) = Ok l -> j = k).
Proof.
  induction k as [|k IH]; intros g body i w; [exists 0; repeat split; lia|]. cbn [SeedModel.run SeedModel.draw].
  destruct (one g) as [[s|e] g'].
  - destruct (IH g' body (Datatypes.S i) (body i w)) as (j & L & E & O). exists (Datatypes.S j). split; [lia|].
    destruct (run one (Own g') body (Datatypes.S i) k (body i w)) as [y v]. cbn [fst snd] in *. split; [rewrite E; reflexivity|].
    intros l H. apply bind_ok in H as (l' & Hy & _). f_equal. now apply (O l').
  - exists 0. repeat split; [lia|discriminate].
Qed.

(** With an integer the splits are determined by the arguments: neither the generators of numpy and torch, nor earlier calls, nor what the
    caller does between two splits has an influence; and the generators are left as the caller leaves them. *)
Theorem C169_int_splits : forall c z n sd k body w,
  (forall body' w', fst (split c (RSInt z) n sd k body w) = fst (split c (RSInt z) n sd k body' w')) /\
  (exists j, j <= k /\ snd (split c (RSInt z) n sd k body w) = caller_only body j w) /\
  (forall l, fst (split c (RSInt z) n sd k body w) = Ok l -> snd (split c (RSInt z) n sd k body w) = caller_only body k w).
Proof.
  intros c z n sd k body w. unfold SeedModel.split. destruct (prepare G permutation mode c n sd) as [one|e].
  2:{ split; [reflexivity|]. split; [exists 0; split; [lia|reflexivity]|discriminate]. }
  cbn [SeedModel.check_random_state]. unfold RandomState. destruct ((0 <=? z) && (z <? 2 ^ 32))%Z.
  2:{ split; [reflexivity|]. split; [exists 0; split; [lia|reflexivity]|discriminate]. }
  split; [intros; apply run_own|]. destruct (run_own_world one k (seeded z) body 0 w) as (j & L & E & O). split.
  - exists j. split; [exact L|exact E].
  - intros l H. rewrite E. now rewrite (O l H).
Qed.

Lemma lodo_run_own (step : nat -> world -> res (list nat * list nat) * world) ds :
  (forall d w, snd (step d w) = w) -> (forall d w w', fst (step d w) = fst (step d w')) ->
  forall body i w, (forall body' i' w', fst (lodo_run G T step body i ds w) = fst (lodo_run G T step body' i' ds w')) /\
  exists j, snd (lodo_run G T step body i ds w) = bodies body i j w /\ (forall l, fst (lodo_run G T step body i ds w) = Ok l -> j = length l).
Proof.
  intros W F. induction ds as [|d ds IH]; intros body i w.
  - split; [reflexivity|]. exists 0. split; [reflexivity|]. intros l H. now injection H as <-.
  - cbn [lodo_run]. pose proof (W d w) as Wd. pose proof (F d w) as Fd. destruct (step d w) as [x v]. cbn [fst snd] in *. subst v. split.
    + intros body' i' w'. pose proof (W d w') as Wd'. specialize (Fd w'). destruct (step d w') as [x' v']. cbn [fst snd] in *. subst v' x'.
      destruct x as [s|e]; [|reflexivity]. pose proof (proj1 (IH body (S i) (body i w)) body' (S i') (body' i' w')) as E.
      destruct (lodo_run G T step body (S i) ds (body i w)) as [y v], (lodo_run G T step body' (S i') ds (body' i' w')) as [y' v']. cbn [fst] in *. now subst.
    + destruct x as [s|e]; [|exists 0; split; [reflexivity|discriminate]].
      destruct (IH body (S i) (body i w)) as (_ & j & E & O). exists (S j).
      destruct (lodo_run G T step body (S i) ds (body i w)) as [y v]. cbn [fst snd] in *. split; [exact E|].
      intros l H. apply bind_ok in H as (l' & Hy & H). injection H as <-. cbn [length]. f_equal. now apply O.
Qed.

Lemma lodo_step_own z sd doms ts tr d : (forall w, snd (lodo_step G T seeded permutation (RSInt z) sd doms ts tr d w) = w) /\
  (forall w w', fst (lodo_step G T seeded permutation (RSInt z) sd doms ts tr d w) = fst (lodo_step G T seeded permutation (RSInt z) sd doms ts tr d w')).
Proof.
  unfold lodo_step. cbn [SeedModel.check_random_state]. unfold RandomState.
  destruct (np_take (flatnonzero (lodo_mask doms d sd)) sd) as [ssd|]; cbn [bind]; [|split; reflexivity].
  destruct (check_X_domain _ _ _) as [sd2|]; cbn [bind]; [|split; reflexivity].
  destruct (sides sd2 ts tr) as [p|]; cbn [bind]; [|split; reflexivity].
  destruct ((0 <=? z) && (z <? 2 ^ 32))%Z; cbn [bind]; [|split; reflexivity].
  cbn [SeedModel.draw]. destruct (partition_one G permutation p (seeded z)) as [x g']. split; reflexivity.
Qed.

Theorem C169_int_leave_one_out : forall z n sd max_n_splits ts tr body w,
  let r := lodo_all (RSInt z) n sd max_n_splits ts tr body w in
  (forall body' w', fst r = fst (lodo_all (RSInt z) n sd max_n_splits ts tr body' w')) /\
  exists j, snd r = caller_only body j w /\ (forall l, fst r = Ok l -> j = length l).
Proof.
  intros z n sd mx ts tr body w r. unfold r, SeedModel.lodo_all. clear r.
  destruct (check_X_domain n sd all_flags) as [sd1|]; cbn [bind].
  2:{ split; [reflexivity|]. exists 0. split; [reflexivity|discriminate]. }
  cbn [SeedModel.check_random_state]. unfold RandomState. destruct ((0 <=? z) && (z <? 2 ^ 32))%Z; cbn [bind].
  2:{ split; [reflexivity|]. exists 0. split; [reflexivity|discriminate]. }
  cbn [SeedModel.draw]. destruct (permutation (length (lodo_domains sd1)) (seeded z)) as [dp g'].
  set (ds := if mx <? length (lodo_domains sd1) then firstn mx dp else dp).
  match goal with |- context [lodo_run _ _ ?s body 0 ds w] => set (step := s) end.
  assert (W : forall d w, snd (step d w) = w).
  { intros d v. unfold step. destruct (nth_error (lodo_domains sd1) d) as [dom|]; [apply lodo_step_own|reflexivity]. }
  assert (F : forall d w w', fst (step d w) = fst (step d w')).
  { intros d v v'. unfold step. destruct (nth_error (lodo_domains sd1) d) as [dom|]; [apply lodo_step_own|reflexivity]. }
  destruct (lodo_run_own step ds W F body 0 w) as (A & j & B & C). split; [intros; apply A|]. exists j. split; [exact B|exact C].
Qed.

(** Asking for more splits adds splits after the same first ones. *)
Lemma run_prefix {S} (one : G -> res S * G) k : forall k' r i i' w l, k <= k' -> fst (run one r idle i k' w) = Ok l -> fst (run one r idle i' k w) = Ok (firstn k l).
Proof.
  induction k as [|k IH]; intros k' r i i' w l L H; [reflexivity|]. destruct k' as [|k']; [lia|]. cbn [SeedModel.run] in *. unfold idle in *.
  destruct (draw one r w) as [[[s|e] r'] w']; [|discriminate H].
  destruct (run one r' (fun _ v => v) (Datatypes.S i) k' w') as [y v] eqn:E. cbn [fst] in H. apply bind_ok in H as (l' & Hy & H). injection H as <-. subst y.
  assert (Q := IH k' r' (Datatypes.S i) (Datatypes.S i') w' l' ltac:(lia)). unfold idle in Q. rewrite E in Q. specialize (Q eq_refl).
  destruct (run one r' (fun _ v => v) (Datatypes.S i') k w') as [y v']. cbn [fst] in *. subst y. reflexivity.
Qed.
Theorem C169_more_splits : forall c rs n sd k k' w l, k <= k' -> fst (split c rs n sd k' idle w) = Ok l -> fst (split c rs n sd k idle w) = Ok (firstn k l).
Proof.
  intros c rs n sd k k' w l L. unfold SeedModel.split. destruct (prepare G permutation mode c n sd) as [one|e]; [|discriminate].
  destruct (check_random_state rs) as [r|]; [|discriminate]. intros H. now apply (run_prefix one k k' r 0).
Qed.
Lemma lodo_run_app step ds1 : forall ds2 i w l, fst (lodo_run G T step idle i (ds1 ++ ds2) w) = Ok l ->
  fst (lodo_run G T step idle i ds1 w) = Ok (firstn (length ds1) l).
Proof.
  induction ds1 as [|d ds1 IH]; intros ds2 i w l H; [reflexivity|]. cbn [app lodo_run length] in *. unfold idle in *.
  destruct (step d w) as [[s|e] w']; [|discriminate H].
  destruct (lodo_run G T step (fun _ v => v) (S i) (ds1 ++ ds2) w') as [y v] eqn:E. cbn [fst] in H. apply bind_ok in H as (l' & Hy & H). injection H as <-. subst y.
  assert (Q := IH ds2 (S i) w' l'). rewrite E in Q. specialize (Q eq_refl).
  destruct (lodo_run G T step (fun _ v => v) (S i) ds1 w') as [y v']. cbn [fst] in *. subst y. reflexivity.
Qed.
Lemma lodo_run_length step ds : forall i w l, fst (lodo_run G T step idle i ds w) = Ok l -> length l = length ds.
Proof.
  induction ds as [|d ds IH]; intros i w l H; [now injection H as <-|]. cbn [lodo_run] in H. unfold idle in *.
  destruct (step d w) as [[s|e] w']; [|discriminate H].
  destruct (lodo_run G T step (fun _ v => v) (S i) ds w') as [y v] eqn:E. cbn [fst] in H. apply bind_ok in H as (l' & Hy & H). injection H as <-. subst y.
  cbn [length]. f_equal. apply (IH (S i) w' l'). now rewrite E.
Qed.
Lemma perm_length n p : is_perm n p -> length p = n.
Proof. intros H. rewrite (Permutation_length H). apply seq_length. Qed.
Lemma firstn_if {A} m n (x : list A) : length x = n -> (if m <? n then firstn m x else x) = firstn m x.
Proof. intros L. destruct (Nat.ltb_spec m n); [reflexivity|]. symmetry. apply firstn_all2. lia. Qed.
Lemma draw_value {A} (p : G -> A * G) r w : exists g, fst (fst (draw p r w)) = fst (p g).
Proof.
  destruct r as [|i|g]; cbn [SeedModel.draw]; [exists (w_global _ _ w)|exists (w_instance _ _ w i)|exists g];
    match goal with |- context [p ?x] => destruct (p x) end; reflexivity.
Qed.
Theorem C169_more_domains : forall rs n sd m m' ts tr w l, lawful_permutation permutation -> m <= m' ->
  fst (lodo_all rs n sd m' ts tr idle w) = Ok l -> fst (lodo_all rs n sd m ts tr idle w) = Ok (firstn m l).
Proof.
  intros rs n sd m m' ts tr w l LP L. unfold SeedModel.lodo_all. destruct (check_X_domain n sd all_flags) as [sd1|]; cbn [bind]; [|discriminate].
  destruct (check_random_state rs) as [r|]; cbn [bind]; [|discriminate].
  destruct (draw_value (permutation (length (lodo_domains sd1))) r w) as (g & Eg). pose proof (LP (length (lodo_domains sd1)) g) as Lg. rewrite <- Eg in Lg.
  destruct (draw (permutation (length (lodo_domains sd1))) r w) as [[dp r'] w1]. cbn [fst] in Lg. apply perm_length in Lg.
  rewrite !firstn_if by exact Lg. match goal with |- context [lodo_run _ _ ?s _ _ _ _] => set (step := s) end.
  intros H. rewrite <- (firstn_skipn m (firstn m' dp)) in H. rewrite firstn_firstn, Nat.min_l in H by exact L.
  pose proof H as H0. apply lodo_run_app in H. rewrite H. f_equal. rewrite firstn_length.
  destruct (le_gt_dec m (length dp)); [f_equal; lia|]. apply lodo_run_length in H0.
  rewrite app_length, skipn_length, !firstn_length in H0. rewrite !firstn_all2 by lia. reflexivity.
Qed.

(** Without random_state, or with an instance, a call continues where the previous one stopped: two calls give the splits of one. *)
Lemma run_continue {S} (one : G -> res S * G) k1 : forall k2 r i w l1 w1, r = Global \/ (exists j, r = Instance j) ->
  run one r idle i k1 w = (Ok l1, w1) ->
  run one r idle i (k1 + k2) w = let (x, w2) := run one r idle (i + k1) k2 w1 in (l2 <- x ;; Ok (l1 ++ l2), w2).
Proof.
  induction k1 as [|k1 IH]; intros k2 r i w l1 w1 R H.
  - injection H as <- <-. rewrite Nat.add_0_r. cbn [Nat.add]. destruct (run one r idle i k2 w) as [[l|e] v]; reflexivity.
  - cbn [Nat.add SeedModel.run] in *. unfold idle in *.
    assert (RR : snd (fst (draw one r w)) = r).
    { destruct R as [->|[j ->]]; cbn [SeedModel.draw]; match goal with |- context [one ?x] => destruct (one x) end; reflexivity. }
    destruct (draw one r w) as [[[s|e] r'] w']; [|discriminate H]. cbn [fst snd] in RR. subst r'.
    destruct (run one r (fun _ v => v) (Datatypes.S i) k1 w') as [y v] eqn:E. destruct y as [l'|e]; [|discriminate H]. cbn [bind] in H. injection H as <- <-.
    rewrite (IH k2 r (Datatypes.S i) w' l' v R E). replace (i + Datatypes.S k1) with (Datatypes.S i + k1) by lia.
    destruct (run one r (fun _ v => v) (Datatypes.S i + k1) k2 v) as [[l2|e] v2]; reflexivity.
Qed.
Lemma run_index {S} (one : G -> res S * G) k : forall r i i' w, run one r idle i k w = run one r idle i' k w.
Proof.
  induction k as [|k IH]; intros r i i' w; [reflexivity|]. cbn [SeedModel.run]. unfold idle in *.
  destruct (draw one r w) as [[[s|e] r'] w']; [|reflexivity]. now rewrite (IH r' (Datatypes.S i) (Datatypes.S i')).
Qed.
Theorem C169_continue : forall c rs n sd k1 k2 w l1 w1, (forall z, rs <> RSInt z) ->
  split c rs n sd k1 idle w = (Ok l1, w1) ->
  split c rs n sd (k1 + k2) idle w = let (x, w2) := split c rs n sd k2 idle w1 in (l2 <- x ;; Ok (l1 ++ l2), w2).
Proof.
  intros c rs n sd k1 k2 w l1 w1 R. unfold SeedModel.split. destruct (prepare G permutation mode c n sd) as [one|e]; [|discriminate].
  destruct rs as [|z|i]; [|exfalso; now apply (R z)|]; cbn [SeedModel.check_random_state]; intros H;
    (erewrite run_continue; [|eauto|exact H]); now rewrite (run_index one k2 _ (0 + k1) 0).
Qed.

(** Seeding numpy's generator, or an instance, with z before the call has the effect of random_state = z. *)
Lemma run_state {S} (one : G -> res S * G) k : forall w g i i' w',
  (w_global _ _ w = g -> fst (run one Global idle i k w) = fst (run one (Own g) idle i' k w')) /\
  (forall j, w_instance _ _ w j = g -> fst (run one (Instance j) idle i k w) = fst (run one (Own g) idle i' k w')).
Proof.
  induction k as [|k IH]; intros w g i i' w'; [split; reflexivity|]. cbn [SeedModel.run SeedModel.draw]. split; [intros E|intros j E]; rewrite E;
    (destruct (one g) as [[s|e] g']; [|reflexivity]); unfold idle in *.
  - pose proof (proj1 (IH (mkWorld G T g' (w_instance _ _ w) (w_torch _ _ w)) g' (Datatypes.S i) (Datatypes.S i') w') eq_refl) as Q.
    destruct (run one Global (fun _ v => v) _ k _) as [y v], (run one (Own g') (fun _ v => v) _ k _) as [y' v']. cbn [fst] in *. now subst.
  - pose proof (proj2 (IH (mkWorld G T (w_global _ _ w) (fun j' => if j' =? j then g' else w_instance _ _ w j') (w_torch _ _ w)) g' (Datatypes.S i) (Datatypes.S i') w') j) as Q.
    cbn [w_instance] in Q. rewrite Nat.eqb_refl in Q. specialize (Q eq_refl).
    destruct (run one (Instance j) (fun _ v => v) _ k _) as [y v], (run one (Own g') (fun _ v => v) _ k _) as [y' v']. cbn [fst] in *. now subst.
Qed.
Lemma valid_seed z : (0 <= z < 2 ^ 32)%Z -> ((0 <=? z) && (z <? 2 ^ 32))%Z = true.
Proof. intros H. apply andb_true_iff. split; [apply Z.leb_le|apply Z.ltb_lt]; lia. Qed.
Theorem C169_seeding_before : forall c n sd k, seed_transparent seeded (fun rs w => split c rs n sd k idle w).
Proof.
  intros c n sd k z w w' V. unfold SeedModel.split. destruct (prepare G permutation mode c n sd) as [one|e]; [|split; reflexivity].
  cbn [SeedModel.check_random_state]. unfold RandomState. rewrite (valid_seed z V). apply run_state.
Qed.

(** ** The functions that draw once *)
Notation once := (once G T seeded).
Lemma once_decides {A} (p : G -> res A * G) : seed_decides (once p).
Proof.
  intros z w w'. unfold SeedModel.once. cbn [SeedModel.check_random_state]. unfold RandomState. destruct ((0 <=? z) && (z <? 2 ^ 32))%Z; [|split; reflexivity].
  cbn [SeedModel.draw]. destruct (p (seeded z)). split; reflexivity.
Qed.
Lemma once_transparent {A} (p : G -> res A * G) : seed_transparent seeded (once p).
Proof.
  intros z w w' V. unfold SeedModel.once. cbn [SeedModel.check_random_state]. unfold RandomState. rewrite (valid_seed z V). cbn [SeedModel.draw].
  split; [intros ->|intros i ->]; destruct (p (seeded z)); reflexivity.
Qed.
Notation shuffle_arrays := (shuffle_arrays G T seeded permutation).
Notation mixval_pairs := (mixval_pairs G T seeded permutation).
Notation dev_parts := (dev_parts G T seeded permutation).
Notation subsampler_rows := (subsampler_rows G T seeded permutation).
Notation subspace_pcas := (subspace_pcas G T seeded).
Theorem C169_int_others : (forall A B (X : list A) (y : list B), seed_decides (shuffle_arrays X y)) /\ (forall n, seed_decides (mixval_pairs n)) /\
  (forall n, seed_decides (dev_parts n)) /\ (forall n ts, seed_decides (subsampler_rows n ts)) /\
  (forall Rows C (pca : Rows -> G -> res C * G) Xs Xt, seed_decides (subspace_pcas pca Xs Xt)).
Proof. repeat match goal with |- _ /\ _ => split end; intros; apply once_decides. Qed.
Theorem C169_seeding_before_others : (forall A B (X : list A) (y : list B), seed_transparent seeded (shuffle_arrays X y)) /\
  (forall n, seed_transparent seeded (mixval_pairs n)) /\ (forall n, seed_transparent seeded (dev_parts n)) /\
  (forall n ts, seed_transparent seeded (subsampler_rows n ts)) /\
  (forall Rows C (pca : Rows -> G -> res C * G) Xs Xt, seed_transparent seeded (subspace_pcas pca Xs Xt)).
Proof. repeat match goal with |- _ /\ _ => split end; intros; apply once_transparent. Qed.

(** KLIEP, whatever the optimisation computes: with an integer every gamma and every fold gets its centres from the same draws. *)
Section KLIEP.
  Variables Row Gamma Alpha : Type.
  Variable optim : Gamma -> list Row -> list Row -> list Row -> res Alpha.
  Variable lik : Gamma -> list (Alpha * list Row) -> res Q.
  Variable best : list (Gamma * Q) -> res Gamma.
  Notation wopt := (weights_optimization G T seeded choice_with Row Gamma Alpha optim).
  Lemma folds_decides nc gm Xs folds : seed_decides (on_folds G T seeded choice_with Row Gamma Alpha optim nc gm Xs folds).
  Proof.
    induction folds as [|f folds IH]; intros z w w'; [split; reflexivity|]. cbn [on_folds].
    destruct (once_decides (fun g => let (idx, g') := choice_with (length f) (Nat.min (length f) nc) g in
                     (centers <- np_take idx f ;; alpha <- optim gm Xs f centers ;; Ok (alpha, centers), g')) z w w') as [E1 E2].
    change (fst (wopt nc gm Xs f (RSInt z) w) = fst (wopt nc gm Xs f (RSInt z) w')) in E1. change (snd (wopt nc gm Xs f (RSInt z) w) = w) in E2.
    pose proof (proj2 (once_decides (fun g => let (idx, g') := choice_with (length f) (Nat.min (length f) nc) g in
                     (centers <- np_take idx f ;; alpha <- optim gm Xs f centers ;; Ok (alpha, centers), g')) z w' w)) as E3.
    change (snd (wopt nc gm Xs f (RSInt z) w') = w') in E3.
    destruct (wopt nc gm Xs f (RSInt z) w) as [x v], (wopt nc gm Xs f (RSInt z) w') as [x' v']. cbn [fst snd] in *. subst x' v v'.
    destruct x as [a|]; [|split; reflexivity]. destruct (IH z w w') as [F1 F2].
    destruct (on_folds _ _ _ _ _ _ _ _ nc gm Xs folds (RSInt z) w) as [y v], (on_folds _ _ _ _ _ _ _ _ nc gm Xs folds (RSInt z) w') as [y' v']. cbn [fst snd] in *. subst. split; reflexivity.
  Qed.
  Lemma gammas_decides nc gms Xs folds : seed_decides (on_gammas G T seeded choice_with Row Gamma Alpha optim lik nc gms Xs folds).
  Proof.
    induction gms as [|gm gms IH]; intros z w w'; [split; reflexivity|]. cbn [on_gammas].
    destruct (folds_decides nc gm Xs folds z w w') as [E1 E2]. pose proof (proj2 (folds_decides nc gm Xs folds z w' w)) as E3.
    destruct (on_folds _ _ _ _ _ _ _ _ nc gm Xs folds (RSInt z) w) as [x v], (on_folds _ _ _ _ _ _ _ _ nc gm Xs folds (RSInt z) w') as [x' v']. cbn [fst snd] in *. subst x' v v'.
    destruct (fits <- x ;; lik gm fits) as [q|]; [|split; reflexivity]. destruct (IH z w w') as [F1 F2].
    destruct (on_gammas _ _ _ _ _ _ _ _ _ nc gms Xs folds (RSInt z) w) as [y v], (on_gammas _ _ _ _ _ _ _ _ _ nc gms Xs folds (RSInt z) w') as [y' v']. cbn [fst snd] in *. subst. split; reflexivity.
  Qed.
  Notation fit := (kliep_fit_seeded G T seeded permutation choice_with Row Gamma Alpha optim lik best).
Theorem C169_int_kliep : forall n_centers gamma Xs Xt folds, seed_decides (fit n_centers gamma Xs Xt folds).
  Proof.
    intros nc gamma Xs Xt folds z w w'. unfold kliep_fit_seeded.
    assert (K : forall c c' : res Gamma * world, fst c = fst c' -> snd c = w -> snd c' = w' ->
      fst (match fst c with Err e => (Err e, snd c) | Ok gm => let (y, w3) := wopt nc gm Xs Xt (RSInt z) (snd c) in (a <- y ;; Ok (gm, a), w3) end) =
      fst (match fst c' with Err e => (Err e, snd c') | Ok gm => let (y, w3) := wopt nc gm Xs Xt (RSInt z) (snd c') in (a <- y ;; Ok (gm, a), w3) end) /\
      snd (match fst c with Err e => (Err e, snd c) | Ok gm => let (y, w3) := wopt nc gm Xs Xt (RSInt z) (snd c) in (a <- y ;; Ok (gm, a), w3) end) = w).
    { intros [x v] [x' v'] E1 E2 E3. cbn [fst snd] in *. subst x' v v'. destruct x as [gm|]; [|split; reflexivity].
      destruct (folds_decides nc gm Xs [Xt] z w w') as [F1 F2]. cbn [on_folds] in F1, F2.
      destruct (wopt nc gm Xs Xt (RSInt z) w) as [y v], (wopt nc gm Xs Xt (RSInt z) w') as [y' v'].
      destruct y as [a|], y' as [a'|]; cbn [fst snd bind] in *; try discriminate; split; congruence. }
    destruct gamma as [gm|gms]; [now apply K|].
    destruct (once_decides (fun g => let (p, g') := permutation (length Xt) g in (Ok p, g')) z w w') as [E1 E2].
    pose proof (proj2 (once_decides (fun g => let (p, g') := permutation (length Xt) g in (Ok p, g')) z w' w)) as E3.
    destruct (once (fun g => let (p, g') := permutation (length Xt) g in (Ok p, g')) (RSInt z) w) as [x v], (once (fun g => let (p, g') := permutation (length Xt) g in (Ok p, g')) (RSInt z) w') as [x' v'].
    cbn [fst snd] in E1, E2, E3. subst x' v v'. destruct x as [p|]; [|now apply K].
    destruct (gammas_decides nc gms Xs folds z w w') as [F1 F2]. pose proof (proj2 (gammas_decides nc gms Xs folds z w' w)) as F3.
    destruct (on_gammas _ _ _ _ _ _ _ _ _ nc gms Xs folds (RSInt z) w) as [y v], (on_gammas _ _ _ _ _ _ _ _ _ nc gms Xs folds (RSInt z) w') as [y' v'].
    cbn [fst snd] in F1, F2, F3. subst y' v v'. now apply K.
  Qed.
End KLIEP.
End Seed.
