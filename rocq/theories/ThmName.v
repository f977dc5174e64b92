(** * C176: classes are names. Renaming the classes, keeping their order and the mask, renames the results and changes nothing else *)
From Coq Require Import String List ZArith QArith Bool Arith Lia Reals Lra.
From Verif Require Import Np NpFacts Labels UtilsModel SelectModel RVec MapModel SplitModel MetricsModel OTModel SelfModel RMat SubModel ThmOT.
Import ListNotations.
Local Open Scope nat_scope.
Local Open Scope list_scope.

(** ** Specification *)
(** A renaming of the classes that keeps their order. *)
Definition keeps_order (f : Z -> Z) : Prop := forall a b, (a < b -> f a < f b)%Z.
(** The same outcome up to [g]: the same exception, or the value renamed. *)
Definition renamed {A B} (g : A -> B) (r : res A) : res B := match r with Ok x => Ok (g x) | Err e => Err e end.
(** A class as a label. *)
Definition cls (z : Z) : val := VNum (inject_Z z).

(** ** Lemmas *)
Section F.
  Variable f : Z -> Z.
  Hypothesis Hf : keeps_order f.
  Lemma f_ltb a b : (f a <? f b)%Z = (a <? b)%Z.
  Proof.
    destruct (Z.ltb_spec a b) as [L|L]; [apply Z.ltb_lt; auto|]. apply Z.ltb_ge.
    destruct (Z.eq_dec a b) as [->|N]; [lia|]. pose proof (Hf b a ltac:(lia)). lia.
  Qed.
  Lemma f_eqb a b : (f a =? f b)%Z = (a =? b)%Z.
  Proof.
    destruct (Z.eqb_spec a b) as [->|N]; [apply Z.eqb_refl|]. apply Z.eqb_neq.
    destruct (Z.lt_total a b) as [L|[L|L]]; [pose proof (Hf _ _ L); lia|lia|pose proof (Hf _ _ L); lia].
  Qed.
  Lemma insert_uniq_map z l : insert_uniq (f z) (map f l) = map f (insert_uniq z l).
  Proof.
    induction l as [|h t IH]; [reflexivity|]. cbn [map insert_uniq]. rewrite f_ltb, f_eqb.
    destruct (z <? h)%Z; [reflexivity|]. destruct (z =? h)%Z; [reflexivity|]. cbn [map]. now rewrite IH.
  Qed.
  Lemma unique_map l : unique (map f l) = map f (unique l).
  Proof.
    induction l as [|h t IH]; [reflexivity|]. cbn [map]. unfold unique in *. cbn [fold_right]. rewrite IH. apply insert_uniq_map.
  Qed.
End F.

Lemma select_map {A B} (g : A -> B) : forall m l, select m (map g l) = map g (select m l).
Proof.
  induction m as [|b m IH]; intros [|x l]; try reflexivity. cbn [map select]. destruct b; cbn [map]; now rewrite IH.
Qed.
Lemma np_select_map {A B} (g : A -> B) m l : np_select m (map g l) = renamed (map g) (np_select m l).
Proof. unfold np_select. rewrite map_length. destruct (length m =? length l); [|reflexivity]. cbn. now rewrite select_map. Qed.
Lemma np_take_ren {A B} (g : A -> B) idx l : np_take idx (map g l) = renamed (map g) (np_take idx l).
Proof.
  unfold np_take. induction idx as [|i idx IH]; [reflexivity|]. cbn [mapM]. rewrite nth_error_map.
  destruct (nth_error l i) as [x|]; cbn [option_map bind]; [|reflexivity]. rewrite IH. clear IH.
  destruct (mapM _ idx); reflexivity.
Qed.
Lemma place_map {A B} (g : A -> B) : forall m v o, place m (map g v) (map g o) = map g (place m v o).
Proof.
  induction m as [|b m IH]; intros v [|x o]; try reflexivity. cbn [map place]. destruct b.
  - destruct v as [|w v]; cbn [map]; f_equal; [apply (IH [])|apply IH].
  - cbn [map]. f_equal. apply IH.
Qed.
Lemma map_repeat {A B} (g : A -> B) x n : map g (repeat x n) = repeat (g x) n.
Proof. induction n as [|n IH]; cbn; congruence. Qed.
Lemma np_setmask_ren {A B} (g : A -> B) m v o : np_setmask m (map g v) (map g o) = renamed (map g) (np_setmask m v o).
Proof.
  unfold np_setmask. rewrite !map_length. destruct (length m =? length o); [|reflexivity].
  destruct (length v =? count m); [cbn; now rewrite place_map|].
  destruct v as [|w [|w' v]]; [reflexivity| |reflexivity]. cbn [map renamed]. rewrite <- map_repeat. now rewrite place_map.
Qed.
Lemma split1_ren {A B} (g : A -> B) l sd :
  source_target_split [Some (map g l)] sd = renamed (map (option_map (map g))) (source_target_split [Some l] sd).
Proof.
  unfold source_target_split, split_gen. cbn [length Nat.eqb raise_if]. destruct (extract_source_indices sd) as [m|er]; [|reflexivity].
  cbn [bind mapM split_one]. rewrite !np_select_map.
  destruct (np_select m l) as [a|er]; cbn [renamed bind]; [|reflexivity].
  destruct (np_select (map negb m) l) as [b|er]; reflexivity.
Qed.
Lemma split1_shape {A} (l : list A) sd r : source_target_split [Some l] sd = Ok r -> exists a b, r = [Some a; Some b].
Proof.
  unfold source_target_split, split_gen. cbn [length Nat.eqb raise_if]. destruct (extract_source_indices sd) as [m|er]; [|discriminate].
  cbn [bind mapM split_one]. destruct (np_select m l) as [a|er]; cbn [bind]; [|discriminate].
  destruct (np_select (map negb m) l) as [b|er]; cbn [bind concat app]; [|discriminate]. intros H. inversion H. eauto.
Qed.

(** ** JDOTClassifier: the transported labels, the plan and the losses do not see the names; the final estimator is the one
    trained with the new names. [fit'], [pred']: the base estimator under the new names; [e]: its fitted form under the new names. *)
Section Jdot.
  Context {Est Est' Xrow : Type}.
  Variable solve : list (list R) -> list R -> list R -> res (list (list R) * R).
  Variable fit : list Xrow -> list Z -> list R -> res Est.
  Variable pred : Est -> list Xrow -> tgt_pred.
  Variable fit' : list Xrow -> list Z -> list R -> res Est'.
  Variable pred' : Est' -> list Xrow -> tgt_pred.
  Variable e : Est -> Est'.
  Variable f : Z -> Z.
  Hypothesis Hf : keeps_order f.
  Hypothesis Hfit : forall Xh yh wh, fit' Xh (map f yh) wh = renamed e (fit Xh yh wh).
  Hypothesis Hpred : forall est X, pred' (e est) X = pred est X.

  Lemma onehot_ren labels y : onehot (map f labels) (f y) = onehot labels y.
  Proof. unfold onehot. rewrite map_map. apply map_ext. intros c. now rewrite f_eqb. Qed.
  Lemma onehots_ren labels ys : map (onehot (map f labels)) (map f ys) = map (onehot labels) ys.
  Proof. rewrite map_map. apply map_ext. intros y. apply onehot_ren. Qed.
  Lemma jdot_data_ren Xt Yth labels thr : jdot_data (X := Xrow) Xt Yth (map f labels) thr =
    renamed (fun h => (fst (fst h), map f (snd (fst h)), snd h)) (jdot_data Xt Yth labels thr).
  Proof.
    unfold jdot_data. destruct (np_max (concat Yth)) as [mx|er]; [|reflexivity]. cbn [bind].
    rewrite <- map_repeat, <- concat_map. rewrite np_select_map.
    destruct (np_select _ (flat_map _ Xt)) as [a|er]; [|reflexivity]. cbn [bind].
    destruct (np_select _ (concat (repeat labels _))) as [b|er]; cbn [renamed bind]; [|reflexivity].
    destruct (np_select _ (concat Yth)) as [c|er]; reflexivity.
  Qed.
  Definition e_state (s : list (list R) * option (Est * list (list R))) : list (list R) * option (Est' * list (list R)) :=
    (fst s, option_map (fun et => (e (fst et), snd et)) (snd s)).
  Lemma cls_step_ren metric alpha thr Mf ys Xt a b i s :
    cls_step solve fit' pred' metric alpha thr Mf (map f ys) Xt a b i (e_state s) =
    renamed (fun r => (e_state (fst (fst r)), snd (fst r), snd r)) (cls_step solve fit pred metric alpha thr Mf ys Xt a b i s).
  Proof.
    unfold cls_step. rewrite unique_map by exact Hf. rewrite onehots_ren. cbn [e_state fst].
    destruct (solve _ a b) as [[T value]|er]; [|reflexivity]. cbn [bind]. rewrite map_length, jdot_data_ren.
    destruct (jdot_data Xt _ (unique ys) thr) as [[[Xh yh] wh]|er]; [|reflexivity]. cbn [renamed bind fst snd].
    rewrite Hfit. destruct (fit Xh yh wh) as [est|er]; [|reflexivity]. cbn [renamed bind]. rewrite !Hpred.
    destruct (class_cost metric _ (pred est Xt)) as [Ml'|er]; [|reflexivity]. cbn [bind]. rewrite onehots_ren.
    destruct (tgt_loss metric _ wh (pred est Xh)) as [l|er]; reflexivity.
  Qed.
  Lemma jdot_loop_ren {S S'} (step : nat -> S -> res (S * R * R)) (step' : nat -> S' -> res (S' * R * R)) (g : S -> S') tol nmax :
    (forall i s, step' i (g s) = renamed (fun r => (g (fst (fst r)), snd (fst r), snd r)) (step i s)) ->
    forall k i s pot plab, jdot_loop step' tol nmax k i (g s) pot plab =
      renamed (fun r => (g (fst (fst (fst r))), snd (fst (fst r)), snd (fst r), snd r)) (jdot_loop step tol nmax k i s pot plab).
  Proof.
    intros H. induction k as [|k IH]; intros i s pot plab; [reflexivity|]. cbn [jdot_loop]. rewrite H.
    destruct (step i s) as [[[s' lot] llab]|er]; [|reflexivity]. cbn [renamed bind fst snd].
    destruct (small_change tol lot pot); [reflexivity|]. destruct (small_change tol llab plab); [reflexivity|].
    destruct (i =? nmax - 1); [reflexivity|]. rewrite IH.
    destruct (jdot_loop step tol nmax k (Datatypes.S i) s' (Some lot) (Some llab)) as [[[[s'' x] y] w]|er]; reflexivity.
  Qed.
  Definition e_first {A} (r : Est * A) : Est' * A := (e (fst r), snd r).
  Lemma solve_ren metric alpha thr tol nmax dist ys Xt ws wt :
    solve_jdot_classification solve fit' pred' metric alpha thr tol nmax dist (map f ys) Xt ws wt =
    renamed (fun r => let '(est, lot, llab, T, w) := r in (e est, lot, llab, T, w))
            (solve_jdot_classification solve fit pred metric alpha thr tol nmax dist ys Xt ws wt).
  Proof.
    unfold solve_jdot_classification. rewrite map_length.
    change (initial_cost (length ys) (length Xt), @None (Est' * list (list R))) with (e_state (initial_cost (length ys) (length Xt), None)).
    rewrite (jdot_loop_ren _ _ e_state tol nmax (cls_step_ren metric alpha thr (norm_mean dist) ys Xt (marginal (length ys) ws) (marginal (length Xt) wt))).
    destruct (jdot_loop _ tol nmax nmax 0 _ None None) as [[[[s lot] llab] w]|er]; [|reflexivity]. cbn [renamed bind fst snd].
    destruct s as [Ml [[est T]|]]; reflexivity.
  Qed.
End Jdot.

Theorem C176_jdot : forall (Est Est' Xrow : Type) solve (fit : list Xrow -> list Z -> list R -> res Est) pred
    (fit' : list Xrow -> list Z -> list R -> res Est') pred' (e : Est -> Est') f dist metric alpha thr tol nmax, keeps_order f ->
  (forall Xh yh wh, fit' Xh (map f yh) wh = renamed e (fit Xh yh wh)) -> (forall est X, pred' (e est) X = pred est X) ->
  forall X y sw sd,
    jdot_fit (fun Xs ys Xt ws wt => solve_jdot_classification solve fit' pred' metric alpha thr tol nmax (dist Xs Xt) ys Xt ws wt) X (map f y) sw sd =
    renamed (fun r => let '(est, lot, llab, T, w) := r in (e est, lot, llab, T, w))
      (jdot_fit (fun Xs ys Xt ws wt => solve_jdot_classification solve fit pred metric alpha thr tol nmax (dist Xs Xt) ys Xt ws wt) X y sw sd).
Proof.
  intros Est Est' Xrow solve fit pred fit' pred' e f dist metric alpha thr tol nmax Hf H1 H2 X y sw sd. unfold jdot_fit. rewrite split1_ren.
  destruct (source_target_split [Some X] sd) as [px|er] eqn:Ex; [|reflexivity]. cbn [bind].
  destruct (source_target_split [Some y] sd) as [py|er] eqn:Ey; [|reflexivity]. cbn [renamed bind].
  destruct (split1_shape _ _ _ Ex) as (Xs & Xt & ->), (split1_shape _ _ _ Ey) as (ys & yt & ->).
  destruct (source_target_split [sw] sd) as [pw|er]; [|reflexivity]. cbn [bind map option_map].
  destruct pw as [|ws [|wt [|]]]; try reflexivity. apply (solve_ren solve fit pred fit' pred' e f Hf H1 H2).
Qed.

(** ** OTLabelPropAdapter: the labels given to the target samples are renamed. *)
Theorem C176_label_prop : forall (Xrow : Type) (plan : list Xrow -> list Xrow -> list R -> list R -> res (list (list R))) f,
  keeps_order f -> f (-1)%Z = (-1)%Z -> forall X y sw sd,
  otlp_discrete plan X (map f y) sw sd = renamed (map f) (otlp_discrete plan X y sw sd).
Proof.
  intros Xrow plan f Hf Hm X y sw sd. unfold otlp_discrete, otlp_parts. rewrite split1_ren.
  destruct (source_target_split [Some X] sd) as [px|er] eqn:Ex; [|reflexivity]. cbn [bind].
  destruct (source_target_split [Some y] sd) as [py|er] eqn:Ey; [|reflexivity]. cbn [renamed bind].
  destruct (split1_shape _ _ _ Ex) as (Xs & Xt & ->), (split1_shape _ _ _ Ey) as (ys & yt & ->).
  destruct (source_target_split [sw] sd) as [pw|er]; [|reflexivity]. cbn [bind map option_map].
  destruct pw as [|ws [|wt [|]]]; try reflexivity. cbn [bind].
  destruct (plan Xs Xt _ _) as [G|er]; [|reflexivity]. cbn [bind]. rewrite unique_map by exact Hf.
  assert (E : class_mass G (map f ys) (map f (unique ys)) (length Xt) = class_mass G ys (unique ys) (length Xt)).
  { unfold class_mass. apply map_ext. intros j. rewrite map_map. apply map_ext. intros c. f_equal. rewrite map_map. apply map_ext.
    intros z. now rewrite f_eqb. }
  rewrite E. destruct (mapM np_argmax _) as [idx|er]; [|reflexivity]. cbn [bind]. rewrite np_take_ren.
  destruct (np_take idx (unique ys)) as [yht|er]; [|reflexivity]. cbn [renamed bind]. rewrite map_length, <- Hm at 1.
  rewrite <- (map_repeat f). apply np_setmask_ren.
Qed.

(** ** TransferSubspaceLearning: the objective given to the optimiser is the same function. *)
Lemma f_eqb_if f (Hf : keeps_order f) a b (x y : R) : (if (f a =? f b)%Z then x else y) = (if (a =? b)%Z then x else y).
Proof. now rewrite f_eqb. Qed.
Lemma n_in_ren f (Hf : keeps_order f) n ys c : n_in n (fun i => f (ys i)) (f c) = n_in n ys c.
Proof. unfold n_in. apply msum_ext. intros i _. now apply f_eqb_if. Qed.
Lemma scaled_means_ren f (Hf : keeps_order f) n ys X a j : a < length (unique (map ys (seq 0 n))) ->
  scaled_means n (fun i => f (ys i)) X a j = scaled_means n ys X a j.
Proof.
  intros La. unfold scaled_means, class_mean. rewrite <- (map_map ys f), unique_map by exact Hf.
  rewrite (nth_indep _ 0%Z (f 0%Z)) by now rewrite map_length. rewrite map_nth. rewrite n_in_ren by exact Hf.
  f_equal. f_equal. apply msum_ext. intros i _. now apply f_eqb_if.
Qed.
Lemma torch_cov_ext reg n d (X Y : mat) a b : (forall i j, i < n -> X i j = Y i j) -> torch_cov reg n d X a b = torch_cov reg n d Y a b.
Proof.
  intros H. assert (M : forall j, col_mean n X j = col_mean n Y j).
  { intros j. unfold col_mean. f_equal. apply msum_ext. intros i Hi. now apply H. }
  assert (C : forall u v, mmul n (mT (fun i j => X i j - col_mean n X j)%R) (fun i j => X i j - col_mean n X j)%R u v =
                          mmul n (mT (fun i j => Y i j - col_mean n Y j)%R) (fun i j => Y i j - col_mean n Y j)%R u v).
  { intros u v. unfold mmul, mT. apply msum_ext. intros i Hi. now rewrite !M, !H by exact Hi. }
  unfold torch_cov. rewrite C. f_equal. f_equal. f_equal. unfold mtrace. apply msum_ext. intros i _. now rewrite C.
Qed.
Lemma tr_form_ext d k W (S S' : mat) : (forall a b, S a b = S' a b) -> tr_form d k W S = tr_form d k W S'.
Proof.
  intros H. unfold tr_form, mtrace, mmul. apply msum_ext. intros i _. apply msum_ext. intros j _. f_equal. apply msum_ext. intros l _. now rewrite H.
Qed.
Lemma tsl_F_ren reg length_scale f (Hf : keeps_order f) b n d k W X ys :
  tsl_F reg length_scale b n d k W X (fun i => f (ys i)) = tsl_F reg length_scale b n d k W X ys.
Proof.
  unfold tsl_F. destruct b.
  - reflexivity.
  - f_equal. rewrite <- (map_map ys f), unique_map, map_length by exact Hf. apply tr_form_ext. intros a b. apply torch_cov_ext.
    intros i j Hi. now apply scaled_means_ren.
  - f_equal.
    assert (E : forall i j, lpp_E length_scale d X (fun i => f (ys i)) i j = lpp_E length_scale d X ys i j).
    { intros i j. unfold lpp_E. f_equal. now apply f_eqb_if. }
    assert (D : forall i j, lpp_DE length_scale n d X (fun i => f (ys i)) i j = lpp_DE length_scale n d X ys i j).
    { intros i j. unfold lpp_DE. rewrite E. f_equal. destruct (i =? j); [|reflexivity]. apply msum_ext. intros l _. apply E. }
    unfold mtrace, mmul. apply msum_ext. intros i _. apply msum_ext. intros j _. f_equal. apply msum_ext. intros l _. f_equal.
    apply msum_ext. intros q _. now rewrite D.
Qed.
Theorem C176_tsl : forall reg length_scale inv cholesky qr b mu ns nt d k Xs Xt ys f W, keeps_order f ->
  tsl_objective reg length_scale inv cholesky qr b mu ns nt d k Xs Xt (fun i => f (ys i)) W =
  tsl_objective reg length_scale inv cholesky qr b mu ns nt d k Xs Xt ys W.
Proof.
  intros reg length_scale inv cholesky qr b mu ns nt d k Xs Xt ys f W Hf. unfold tsl_objective. now rewrite tsl_F_ren.
Qed.

(** ** StratifiedDomainShuffleSplit: the same splits. *)
Lemma pair_lt_ren f (Hf : keeps_order f) a b : pair_ltb (f (fst a), snd a) (f (fst b), snd b) = pair_ltb a b.
Proof. unfold pair_ltb. cbn [fst snd]. now rewrite f_ltb, f_eqb. Qed.
Lemma pair_eq_ren f (Hf : keeps_order f) a b : pair_eqb (f (fst a), snd a) (f (fst b), snd b) = pair_eqb a b.
Proof. unfold pair_eqb. cbn [fst snd]. now rewrite f_eqb. Qed.
Lemma unique_pairs_ren f (Hf : keeps_order f) l :
  unique_pairs (map (fun p : Z * Z => (f (fst p), snd p)) l) = map (fun p : Z * Z => (f (fst p), snd p)) (unique_pairs l).
Proof.
  assert (I : forall z l, insert_pair (f (fst z), snd z) (map (fun p : Z * Z => (f (fst p), snd p)) l) =
                          map (fun p : Z * Z => (f (fst p), snd p)) (insert_pair z l)).
  { intros z l0. induction l0 as [|h t IH]; [reflexivity|]. cbn [map insert_pair]. rewrite pair_lt_ren, pair_eq_ren by exact Hf.
    destruct (pair_ltb z h); [reflexivity|]. destruct (pair_eqb z h); [reflexivity|]. cbn [map]. now rewrite IH. }
  unfold unique_pairs. induction l as [|h t IH]; [reflexivity|]. cbn [map fold_right]. rewrite IH. apply I.
Qed.
Lemma index_of_ren f (Hf : keeps_order f) z l :
  index_of (f (fst z), snd z) (map (fun p : Z * Z => (f (fst p), snd p)) l) = index_of z l.
Proof. induction l as [|h t IH]; [reflexivity|]. cbn [map index_of]. rewrite pair_eq_ren by exact Hf. now rewrite IH. Qed.
Lemma combine_ren {A} (f : Z -> Z) : forall (y : list Z) (sd : list A), combine (map f y) sd = map (fun p => (f (fst p), snd p)) (combine y sd).
Proof. induction y as [|a y IH]; intros [|d sd]; try reflexivity. cbn [map combine fst snd]. now rewrite IH. Qed.

Theorem C176_stratified_split : forall f y sd test_size train_size draws, keeps_order f ->
  stratified_domain_shuffle_split (map f y) sd test_size train_size draws = stratified_domain_shuffle_split y sd test_size train_size draws.
Proof.
  intros f y sd ts trs draws Hf. unfold stratified_domain_shuffle_split. rewrite map_length.
  destruct (check_X_domain (length y) sd all_flags) as [sd1|er]; [|reflexivity]. cbn [bind].
  destruct (validate_shuffle_split (length y) ts trs) as [[ntr nte]|er]; [|reflexivity]. cbn [bind].
  rewrite combine_ren, unique_pairs_ren by exact Hf. rewrite map_length.
  assert (E : map (fun r => index_of r (map (fun p : Z * Z => (f (fst p), snd p)) (unique_pairs (combine y sd1))))
                  (map (fun p : Z * Z => (f (fst p), snd p)) (combine y sd1))
            = map (fun r => index_of r (unique_pairs (combine y sd1))) (combine y sd1)).
  { rewrite map_map. apply map_ext. intros r. now apply index_of_ren. }
  now rewrite E.
Qed.

(** ** DASVMClassifier: the same samples are added and deleted; the two fitted estimators are those of the new names. *)
Lemma Qeq_bool_Z a b : Qeq_bool (inject_Z a) (inject_Z b) = (a =? b)%Z.
Proof.
  destruct (Z.eqb_spec a b) as [->|N]; [apply Qeq_bool_iff; reflexivity|].
  destruct (Qeq_bool (inject_Z a) (inject_Z b)) eqn:E; [|reflexivity]. apply Qeq_bool_iff in E. unfold Qeq, inject_Z in E. cbn in E. lia.
Qed.
Lemma Qle_bool_Z a b : Qle_bool (inject_Z a) (inject_Z b) = (a <=? b)%Z.
Proof. unfold Qle_bool, inject_Z. cbn [Qnum Qden]. now rewrite !Z.mul_1_r. Qed.
Lemma q_integral_Z z : q_integral (inject_Z z) = true.
Proof. unfold q_integral, inject_Z. cbn [Qnum Qden]. rewrite Z.rem_1_r. reflexivity. Qed.
Lemma f_leb f (Hf : keeps_order f) a b : (f a <=? f b)%Z = (a <=? b)%Z.
Proof. rewrite !Z.leb_antisym. now rewrite f_ltb. Qed.
Lemma concat_single {A} (l : list A) : concat (map (fun v => [v]) l) = l.
Proof. induction l; cbn; congruence. Qed.
Lemma type_cls l : find_y_type1 (map cls l) = match l with [] => Err IndexError | _ => Ok DISCRETE end.
Proof.
  unfold find_y_type1, find_y_type, arr1. cbn [a_rows a_tail]. rewrite concat_single.
  assert (N : existsb is_nan (map cls l) = false) by (induction l; cbn in *; auto).
  assert (I : existsb (fun v => negb (is_integral v)) (map cls l) = false).
  { induction l as [|z l IH]; [reflexivity|]. cbn [map existsb]. unfold cls at 1. cbn [is_integral]. rewrite q_integral_Z. apply IH. cbn in N. exact N. }
  rewrite N, I. destruct l; reflexivity.
Qed.
Lemma existsb_map {A B} (p : B -> bool) (g : A -> B) l : existsb p (map g l) = existsb (fun x => p (g x)) l.
Proof. induction l; cbn; congruence. Qed.
Lemma existsb_ext {A} (p q : A -> bool) l : (forall x, p x = q x) -> existsb p l = existsb q l.
Proof. intros H. induction l; cbn; congruence. Qed.
Section Labels.
  Variable f : Z -> Z.
  Hypothesis Hf : keeps_order f.
  Hypothesis Hm : f (-1)%Z = (-1)%Z.
  Lemma is_mask_ren z : val_eqb_q (cls (f z)) mask_cls_q = val_eqb_q (cls z) mask_cls_q.
  Proof. unfold val_eqb_q, cls, mask_cls_q. rewrite !Qeq_bool_Z. rewrite <- Hm at 1. now apply f_eqb. Qed.
  Lemma below_mask_ren z : val_ltb_q (cls (f z)) mask_cls_q = val_ltb_q (cls z) mask_cls_q.
  Proof. unfold val_ltb_q, cls, mask_cls_q. rewrite !Qle_bool_Z. rewrite <- Hm at 1. now rewrite f_leb. Qed.
  Lemma masking_ren l : check_y_masking (map cls (map f l)) = check_y_masking (map cls l).
  Proof.
    unfold check_y_masking. rewrite !type_cls. destruct l as [|z l]; [reflexivity|]. cbn [map bind].
    change (cls (f z) :: map cls (map f l)) with (map cls (map f (z :: l))). change (cls z :: map cls l) with (map cls (z :: l)).
    rewrite !existsb_map. rewrite (existsb_ext _ _ _ below_mask_ren), (existsb_ext _ _ _ is_mask_ren). reflexivity.
  Qed.
  Lemma check_ren n l sda fl : check_X_y_domain n (map cls (map f l)) sda true fl = check_X_y_domain n (map cls l) sda true fl.
  Proof.
    unfold check_X_y_domain. rewrite masking_ren, !map_length. destruct sda; try reflexivity.
    destruct (n =? 0); [reflexivity|]. destruct (length l =? 0); [reflexivity|]. cbn [negb andb].
    destruct (negb (n =? length l)); [reflexivity|]. destruct (f_auto fl); [|reflexivity].
    unfold check_y_masking. rewrite type_cls. destruct l as [|z l]; [reflexivity|]. cbn [bind].
    destruct (_ || _); [reflexivity|]. cbn [bind]. rewrite !map_map. erewrite map_ext by (intro; apply is_mask_ren). reflexivity.
  Qed.
End Labels.

Section Dasvm.
  Variable Row Est Est' : Type.
  Variable fitE : list Row -> list val -> res Est.
  Variable predictE : Est -> Row -> val.
  Variable decisionE : Est -> Row -> R.
  Variable fitE' : list Row -> list val -> res Est'.
  Variable predictE' : Est' -> Row -> val.
  Variable decisionE' : Est' -> Row -> R.
  Variable leqb : val -> val -> bool.
  Variable e : Est -> Est'.
  Variable g : val -> val.
  Hypothesis Hq : forall a b, leqb (g a) (g b) = leqb a b.
  Hypothesis Hfit : forall X y, fitE' X (map g y) = renamed e (fitE X y).
  Hypothesis Hpred : forall est x, predictE' (e est) x = g (predictE est x).
  Hypothesis Hdec : forall est x, decisionE' (e est) x = decisionE est x.

  Definition e_d (s : dstate Est) : dstate Est' := mkD Est' (e (d_est Est s)) (d_deleted Est s) (d_added Est s) (d_margin Est s).
  Definition e_f (s : fitted Est) : fitted Est' := mkFitted Est' (e (f_base Est s)) (e (f_final Est s)).
  Lemma get_X_y_ren est ad de Xs Xt ys : get_X_y Row Est' predictE' (e est) ad de Xs Xt (map g ys) =
    renamed (fun r => (fst r, map g (snd r))) (get_X_y Row Est predictE est ad de Xs Xt ys).
  Proof.
    unfold get_X_y. destruct (np_select (map negb de) Xs) as [xs|er]; [|reflexivity]. cbn [bind].
    destruct (np_select ad Xt) as [xt|er]; [|reflexivity]. cbn [bind]. rewrite np_select_map.
    destruct (np_select (map negb de) ys) as [ls|er]; [|reflexivity]. cbn [renamed bind fst snd]. rewrite map_app, map_map.
    now rewrite (map_ext _ _ (Hpred est)).
  Qed.
  Lemma get_decision_ren est X ind : get_decision Row Est' decisionE' (e est) X ind = get_decision Row Est decisionE est X ind.
  Proof.
    unfold get_decision. destruct (0 <? count (map negb ind)); [|reflexivity]. destruct (np_select (map negb ind) X) as [r|er]; [|reflexivity]. cbn [bind].
    now rewrite (map_ext _ _ (Hdec est)).
  Qed.
  Lemma unadd_ren a b Xt ad : unadd Row Est' predictE' leqb (e a) (e b) Xt ad = unadd Row Est predictE leqb a b Xt ad.
  Proof.
    unfold unadd. revert ad. induction Xt as [|x Xt IH]; intros [|t ad]; try reflexivity. cbn [map2]. rewrite IH, !Hpred, Hq. reflexivity.
  Qed.
  Lemma iter_ren k Xs Xt ys s : dasvm_iter Row Est' fitE' predictE' decisionE' leqb k Xs Xt (map g ys) (e_d s) =
    renamed e_d (dasvm_iter Row Est fitE predictE decisionE leqb k Xs Xt ys s).
  Proof.
    unfold dasvm_iter. cbn [e_d d_est d_added d_deleted d_margin]. rewrite get_X_y_ren.
    destruct (get_X_y Row Est predictE _ _ _ Xs Xt ys) as [[a b]|er]; [|reflexivity]. cbn [renamed bind fst snd]. rewrite Hfit.
    destruct (fitE a b) as [new|er]; [|reflexivity]. cbn [renamed bind]. rewrite unadd_ren, !get_decision_ren.
    destruct (get_decision Row Est decisionE new Xs _) as [ds|er]; [|reflexivity]. cbn [bind].
    destruct (get_decision Row Est decisionE new Xt _) as [dt|er]; [|reflexivity]. cbn [bind].
    destruct (find_points k _ (dec_cols ds) _) as [x|er]; [|reflexivity]. cbn [bind].
    destruct (in_margin dt) as [mg|er]; [|reflexivity]. cbn [bind].
    destruct (find_points k _ (dec_cols dt) mg) as [y|er]; reflexivity.
  Qed.
  Lemma loop_ren k Xs Xt ys : forall fuel s, dasvm_loop Row Est' fitE' predictE' decisionE' leqb fuel k Xs Xt (map g ys) (e_d s) =
    renamed e_d (dasvm_loop Row Est fitE predictE decisionE leqb fuel k Xs Xt ys s).
  Proof.
    induction fuel as [|fu IH]; intros s; [reflexivity|]. cbn [dasvm_loop]. cbn [e_d d_margin].
    destruct (count (d_margin Est s) =? 0); [reflexivity|]. change (mkD Est' (e (d_est Est s)) _ _ _) with (e_d s). rewrite iter_ren.
    destruct (dasvm_iter Row Est fitE predictE decisionE leqb k Xs Xt ys s) as [s'|er]; [|reflexivity]. cbn [renamed bind]. apply IH.
  Qed.
  Lemma first_ren k Xs Xt ys : dasvm_first Row Est' fitE' decisionE' k Xs Xt (map g ys) = renamed e_d (dasvm_first Row Est fitE decisionE k Xs Xt ys).
  Proof.
    unfold dasvm_first. rewrite Hfit. destruct (fitE Xs ys) as [e0|er]; [|reflexivity]. cbn [renamed bind].
    rewrite !(map_ext _ _ (Hdec e0)).
    destruct (find_points k (repeat false (length Xs)) _ _) as [x|er]; [|reflexivity]. cbn [bind].
    destruct (in_margin _) as [mg|er]; [|reflexivity]. cbn [bind].
    destruct (find_points k (repeat false (length Xt)) _ _) as [y|er]; reflexivity.
  Qed.
  Lemma core_ren k mi Xs Xt ys : dasvm_core Row Est' fitE' predictE' decisionE' leqb k mi Xs Xt (map g ys) =
    renamed e_f (dasvm_core Row Est fitE predictE decisionE leqb k mi Xs Xt ys).
  Proof.
    unfold dasvm_core. rewrite Hfit. destruct (fitE Xs ys) as [b|er]; [|reflexivity]. cbn [renamed bind]. rewrite first_ren.
    destruct (dasvm_first Row Est fitE decisionE k Xs Xt ys) as [s0|er]; [|reflexivity]. cbn [renamed bind]. rewrite loop_ren.
    destruct (dasvm_loop Row Est fitE predictE decisionE leqb (mi - 1) k Xs Xt ys s0) as [s|er]; [|reflexivity]. cbn [renamed bind].
    cbn [e_d d_est]. rewrite (map_ext _ _ (Hpred (d_est Est s))). rewrite <- (map_map (predictE (d_est Est s)) g), Hfit.
    destruct (fitE Xt _) as [fin|er]; reflexivity.
  Qed.
End Dasvm.

Theorem C176_dasvm : forall Row Est Est' (fitE : list Row -> list val -> res Est) predictE decisionE
    (fitE' : list Row -> list val -> res Est') predictE' decisionE' leqb (e : Est -> Est') f g,
  keeps_order f -> f (-1)%Z = (-1)%Z -> (forall z, g (cls z) = cls (f z)) -> (forall a b, leqb (g a) (g b) = leqb a b) ->
  (forall X y, fitE' X (map g y) = renamed e (fitE X y)) -> (forall est x, predictE' (e est) x = g (predictE est x)) ->
  (forall est x, decisionE' (e est) x = decisionE est x) ->
  forall k max_iter X y sda,
    dasvm_fit Row Est' fitE' predictE' decisionE' leqb k max_iter X (map cls (map f y)) sda =
      renamed (fun F => mkFitted Est' (e (f_base Est F)) (e (f_final Est F)))
              (dasvm_fit Row Est fitE predictE decisionE leqb k max_iter X (map cls y) sda) /\
    (forall F Xp, dasvm_predict Row Est' predictE' (mkFitted Est' (e (f_base Est F)) (e (f_final Est F))) Xp =
                  map g (dasvm_predict Row Est predictE F Xp)).
Proof.
  intros Row Est Est' fitE predictE decisionE fitE' predictE' decisionE' leqb e f g Hf Hm Hg Hq H1 H2 H3 k mi X y sda. split.
  - unfold dasvm_fit. rewrite check_ren by assumption.
    destruct (check_X_y_domain (length X) (map cls y) sda true all_flags) as [sd|er]; [|reflexivity]. cbn [bind].
    destruct (source_target_split [Some X] sd) as [px|er] eqn:Ex; [|reflexivity]. cbn [bind].
    assert (E : map cls (map f y) = map g (map cls y)) by (rewrite !map_map; apply map_ext; intros z; now rewrite Hg).
    rewrite E, split1_ren. destruct (source_target_split [Some (map cls y)] sd) as [py|er] eqn:Ey; [|reflexivity]. cbn [renamed bind].
    destruct (split1_shape _ _ _ Ex) as (Xs & Xt & ->), (split1_shape _ _ _ Ey) as (ys & yt & ->). cbn [map option_map].
    apply (core_ren Row Est Est' fitE predictE decisionE fitE' predictE' decisionE' leqb e g Hq H1 H2 H3).
  - intros F Xp. unfold dasvm_predict. rewrite map_map. apply map_ext. intros x. apply H2.
Qed.

(** ** MMDLSConSMapping: the fitted state is renamed and the transformed samples are the same. *)
Definition ls_renamed {Coef} (g : val -> val) (st : ls_state Coef) : ls_state Coef :=
  mkLS Coef (ls_X Coef st) (ls_W Coef st) (option_map (map g) (ls_classes Coef st)) (ls_G Coef st).
Theorem C176_mmdls : forall Coef app (czero : Coef) optimise optimise' rows_eqb nearest veqb g,
  (forall a b, veqb (g a) (g b) = veqb a b) ->
  (forall Xs Xt ys, optimise' Xs Xt (map g ys) = renamed (fun r => (fst (fst r), option_map (map g) (snd (fst r)), snd r)) (optimise Xs Xt ys)) ->
  (forall X y sda, ls_fit Coef optimise' X (map g y) sda = renamed (ls_renamed g) (ls_fit Coef optimise X y sda)) /\
  (forall allow st X y sda, ls_transform Coef app czero rows_eqb nearest veqb allow (ls_renamed g st) X (option_map (map g) y) sda =
                            ls_transform Coef app czero rows_eqb nearest veqb allow st X y sda).
Proof.
  intros Coef app czero opt opt' rows_eqb nearest veqb g Hq Ho. split.
  - intros X y sda. unfold ls_fit. destruct (check_X_domain (a_len X) sda (transform_flags true)) as [sd|er]; [|reflexivity]. cbn [bind].
    destruct (source_target_split [Some (a_rows X)] sd) as [px|er] eqn:Ex; [|reflexivity]. cbn [bind]. rewrite split1_ren.
    destruct (source_target_split [Some y] sd) as [py|er] eqn:Ey; [|reflexivity]. cbn [renamed bind].
    destruct (split1_shape _ _ _ Ex) as (Xs & Xt & ->), (split1_shape _ _ _ Ey) as (ys & yt & ->). cbn [map option_map].
    rewrite Ho. destruct (opt Xs Xt ys) as [[[w c] G]|er]; reflexivity.
  - intros allow st X y sda. unfold ls_transform. destruct (check_X_domain (a_len X) sda (transform_flags allow)) as [sd|er]; [|reflexivity]. cbn [bind].
    destruct (extract_source_indices sd) as [m|er]; [|reflexivity]. cbn [bind].
    destruct (np_select m (a_rows X)) as [Xs|er]; [|reflexivity]. cbn [bind].
    destruct (np_select (map negb m) (a_rows X)) as [Xt|er]; [|reflexivity]. cbn [bind].
    destruct (length Xs =? 0); [reflexivity|].
    assert (C : forall ys, ls_coefs Coef czero rows_eqb nearest veqb (ls_renamed g st) Xs (option_map (map g) ys) =
                           ls_coefs Coef czero rows_eqb nearest veqb st Xs ys).
    { intros ys. unfold ls_coefs, ls_renamed. cbn [ls_X ls_W ls_classes ls_G]. destruct (rows_eqb (ls_X Coef st) Xs); [reflexivity|].
      destruct (ls_classes Coef st) as [cl|]; [|reflexivity]. destruct ys as [l|]; [|reflexivity]. cbn [option_map]. f_equal.
      rewrite map_map. apply map_ext. intros c. unfold class_coef. generalize (ls_G Coef st) as G. induction cl as [|c0 cl IH]; intros [|k G]; try reflexivity.
      cbn [map combine find fst]. rewrite Hq. destruct (veqb c c0); [reflexivity|]. apply IH. }
    destruct y as [l|]; cbn [option_map].
    + rewrite np_select_map. destruct (np_select m l) as [ys|er]; [|reflexivity]. cbn [renamed bind].
      pose proof (C (Some ys)) as C'. cbn [option_map] in C'. now rewrite C'.
    + cbn [bind]. pose proof (C None) as C'. cbn [option_map] in C'. now rewrite C'.
Qed.

(** ** MixValScorer and CircularValidation: the same score. *)
Theorem C176_mixval : forall sign predict predict' scorer scorer' f, keeps_order f -> f (-1)%Z = (-1)%Z ->
  (forall X sd, predict' X sd = renamed (map f) (predict X sd)) -> (forall X y sd, scorer' X (map f y) sd = scorer X y sd) ->
  forall alpha ice perm X y sda,
    mixval_score sign predict' scorer' alpha ice perm X (map cls (map f y)) sda = mixval_score sign predict scorer alpha ice perm X (map cls y) sda.
Proof.
  intros sign predict predict' scorer scorer' f Hf Hm Hp Hs alpha ice perm X y sda. unfold mixval_score, target_part. rewrite check_ren by assumption.
  destruct (check_X_y_domain (length X) (map cls y) sda true all_flags) as [sd|er]; [|reflexivity]. cbn [bind].
  destruct (extract_source_indices sd) as [m|er]; [|reflexivity]. cbn [bind].
  destruct (np_select (map negb m) X) as [Xt|er]; [|reflexivity]. cbn [bind].
  destruct (np_select (map negb m) sd) as [sdt|er]; [|reflexivity]. cbn [bind]. rewrite !type_cls.
  destruct y as [|z y]; [reflexivity|]. cbn [map bind]. rewrite Hp.
  destruct (predict Xt sdt) as [la|er]; [|reflexivity]. cbn [renamed bind]. rewrite np_take_ren.
  destruct (np_take perm la) as [lb|er]; [|reflexivity]. cbn [renamed bind].
  assert (E : np_map2 Z.eqb (map f la) (map f lb) = np_map2 Z.eqb la lb).
  { unfold np_map2. rewrite !map_length. destruct (length la =? length lb); [|reflexivity]. f_equal. clear -Hf.
    revert lb. induction la as [|a la IH]; intros [|b lb]; try reflexivity. cbn [map map2]. now rewrite f_eqb, IH. }
  rewrite E. destruct (np_map2 Z.eqb la lb) as [eqs|er]; [|reflexivity]. cbn [bind].
  destruct (np_take perm Xt) as [Xp|er]; [|reflexivity]. cbn [bind].
  destruct (np_map2_rows _ Xt Xp) as [mix|er]; [|reflexivity]. cbn [bind].
  assert (P : forall idx l, mix_part scorer' idx mix (map f l) = mix_part scorer idx mix l).
  { intros [|i idx] l; [reflexivity|]. unfold mix_part. destruct (np_take (i :: idx) mix) as [a|er]; [|reflexivity]. cbn [bind].
    rewrite np_take_ren. destruct (np_take (i :: idx) l) as [b|er]; [|reflexivity]. cbn [renamed bind]. now rewrite Hs. }
  replace (if Rleb (1 / 2) alpha then map f la else map f lb) with (map f (if Rleb (1 / 2) alpha then la else lb)) by now destruct (Rleb (1 / 2) alpha).
  now rewrite !P.
Qed.

Section Circular.
  Variable f : Z -> Z.
  Hypothesis Hf : keeps_order f.
  Lemma cls_eqb a b : val_eqb (cls a) (cls b) = (a =? b)%Z.
  Proof. apply Qeq_bool_Z. Qed.
  Lemma cls_ltb a b : val_ltb (cls a) (cls b) = (a <? b)%Z.
  Proof. unfold val_ltb, cls. rewrite Qle_bool_Z. now rewrite Z.leb_antisym, negb_involutive. Qed.
  Lemma dedup_cls l : exists u, dedup (map cls l) = map cls u /\ dedup (map cls (map f l)) = map cls (map f u).
  Proof.
    induction l as [|z l (u & A & B)]; [exists []; now split|]. cbn [map dedup]. rewrite !existsb_map.
    rewrite (existsb_ext (fun x => val_eqb (cls (f z)) (cls (f x))) (fun x => val_eqb (cls z) (cls x))) by (intros x; rewrite !cls_eqb; now apply f_eqb).
    destruct (existsb _ l); [eauto|]. exists (z :: u). cbn [map]. now rewrite A, B.
  Qed.
  Lemma rank_ren l z : le_rank (map cls (map f l)) (cls (f z)) = le_rank (map cls l) (cls z).
  Proof.
    unfold le_rank. destruct (dedup_cls l) as (u & -> & ->). f_equal. induction u as [|x u IH]; [reflexivity|]. cbn [map filter].
    rewrite !cls_ltb, f_ltb by exact Hf. destruct (x <? z)%Z; cbn [length]; congruence.
  Qed.
  Lemma transform_ren l : le_transform (map cls (map f l)) = le_transform (map cls l).
  Proof.
    unfold le_transform.
    assert (H : forall k, map (fun v => VNum (inject_Z (le_rank (map cls (map f l)) v))) (map cls (map f k)) =
                          map (fun v => VNum (inject_Z (le_rank (map cls l) v))) (map cls k)).
    { induction k as [|z k IH]; [reflexivity|]. cbn [map]. now rewrite IH, rank_ren. }
    apply H.
  Qed.
  Lemma find_map {A B} (p : B -> bool) (g : A -> B) l : find p (map g l) = option_map g (find (fun x => p (g x)) l).
  Proof. induction l as [|x l IH]; [reflexivity|]. cbn. destruct (p (g x)); [reflexivity|apply IH]. Qed.
  Lemma find_ext {A} (p q : A -> bool) l : (forall x, p x = q x) -> find p l = find q l.
  Proof. intros H. induction l as [|x l IH]; [reflexivity|]. cbn. now rewrite H, IH. Qed.
  (** What the encoder gives back are classes, renamed. *)
  Lemma inverse_cls l r : exists u, mapM (le_inverse (map cls l)) r = renamed (map cls) u /\
                                     mapM (le_inverse (map cls (map f l))) r = renamed (fun q => map cls (map f q)) u.
  Proof.
    induction r as [|v r (u & A & B)]; [exists (Ok []); now split|]. cbn [mapM].
    assert (I : exists w, le_inverse (map cls l) v = renamed cls w /\ le_inverse (map cls (map f l)) v = renamed (fun q => cls (f q)) w).
    { unfold le_inverse. rewrite !find_map. rewrite (find_ext (fun x => val_eqb v (VNum (inject_Z (le_rank (map cls (map f l)) (cls (f x)))))) (fun x => val_eqb v (VNum (inject_Z (le_rank (map cls l) (cls x)))))) by (intros x; now rewrite rank_ren).
      destruct (find _ l) as [z|]; [exists (Ok z)|exists (Err ValueError)]; now split. }
    destruct I as (w & I1 & I2). rewrite I1, I2. destruct w as [w|er]; cbn [renamed bind]; [|now exists (Err er)].
    rewrite A, B. destruct u as [q|er]; cbn [renamed bind]; [now exists (Ok (w :: q))|now exists (Err er)].
  Qed.
End Circular.

Theorem C176_circular : forall Row sign predict fit_backward source_scorer f, keeps_order f -> f (-1)%Z = (-1)%Z ->
  (forall a b, source_scorer (map cls (map f a)) (map cls (map f b)) = source_scorer (map cls a) (map cls b)) ->
  forall dt (X : list Row) y sda,
    circular_score Row sign (fun Xt sd => renamed (fun z => map cls (map f z)) (predict Xt sd)) fit_backward source_scorer dt X (map cls (map f y)) sda =
    circular_score Row sign (fun Xt sd => renamed (map cls) (predict Xt sd)) fit_backward source_scorer dt X (map cls y) sda.
Proof.
  intros Row sign predict fitb sc f Hf Hm Hs dt X y sda. unfold circular_score, circular_backward, target_part. rewrite check_ren, masking_ren by assumption.
  destruct (check_X_y_domain (length X) (map cls y) sda true all_flags) as [sd|er]; [|reflexivity]. cbn [bind].
  destruct (extract_source_indices sd) as [m|er]; [|reflexivity]. cbn [bind].
  destruct (np_select (map negb m) X) as [Xt|er]; [|reflexivity]. cbn [bind].
  destruct (np_select (map negb m) sd) as [sdt|er]; [|reflexivity]. cbn [bind].
  destruct (check_y_masking (map cls y)) as [ty|er]; [|reflexivity]. cbn [bind].
  destruct (predict Xt sdt) as [yp|er]; [|reflexivity]. cbn [renamed bind].
  rewrite transform_ren by exact Hf.
  assert (L : length (dedup (map cls (map f yp))) = length (dedup (map cls yp))).
  { destruct (dedup_cls f Hf yp) as (u & -> & ->). now rewrite !map_length. }
  rewrite L. rewrite !(np_select_map cls), (np_select_map f). destruct (np_select m y) as [ys|er].
  - cbn [renamed bind]. destruct (length (dedup (map cls yp)) =? 1).
    + cbn [bind]. destruct yp as [|p yp]; [reflexivity|]. cbn [map]. rewrite !map_length. rewrite <- !map_repeat with (g := cls), <- map_repeat with (g := f). now rewrite Hs.
    + rewrite !type_cls. destruct ys as [|y0 ys]; [reflexivity|]. cbn [map bind]. rewrite !map_length.
      destruct (np_setmask _ _ _) as [b0|er]; [|reflexivity]. cbn [bind]. destruct (np_setmask_scalar m mask_cls b0) as [b1|er]; [|reflexivity]. cbn [bind].
      destruct (fitb (X, b1, map Z.opp sd)) as [gg|er]; [|reflexivity]. cbn [bind].
      destruct (np_select m X) as [Xs|er]; [|reflexivity]. cbn [bind]. destruct (np_select m (map Z.opp sd)) as [sds|er]; [|reflexivity]. cbn [bind].
      destruct (gg Xs sds) as [r|er]; [|reflexivity]. cbn [bind]. destruct (inverse_cls f Hf yp r) as (u & -> & ->).
      destruct u as [q|er]; [|reflexivity]. cbn [renamed bind].
      change (cls (f y0) :: map cls (map f ys)) with (map cls (map f (y0 :: ys))). change (cls y0 :: map cls ys) with (map cls (y0 :: ys)). now rewrite Hs.
  - cbn [renamed bind]. destruct (length (dedup (map cls yp)) =? 1); reflexivity.
Qed.

(** ** Concrete cases *)
(** Classes 0, 1, 2, ... renamed to 5, 15, 25, ...; the mask and what is below it are kept. *)
Definition tens (z : Z) : Z := if (z <? 0)%Z then z else (10 * z + 5)%Z.
Lemma tens_order : keeps_order tens.
Proof. intros a b L. unfold tens. destruct (Z.ltb_spec a 0), (Z.ltb_spec b 0); lia. Qed.
Example C176_ex_split : tens (-1) = (-1)%Z /\ map tens [0; 1; 1; 0; 0; 1; 1; 0]%Z = [5; 15; 15; 5; 5; 15; 15; 5]%Z /\
  let sd := SDArr [1; 1; 1; 1; -2; -2; -2; -2]%Z in
  let d := mkDraw [1; 1; 1; 1] [1; 1; 1; 1] [[0; 1]; [1; 0]; [0; 1]; [1; 0]] [0; 1; 2; 3] [3; 2; 1; 0] in
  stratified_domain_shuffle_split (map tens [0; 1; 1; 0; 0; 1; 1; 0]%Z) sd (SzInt 4) SzNone [d] =
  stratified_domain_shuffle_split [0; 1; 1; 0; 0; 1; 1; 0]%Z sd (SzInt 4) SzNone [d] /\
  exists r, stratified_domain_shuffle_split [0; 1; 1; 0; 0; 1; 1; 0]%Z sd (SzInt 4) SzNone [d] = Ok r.
Proof. repeat split; try (vm_compute; reflexivity). eexists. vm_compute. reflexivity. Qed.

(** A base estimator treating its classes as names: it keeps the sorted classes of its training labels and offers, for each
    sample, the sample as the probability of the first class. *)
Definition toy_fit (Xh : list R) (yh : list Z) (wh : list R) : res (list Z) := if length yh =? 0 then Err ValueError else Ok (unique yh).
Definition toy_pred (est : list Z) (X : list R) : tgt_pred := PProba (map (fun x => x :: repeat (1 - x)%R (length est - 1)) X).
Example C176_ex_jdot : forall solve metric alpha thr tol nmax dist X y sw sd,
    jdot_fit (fun Xs ys Xt ws wt => solve_jdot_classification solve toy_fit toy_pred metric alpha thr tol nmax (dist Xs Xt) ys Xt ws wt) X (map tens y) sw sd =
    renamed (fun r => let '(est, lot, llab, T, w) := r in (map tens est, lot, llab, T, w))
      (jdot_fit (fun Xs ys Xt ws wt => solve_jdot_classification solve toy_fit toy_pred metric alpha thr tol nmax (dist Xs Xt) ys Xt ws wt) X y sw sd).
Proof.
  intros. apply C176_jdot; [exact tens_order| |].
  - intros Xh yh wh. unfold toy_fit. rewrite map_length, unique_map by exact tens_order. now destruct (length yh =? 0).
  - intros est X0. unfold toy_pred. now rewrite map_length.
Qed.
(** The label propagation of C52_ex, classes 7 and 3 renamed to 75 and 35. *)
Example C176_ex_label_prop :
  otlp_discrete (fun (_ _ : list nat) _ _ => Ok [[1/3; 1/6]; [1/6; 1/3]]%R) [10; 20; 30; 40] (map tens [7; 0; 3; 0]%Z) None [1; -2; 1; -2]%Z
  = Ok [-1; 75; -1; 35]%Z.
Proof.
  destruct C52_ex as (out & E & ->). rewrite C176_label_prop; [|exact tens_order|reflexivity]. now rewrite E.
Qed.
