(** Theorem C163, continued: scores and covariance estimates. *)
From Coq Require Import String List ZArith QArith Bool Arith Lia Reals Lra Permutation FunctionalExtensionality.
From Verif Require Import Np NpFacts Labels Spec SpecFacts UtilsModel UtilsSpec UtilsProofs UtilsProofs2 SelectModel
  RVec RVecFacts ReweightModel ReweightSpec ReweightProofs ReweightProofs2 ThmReweight MapModel MapSpec MapProofs ThmMap
  MetricsModel MetricsSpec MetricsProofs ThmMetrics LossProofs CovModel CovSpec CovProofs OrderSpec ThmOrder.
Import ListNotations.
Local Open Scope nat_scope.
Local Open Scope list_scope.

Lemma combine_split {A B} (E : list (A * B)) : combine (map fst E) (map snd E) = E.
Proof. induction E as [|[a b] E IH]; cbn; congruence. Qed.
Lemma kept_samples {A} p sd (D : list A) : length sd = length D -> combine (filter p sd) (rows_of p sd D) = filter (fun q => p (fst q)) (combine sd D).
Proof.
  unfold rows_of. revert D. induction sd as [|d sd IH]; intros [|x D] L; try discriminate; [reflexivity|]. cbn [combine filter fst snd map]. injection L as L.
  destruct (p d); cbn [map combine snd]; [f_equal|]; auto.
Qed.
Lemma filter_perm {A} (p : A -> bool) l l' : Permutation l l' -> Permutation (filter p l) (filter p l').
Proof.
  induction 1 as [|x l l' P IH|x y l|l l' l'' P1 IH1 P2 IH2]; cbn [filter]; auto.
  - destruct (p x); auto.
  - destruct (p x), (p y); auto. apply perm_swap.
  - etransitivity; eauto.
Qed.
Lemma same_nil {A} sd (X : list A) sd' X' : same_samples sd X sd' X' -> sd = [] <-> sd' = [].
Proof.
  intros S. pose proof (same_labels _ _ _ _ S) as P. split; intros ->; [apply Permutation_nil in P|apply Permutation_sym, Permutation_nil in P]; auto.
Qed.
Lemma np_map2_same {A B C} (f : A -> B -> C) u v : length u = length v -> np_map2 f u v = Ok (map2 f u v).
Proof. intros H. unfold np_map2. now rewrite H, Nat.eqb_refl. Qed.

(** A score computed from target rows, their labels and their domains. *)
Theorem C163_supervised : forall Row Lab sign (s : list (Z * (Row * Lab)) -> res R) (D D' : list (Row * Lab)) y y' sd sd',
  same_samples sd D sd' D' -> order_blind s -> length y = length D -> length y' = length D' -> sd <> [] ->
  let score := fun X l d => s (combine d (combine X l)) in
  supervised_score Row sign score (map fst D) y (SDArr sd) (map snd D) = supervised_score Row sign score (map fst D') y' (SDArr sd') (map snd D').
Proof.
  intros Row Lab sign s D D' y y' sd sd' S B Ly Ly' Ne score.
  assert (G : forall (D : list (Row * Lab)) y sd, sd <> [] -> length sd = length D -> length y = length D ->
    supervised_score Row sign score (map fst D) y (SDArr sd) (map snd D) = (v <- s (filter (fun q => is_target (fst q)) (combine sd D)) ;; Ok (sign * v)%R)).
  { clear. intros D y sd Ne L Ly. unfold supervised_score. rewrite target_part_given by (rewrite ?map_length; auto). cbn [bind].
    rewrite select_target by (rewrite map_length; auto). cbn [bind]. unfold score. rewrite rows_of_self, !rows_of_map, combine_split.
    now rewrite kept_samples. }
  rewrite !G; auto; try apply S.
  - now rewrite (B _ _ (filter_perm _ _ _ (proj2 (proj2 S)))).
  - intros E. apply Ne. now apply (same_nil _ _ _ _ S).
Qed.
Theorem C163_entropy : forall Row sign (p : Z * Row -> list R) (lp : option (Z * Row -> list logp)) (X X' : list Row) y y' sd sd',
  same_samples sd X sd' X' -> length y = length X -> length y' = length X' -> sd <> [] ->
  (forall f t, lp = Some f -> length (f t) = length (p t)) ->
  let pp := fun X d => Ok (map p (combine d X)) in
  let pl := option_map (fun f (X : list Row) (d : list Z) => Ok (map f (combine d X))) lp in
  (forall red, red = RMean \/ red = RSum -> entropy_score Row sign pp pl red X y (SDArr sd) = entropy_score Row sign pp pl red X' y' (SDArr sd')) /\
  exists M M', entropy_score Row sign pp pl RNone X y (SDArr sd) = Ok (SMat M) /\ entropy_score Row sign pp pl RNone X' y' (SDArr sd') = Ok (SMat M') /\ Permutation M M'.
Proof.
  intros Row sign p lp X X' y y' sd sd' S Ly Ly' Ne HL pp pl.
  set (e := fun t => map2 entropy_entry (p t) (match lp with Some f => f t | None => map (fun v => Fin (ln (v + / 10000000))%R) (p t) end)).
  assert (G : forall (X : list Row) y sd red, sd <> [] -> length sd = length X -> length y = length X ->
    let E := map e (filter (fun q => is_target (fst q)) (combine sd X)) in
    entropy_score Row sign pp pl red X y (SDArr sd) = Ok (match red with RNone => SMat (map (vscale sign) E) | RSum => SNum (sign * vsum (concat E))%R | RMean => SNum (sign * mean (concat E))%R end)).
  { clear - HL. intros X y sd red Ne L Ly E. unfold entropy_score. rewrite target_part_given by auto. cbn [bind]. rewrite rows_of_self. unfold pp. cbn [bind].
    rewrite kept_samples by auto. set (T := filter _ _) in *.
    assert (H : (lp0 <- match pl with Some f => f (rows_of is_target sd X) (filter is_target sd) | None => Ok (map (map (fun v => Fin (ln (v + / 10000000))%R)) (map p T)) end ;; np_map2_rows entropy_entry (map p T) lp0) = Ok E).
    { unfold pl. assert (Q : exists h, (forall t, length (h t) = length (p t)) /\ (forall t, e t = map2 entropy_entry (p t) (h t)) /\ match option_map (fun f (X : list Row) (d : list Z) => Ok (map f (combine d X))) lp with Some f => f (rows_of is_target sd X) (filter is_target sd) | None => Ok (map (map (fun v => Fin (ln (v + / 10000000))%R)) (map p T)) end = Ok (map h T)).
      { unfold e. destruct lp as [f|]; cbn [option_map].
        - exists f. split; [eauto|]. split; [auto|]. now rewrite kept_samples.
        - exists (fun t => map (fun v => Fin (ln (v + / 10000000))%R) (p t)). split; [intros; apply map_length|]. split; [auto|]. now rewrite map_map. }
      destruct Q as (h & Hl & He & ->). cbn [bind]. unfold np_map2_rows. rewrite np_map2_same by now rewrite !map_length. cbn [bind]. unfold E. clearbody T. clear - Hl He.
      induction T as [|t T IH]; [reflexivity|]. cbn [map map2 mapM]. rewrite np_map2_same by auto. cbn [bind]. rewrite IH. cbn [bind]. now rewrite He. }
    destruct (match pl with Some f => _ | None => _ end) as [l|]; [|discriminate]. cbn [bind] in H |- *. rewrite H. cbn [bind]. now destruct red. }
  assert (Ne' : sd' <> []) by (intros E; apply Ne; now apply (same_nil _ _ _ _ S)).
  assert (P : Permutation (map e (filter (fun q => is_target (fst q)) (combine sd X))) (map e (filter (fun q => is_target (fst q)) (combine sd' X')))).
  { apply Permutation_map, filter_perm, S. }
  assert (C : Permutation (concat (map e (filter (fun q => is_target (fst q)) (combine sd X)))) (concat (map e (filter (fun q => is_target (fst q)) (combine sd' X'))))).
  { revert P. generalize (map e (filter (fun q => is_target (fst q)) (combine sd X))) (map e (filter (fun q => is_target (fst q)) (combine sd' X'))). clear.
    induction 1 as [|x l l' P IH|x y l|l l' l'' P1 IH1 P2 IH2]; cbn [concat]; auto.
    - now apply Permutation_app_head.
    - rewrite !app_assoc. apply Permutation_app_tail, Permutation_app_comm.
    - etransitivity; eauto. }
  split.
  - intros red H. rewrite !G; auto; try apply S. do 2 f_equal. destruct H as [-> | ->]; [now rewrite (mean_perm _ _ C)|now rewrite (vsum_perm _ _ C)].
  - do 2 eexists. split; [rewrite (G X y sd RNone); auto; apply S|]. split; [rewrite (G X' y' sd' RNone); auto; apply S|]. now apply Permutation_map.
Qed.

(** ** SoftNeighborhoodDensity *)
Lemma negated_sum (q : R -> R) i : forall row k, k <= i < k + length row ->
  vsum (map q (map (fun jt : nat * R => if fst jt =? i then (- snd jt)%R else snd jt) (combine (seq k (length row)) row)))
  = (vsum (map q row) - q (nth (i - k) row 0%R) + q (- nth (i - k) row 0%R))%R.
Proof.
  assert (N : forall row k, i < k -> map (fun jt : nat * R => if fst jt =? i then (- snd jt)%R else snd jt) (combine (seq k (length row)) row) = row).
  { induction row as [|x row IH]; intros k H; [reflexivity|]. cbn [length seq combine map fst snd]. destruct (Nat.eqb_spec k i); [lia|]. f_equal. apply IH. lia. }
  induction row as [|x row IH]; intros k H; cbn [length] in H; [lia|]. cbn [length seq combine map fst snd vsum].
  destruct (Nat.eqb_spec k i) as [->|D].
  - rewrite Nat.sub_diag. cbn [nth]. rewrite N by lia. lra.
  - rewrite IH by lia. replace (i - k) with (S (i - S k)) by lia. cbn [nth]. lra.
Qed.
(** The entropy of the softened similarities of [r], written so that the order of [P] is seen not to matter. *)
Definition soft_entropy (s : list R -> list R -> R) (P : list (list R)) (r : list R) : R :=
  let Z := (vsum (map (fun r' => exp (s r r')) P) - exp (s r r) + exp (- s r r))%R in
  let q := fun t => (- (exp t / Z) * ln (exp t / Z))%R in
  (vsum (map (fun r' => q (s r r')) P) - q (s r r) + q (- s r r))%R.
Lemma soft_entropy_blind s r : order_blind (fun P => soft_entropy s P r).
Proof.
  intros P P' H. unfold soft_entropy. rewrite (vsum_perm _ _ (Permutation_map (fun r' => exp (s r r')) H)). cbv zeta.
  set (Zs := (vsum (map (fun r' => exp (s r r')) P') - exp (s r r) + exp (- s r r))%R). set (q := fun t => (- (exp t / Zs) * ln (exp t / Zs))%R). change (vsum (map (fun r' => q (s r r')) P) - q (s r r) + q (- s r r) = vsum (map (fun r' => q (s r r')) P') - q (s r r) + q (- s r r))%R.
  now rewrite (vsum_perm _ _ (Permutation_map (fun r' => q (s r r')) H)).
Qed.
Lemma snd_rows (s : list R -> list R -> R) P :
  map row_entropy (map softmax_row (negate_diag (map (fun r => map (s r) P) P))) = map (soft_entropy s P) P.
Proof.
  unfold negate_diag. rewrite !map_map. rewrite map_length.
  assert (G : forall Q A, P = A ++ Q ->
    map (fun ir : nat * list R => row_entropy (softmax_row (map (fun jt : nat * R => if fst jt =? fst ir then (- snd jt)%R else snd jt) (combine (seq 0 (length (snd ir))) (snd ir)))))
      (combine (seq (length A) (length Q)) (map (fun r => map (s r) P) Q)) = map (soft_entropy s P) Q).
  { induction Q as [|r Q IH]; intros A E; [reflexivity|]. cbn [length seq map combine]. f_equal.
    - cbn [fst snd]. set (row := map (s r) P). set (i := length A). set (z := map _ (combine _ row)).
      assert (Li : 0 <= i < 0 + length row) by (unfold row, i; rewrite map_length, E, app_length; cbn; lia).
      assert (Nz : z <> []) by (unfold z; intros H; apply map_eq_nil in H; destruct row; [cbn in Li; lia|discriminate]).
      assert (Ni : nth (i - 0) row 0%R = s r r).
      { rewrite Nat.sub_0_r. apply nth_error_nth. unfold row, i. rewrite nth_error_map, E, nth_error_app2, Nat.sub_diag by lia. reflexivity. }
      rewrite (proj1 (softmax_row_spec z Nz)). unfold row_entropy. rewrite map_map.
      assert (V : forall q, vsum (map q z) = (vsum (map q row) - q (s r r) + q (- s r r))%R).
      { intros q. unfold z. rewrite (negated_sum q i row 0 Li), Ni. reflexivity. }
      rewrite !V. unfold soft_entropy, row. rewrite !map_map. reflexivity.
    - specialize (IH (A ++ [r])). rewrite app_length in IH. cbn [length] in IH. rewrite Nat.add_1_r in IH. apply IH. now rewrite <- app_assoc. }
  apply (G P []). reflexivity.
Qed.
Theorem C163_soft_neighborhood : forall Row sign (p : Z * Row -> list R) T (X X' : list Row) y y' sd sd',
  same_samples sd X sd' X' -> length y = length X -> length y' = length X' -> sd <> [] ->
  let pp := fun X d => Ok (map p (combine d X)) in
  snd_score Row sign pp T X y (SDArr sd) = snd_score Row sign pp T X' y' (SDArr sd').
Proof.
  intros Row sign p T X X' y y' sd sd' S Ly Ly' Ne pp.
  assert (Ne' : sd' <> []) by (intros E; apply Ne; now apply (same_nil _ _ _ _ S)).
  unfold snd_score. rewrite !target_part_given by (auto; apply S). cbn [bind]. rewrite !rows_of_self. unfold pp. cbn [bind].
  rewrite !kept_samples by apply S. do 2 f_equal. set (s := fun r r' => (dot r r' / T)%R).
  set (L := filter _ (combine sd X)). set (L' := filter _ (combine sd' X')).
  assert (P : Permutation (map l2 (map p L)) (map l2 (map p L'))) by (apply Permutation_map, Permutation_map, filter_perm, S).
  change (mean (map row_entropy (map softmax_row (negate_diag (map (fun r => map (s r) (map l2 (map p L))) (map l2 (map p L)))))) =
          mean (map row_entropy (map softmax_row (negate_diag (map (fun r => map (s r) (map l2 (map p L'))) (map l2 (map p L'))))))).
  rewrite !snd_rows. apply mean_perm. rewrite (map_ext _ _ (fun r => soft_entropy_blind s r _ _ P)). now apply Permutation_map.
Qed.

(** ** ImportanceWeightedScorer *)
Theorem C163_importance : forall Row sign kde fexp (s : list (Z * (Row * val) * R) -> res R) (D D' : list (Row * val)) sd sd',
  same_samples sd D sd' D' -> sd <> [] -> order_blind kde -> (forall A e, kde A = Ok e -> on_each_row e) -> order_blind s ->
  let score := fun X y d w => s (combine (combine d (combine X y)) w) in
  importance_score Row sign kde fexp score (map fst D) (map snd D) (SDArr sd) = importance_score Row sign kde fexp score (map fst D') (map snd D') (SDArr sd').
Proof.
  intros Row sign kde fexp s D D' sd sd' S Ne BK HE BS score.
  assert (Ne' : sd' <> []) by (intros E; apply Ne; now apply (same_nil _ _ _ _ S)).
  assert (G : forall (D : list (Row * val)) sd, sd <> [] -> length sd = length D ->
    importance_score Row sign kde fexp score (map fst D) (map snd D) (SDArr sd) =
    (es <- kde (map fst (rows_of is_source sd D)) ;; et <- kde (map fst (rows_of is_target sd D)) ;;
     ws <- es (map fst (rows_of is_source sd D)) ;; wt <- et (map fst (rows_of is_source sd D)) ;; d <- np_map2 Rminus wt ws ;;
     v <- s (combine (filter (fun q => is_source (fst q)) (combine sd D)) (normalise_sum_or_uniform (map fexp d))) ;; Ok (sign * v)%R)).
  { clear. intros D sd Ne L. unfold importance_score. rewrite check_xy_total; rewrite ?map_length; auto.
    2:{ rewrite <- L. destruct sd; [easy|cbn; lia]. }
    cbn [bind eff_domain]. rewrite extract_source_ok by auto. cbn [bind].
    rewrite !select_target, !select_source by (rewrite ?map_length; auto). cbn [bind]. rewrite !rows_of_map.
    destruct (kde _) as [es|]; [|reflexivity]. cbn [bind]. destruct (kde _) as [et|]; [|reflexivity]. cbn [bind].
    destruct (es _) as [ws|]; [|reflexivity]. cbn [bind]. destruct (et _) as [wt|]; [|reflexivity]. cbn [bind].
    destruct (np_map2 _ _ _) as [d|]; [|reflexivity]. cbn [bind]. unfold score. rewrite rows_of_self, combine_split, kept_samples by auto. reflexivity. }
  rewrite !G by (auto; apply S). clear G.
  pose proof (same_rows is_source _ _ _ _ S) as Ps. pose proof (same_rows is_target _ _ _ _ S) as Pt.
  rewrite (BK _ _ (Permutation_map fst Ps)), (BK _ _ (Permutation_map fst Pt)).
  destruct (kde (map fst (rows_of is_source sd' D'))) as [es|] eqn:Es; [|reflexivity]. cbn [bind].
  destruct (kde (map fst (rows_of is_target sd' D'))) as [et|] eqn:Et; [|reflexivity]. cbn [bind].
  destruct (HE _ _ Es) as [a Ha]. destruct (HE _ _ Et) as [b Hb]. rewrite !Ha, !Hb. cbn [bind].
  rewrite !np_map2_same by now rewrite !map_length. cbn [bind]. rewrite !map2_map, !map_map.
  set (g := fun q : Row * val => fexp (b (fst q) - a (fst q))%R).
  set (F := filter (fun q : Z * (Row * val) => is_source (fst q)) (combine sd D)). set (F' := filter (fun q : Z * (Row * val) => is_source (fst q)) (combine sd' D')).
  assert (PF : Permutation F F') by (apply filter_perm, S).
  change (rows_of is_source sd D) with (map snd F). change (rows_of is_source sd' D') with (map snd F').
  assert (W : forall F : list (Z * (Row * val)), combine F (normalise_sum_or_uniform (map g (map snd F))) =
     map (fun q => (q, if Req_EM_T (vsum (map g (map snd F))) 0 then (1 / INR (length (map g (map snd F))))%R else (g (snd q) / vsum (map g (map snd F)))%R)) F).
  { clear. intros F. unfold normalise_sum_or_uniform, Reqb. set (w := map g (map snd F)).
    assert (C : forall (h : Z * (Row * val) -> R) (l : list (Z * (Row * val))), combine l (map h l) = map (fun q => (q, h q)) l) by (induction l; cbn; congruence).
    destruct (Req_EM_T (vsum w) 0); cbn [negb]; unfold w at 2; rewrite !map_map; apply C. }
  rewrite !W. assert (Q : Permutation (map g (map snd F)) (map g (map snd F'))) by (now apply Permutation_map, Permutation_map).
  rewrite (vsum_perm _ _ Q), (Permutation_length Q). now rewrite (BS _ _ (Permutation_map _ PF)).
Qed.

(** ** Covariance estimates: the rows of the data in another order. *)
Lemma msum_vsum n f : msum n f = vsum (map f (seq 0 n)).
Proof. induction n as [|n IH]; [reflexivity|]. rewrite seq_S, map_app, vsum_app. cbn. rewrite IH. lra. Qed.
Lemma msum_shuffled m (X X' : mat) (f : (nat -> R) -> R) : (forall u v, (forall j, u j = v j) -> f u = f v) -> shuffled m X X' -> msum m (fun i => f (X' i)) = msum m (fun i => f (X i)).
Proof.
  intros Hf (p & P & E). rewrite !msum_vsum. rewrite (map_ext _ (fun i => f (X (p i)))) by (intros; apply Hf, E).
  rewrite <- (map_map p (fun i => f (X i))). apply vsum_perm. now apply Permutation_map.
Qed.

Lemma col_mean_shuffled m X X' : shuffled m X X' -> col_mean m X' = col_mean m X.
Proof.
  intros S. apply functional_extensionality. intros j. unfold col_mean. f_equal.
  apply (msum_shuffled m X X' (fun u => u j)); auto.
Qed.
Lemma emp_cov_shuffled b m X X' : shuffled m X X' -> emp_cov b m X' = emp_cov b m X.
Proof.
  intros S. apply functional_extensionality. intros j. apply functional_extensionality. intros l. unfold emp_cov.
  rewrite (col_mean_shuffled m X X' S). f_equal. set (c := if b then _ else _).
  apply (msum_shuffled m X X' (fun u => (u j - c j) * (u l - c l))%R); auto. intros u v H. now rewrite !H.
Qed.
Theorem C163_covariance : forall lw n m X X' sh b, (forall n m X X', shuffled m X X' -> lw n m X' = lw n m X) -> shuffled m X X' ->
  estimate_covariance lw n m X' sh b = estimate_covariance lw n m X sh b.
Proof.
  intros lw n m X X' sh b HL S. destruct sh as [| |s|]; cbn [estimate_covariance]; [| | |reflexivity].
  - now rewrite (emp_cov_shuffled b m X X' S).
  - assert (SC : scale_ m X' = scale_ m X) by (apply functional_extensionality; intros j; unfold scale_; now rewrite (emp_cov_shuffled false m X X' S)).
    rewrite SC. assert (SS : shuffled m (standard_scaler (negb b) m X) (standard_scaler (negb b) m X')).
    { pose proof (col_mean_shuffled m X X' S) as C. destruct S as (p & P & E). exists p. split; [exact P|]. intros i j. unfold standard_scaler. rewrite SC, C, E. reflexivity. }
    unfold ledoit_wolf. rewrite (emp_cov_shuffled false m _ _ SS).
    assert (SCe : shuffled m (centred m (standard_scaler (negb b) m X)) (centred m (standard_scaler (negb b) m X'))).
    { pose proof (col_mean_shuffled m _ _ SS) as C. destruct SS as (p & P & E). exists p. split; [exact P|]. intros i j. unfold centred. rewrite C, E. reflexivity. }
    now rewrite (HL n m _ _ SCe).
  - now rewrite (emp_cov_shuffled b m X X' S).
Qed.
(** CORAL and the Gaussian reweighting adapter fit the same map and the same densities. *)
Theorem C163_moments_fit : forall lw eigh n ms mt Xs Xt Xs' Xt' reg b, (forall n m X X', shuffled m X X' -> lw n m X' = lw n m X) ->
  shuffled ms Xs Xs' -> shuffled mt Xt Xt' ->
  coral_fit lw eigh n ms mt Xs' Xt' reg b = coral_fit lw eigh n ms mt Xs Xt reg b /\
  gauss_fit lw n ms mt Xs' Xt' reg = gauss_fit lw n ms mt Xs Xt reg.
Proof.
  intros lw eigh n ms mt Xs Xt Xs' Xt' reg b HL Ss St. unfold coral_fit, gauss_fit.
  now rewrite !(C163_covariance lw n ms Xs Xs' _ _ HL Ss), !(C163_covariance lw n mt Xt Xt' _ _ HL St), (col_mean_shuffled _ _ _ Ss), (col_mean_shuffled _ _ _ St).
Qed.

(** Sources 1 and 3, targets -2 and -2, in two orders: a weight per sample that depends on the sample only. *)
Example C163_ex :
  same_samples [1; -2; 3; -2]%Z [2; 9; 4; 8]%R [-2; 3; -2; 1]%Z [8; 4; 9; 2]%R /\
  gaussian_weights R (fun x => x) (fun x => x * x)%R [2; 9; 4; 8]%R (SDArr [1; -2; 3; -2]%Z) = Ok [2; 0; 4; 0]%R /\
  gaussian_weights R (fun x => x) (fun x => x * x)%R [8; 4; 9; 2]%R (SDArr [-2; 3; -2; 1]%Z) = Ok [0; 4; 0; 2]%R /\
  shuffled 2 (fun i j => INR (i + j)) (fun i j => INR (1 - i + j)).
Proof.
  split; [|split; [|split]].
  - split; [reflexivity|]. split; [reflexivity|]. cbn [combine].
    apply (Permutation_trans (l' := [(-2, 8%R); (3, 4%R); (-2, 9%R); (1, 2%R)]%Z)); [|reflexivity].
    apply (Permutation_rev [(1, 2%R); (-2, 9%R); (3, 4%R); (-2, 8%R)]%Z).
  - unfold gaussian_weights. cbn. repeat f_equal; lra.
  - unfold gaussian_weights. cbn. repeat f_equal; lra.
  - exists (fun i => 1 - i). split; [cbn; apply perm_swap|]. intros i j. reflexivity.
Qed.
