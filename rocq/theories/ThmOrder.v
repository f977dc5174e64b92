(** Theorem C163: the order of the samples does not matter. *)
From Coq Require Import String List ZArith QArith Bool Arith Lia Reals Lra Permutation.
From Verif Require Import Np NpFacts Labels Spec SpecFacts UtilsModel UtilsSpec UtilsProofs UtilsProofs2 SelectModel SelectSpec SelectProofs
  RVec RVecFacts ReweightModel ReweightSpec ReweightProofs ReweightProofs2 ThmReweight MapModel MapSpec MapProofs ThmMap
  MetricsModel MetricsSpec MetricsProofs ThmMetrics LossProofs CovModel CovSpec CovProofs OrderSpec.
Import ListNotations.
Local Open Scope nat_scope.
Local Open Scope list_scope.

Lemma same_rows {A} p sd (X : list A) sd' X' : same_samples sd X sd' X' -> Permutation (rows_of p sd X) (rows_of p sd' X').
Proof.
  intros (_ & _ & P). unfold rows_of. apply Permutation_map. revert P. generalize (combine sd X) (combine sd' X').
  induction 1 as [|x l l' P IH|x y l|l l' l'' P1 IH1 P2 IH2]; cbn [filter]; auto.
  - destruct (p (fst x)); auto.
  - destruct (p (fst x)), (p (fst y)); auto. apply perm_swap.
  - etransitivity; eauto.
Qed.
Lemma same_labels {A} sd (X : list A) sd' X' : same_samples sd X sd' X' -> Permutation sd sd'.
Proof.
  intros (L & L' & P). apply (Permutation_map fst) in P.
  assert (F : forall (s : list Z) (x : list A), length s = length x -> map fst (combine s x) = s).
  { clear. induction s as [|a s IH]; intros [|b x] H; cbn in *; try discriminate; auto. f_equal. apply IH. lia. }
  now rewrite !F in P.
Qed.
Lemma same_len {A} sd (X : list A) sd' X' : same_samples sd X sd' X' -> length X = length X'.
Proof. intros (L & L' & P). apply Permutation_length in P. rewrite !combine_length in P. lia. Qed.
Lemma same_rows_in {A} sd (X : list A) sd' X' : same_samples sd X sd' X' -> Permutation X X'.
Proof.
  intros (L & L' & P). apply (Permutation_map snd) in P.
  assert (F : forall (s : list Z) (x : list A), length s = length x -> map snd (combine s x) = x).
  { clear. induction s as [|a s IH]; intros [|b x] H; cbn in *; try discriminate; auto. f_equal. apply IH. lia. }
  now rewrite !F in P.
Qed.
Lemma same_sym {A} sd (X : list A) sd' X' : same_samples sd X sd' X' -> same_samples sd' X' sd X.
Proof. intros (L & L' & P). repeat split; auto. now symmetry. Qed.
(** Values computed sample by sample. *)
Lemma pointwise_values {A B} (g : Z * A -> B) sd X sd' X' : same_samples sd X sd' X' ->
  same_values sd X (map g (combine sd X)) sd' X' (map g (combine sd' X')).
Proof.
  intros (L & L' & P). split; [rewrite map_length, combine_length; lia|]. split; [rewrite map_length, combine_length; lia|].
  assert (F : forall l : list (Z * A), combine l (map g l) = map (fun t => (t, g t)) l) by (induction l; cbn; congruence).
  rewrite !F. now apply Permutation_map.
Qed.
(** Weights placed on the sources. *)
Lemma placed_weights {A} (g : A -> R) sd (X : list A) w : length sd = length X ->
  weights_at sd w (map g (rows_of is_source sd X)) -> w = map (fun t => if is_source (fst t) then g (snd t) else 0%R) (combine sd X).
Proof.
  unfold weights_at, rows_of. revert X w. induction sd as [|d sd IH]; intros [|x X] [|v w] L (Lw & Hs & Ht); cbn in *; try discriminate; auto.
  rewrite is_target_negb in Ht. destruct (is_source d) eqn:E; cbn in *.
  - injection Hs as -> Hs. f_equal. apply IH; auto.
  - apply Forall_cons_iff in Ht as [-> Ht]. f_equal. apply IH; auto.
Qed.
Lemma weights_same {A} (g : A -> R) sd (X : list A) sd' X' w w' : same_samples sd X sd' X' ->
  weights_at sd w (map g (rows_of is_source sd X)) -> weights_at sd' w' (map g (rows_of is_source sd' X')) ->
  same_values sd X w sd' X' w'.
Proof.
  intros S H H'. rewrite (placed_weights g sd X w), (placed_weights g sd' X' w'); auto; [now apply pointwise_values| |]; apply S.
Qed.
Lemma mean_perm l l' : Permutation l l' -> mean l = mean l'.
Proof. intros P. unfold mean. now rewrite (vsum_perm _ _ P), (Permutation_length P). Qed.


Lemma split_given Row (X : list Row) sd : length sd = length X ->
  rw_split Row X (SDArr sd) = match X with [] => Err ValueError | _ => Ok (rows_of is_source sd X, rows_of is_target sd X) end.
Proof.
  intros L. destruct X as [|x X]; [destruct sd; [reflexivity|discriminate]|].
  unfold rw_split. rewrite rw_check_total by (cbn; auto; lia). cbn [bind eff_domain].
  rewrite split_ok; auto; [discriminate|destruct sd; easy|intros xs [[= <-]|[]]; auto].
Qed.
Lemma skeleton_same Row (X X' : list Row) sd sd' (f : list Row -> res (list R)) (g : list Row -> Row -> R) w : same_samples sd X sd' X' ->
  order_blind g -> (forall A, f A = Ok (map (g A) A)) ->
  (sd <- rw_check Row X (SDArr sd) ;; si <- source_positions sd ;; Xs <- np_take si X ;; sw <- f Xs ;; place_weights (length X) si sw) = Ok w ->
  exists w', (sd <- rw_check Row X' (SDArr sd') ;; si <- source_positions sd ;; Xs <- np_take si X' ;; sw <- f Xs ;; place_weights (length X') si sw) = Ok w'
    /\ same_values sd X w sd' X' w'.
Proof.
  intros S B F H. pose proof (same_len _ _ _ _ S) as E.
  apply (skeleton X (SDArr sd) f) in H as (L & N & sw & Hs & Hw). cbn [eff_domain] in *.
  rewrite F in Hs. injection Hs as <-. specialize (Hw (map_length _ _)).
  destruct (skeleton_total X' (SDArr sd') f (map (g (rows_of is_source sd' X')) (rows_of is_source sd' X'))) as [w' Hw'].
  - rewrite <- E, <- L. destruct sd; [easy|cbn; lia].
  - cbn. apply S.
  - apply F.
  - apply map_length.
  - exists w'. split; [exact Hw'|]. apply (skeleton X' (SDArr sd') f) in Hw' as (_ & _ & sw' & Hs' & H'). cbn [eff_domain] in *.
    rewrite F in Hs'. injection Hs' as <-. specialize (H' (map_length _ _)).
    rewrite (B _ _ (same_rows is_source _ _ _ _ S)) in Hw. exact (weights_same _ _ _ _ _ _ _ S Hw H').
Qed.

Lemma matvec_kernel {Row} (kern : Row -> Row -> R) A ce al : length al = length ce ->
  np_matvec (kernel_matrix Row kern A ce) al = Ok (map (kernel_sum kern al ce) A).
Proof.
  intros L. rewrite <- kernel_matvec. unfold np_matvec, kernel_matrix, matvec. induction A as [|x A IH]; [reflexivity|].
  cbn [map mapM]. rewrite IH. unfold np_dot. rewrite map_length, L, Nat.eqb_refl. reflexivity.
Qed.

(** ** Reweighting adapters. The fitted model is the same ... *)
Theorem C163_density_fit : forall Row kde (X X' : list Row) sd sd', same_samples sd X sd' X' -> order_blind kde ->
  density_fit Row kde X (SDArr sd) = density_fit Row kde X' (SDArr sd').
Proof.
  intros Row kde X X' sd sd' S B. unfold density_fit. rewrite !split_given by apply S. pose proof (same_len _ _ _ _ S) as E.
  destruct X as [|x X], X' as [|x' X']; cbn in E; try discriminate; [reflexivity|]. cbn [bind fst snd].
  now rewrite (B _ _ (same_rows is_source _ _ _ _ S)), (B _ _ (same_rows is_target _ _ _ _ S)).
Qed.
Theorem C163_discriminator_fit : forall Row (clf : list (Row * Z) -> res (list Row -> res (list R))) (X X' : list Row) sd sd', same_samples sd X sd' X' -> order_blind clf ->
  disc_fit Row (fun X y => clf (combine X y)) X (SDArr sd) = disc_fit Row (fun X y => clf (combine X y)) X' (SDArr sd').
Proof.
  intros Row clf X X' sd sd' S B. pose proof (same_len _ _ _ _ S) as E.
  assert (G : forall (X : list Row) sd, length sd = length X -> disc_fit Row (fun X y => clf (combine X y)) X (SDArr sd) =
    match X with [] => Err ValueError | _ => clf (map (fun t => (snd t, if is_source (fst t) then 0%Z else 1%Z)) (combine sd X)) end).
  { clear. intros X sd L. destruct X as [|x X]; [destruct sd; [reflexivity|discriminate]|].
    unfold disc_fit. rewrite rw_check_total by (cbn; auto; lia). cbn [bind eff_domain].
    unfold disc_labels. rewrite source_positions_ok by (destruct sd; easy). cbn [bind]. rewrite np_setidx_flatnonzero.
    - cbn [bind]. f_equal. rewrite flatnonzero_length. revert L. generalize (x :: X). clear. unfold count.
      induction sd as [|d sd IH]; intros [|x X] L; try discriminate; [reflexivity|]. cbn [length] in L. injection L as L.
      cbn. destruct (is_source d); cbn; f_equal; now apply IH.
    - now rewrite map_length, repeat_length.
    - rewrite repeat_length. apply flatnonzero_length. }
  rewrite !G by apply S. destruct X as [|x X], X' as [|x' X']; cbn in E; try discriminate; [reflexivity|]. apply B, Permutation_map, S.
Qed.
(** ... and every sample receives the same weight. *)
Theorem C163_gaussian_weights : forall Row pdf_s pdf_t (X X' : list Row) sd sd' w, same_samples sd X sd' X' ->
  gaussian_weights Row pdf_s pdf_t X (SDArr sd) = Ok w ->
  exists w', gaussian_weights Row pdf_s pdf_t X' (SDArr sd') = Ok w' /\ same_values sd X w sd' X' w'.
Proof.
  intros Row ps pt X X' sd sd' w S H. unfold gaussian_weights in *.
  apply (skeleton_same Row X X' sd sd' (fun Xs => np_map2 Rdiv (map pt Xs) (map ps Xs)) (fun _ x => pt x / ps x)%R); auto.
  - intros l l' _. reflexivity.
  - intros A. unfold np_map2. rewrite !map_length, Nat.eqb_refl. f_equal. apply map2_map.
Qed.
Theorem C163_kliep_weights : forall Row kern alpha centers (X X' : list Row) sd sd' w, same_samples sd X sd' X' -> length alpha = length centers ->
  kliep_weights Row kern (alpha, centers) X (SDArr sd) = Ok w ->
  exists w', kliep_weights Row kern (alpha, centers) X' (SDArr sd') = Ok w' /\ same_values sd X w sd' X' w'.
Proof.
  intros Row kern al ce X X' sd sd' w S L H. unfold kliep_weights in *. cbn [fst snd] in *.
  apply (skeleton_same Row X X' sd sd' (fun Xs => np_matvec (kernel_matrix Row kern Xs ce) al) (fun _ => kernel_sum kern al ce)); auto.
  - intros l l' _. reflexivity.
  - intros A. apply matvec_kernel. exact L.
Qed.
Theorem C163_density_weights : forall Row fexp es et (X X' : list Row) sd sd' w, same_samples sd X sd' X' -> on_each_row es -> on_each_row et ->
  density_weights Row fexp (es, et) X (SDArr sd) = Ok w ->
  exists w', density_weights Row fexp (es, et) X' (SDArr sd') = Ok w' /\ same_values sd X w sd' X' w'.
Proof.
  intros Row fexp es et X X' sd sd' w S [a Ha] [b Hb] H.
  set (f := fun Xs : list Row => ws <- es Xs ;; wt <- et Xs ;; d <- np_map2 Rminus wt ws ;; Ok (normalise_or_uniform (map fexp d))).
  assert (EQ : forall X sd, density_weights Row fexp (es, et) X (SDArr sd) =
    (sd <- rw_check Row X (SDArr sd) ;; si <- source_positions sd ;; Xs <- np_take si X ;; sw <- f Xs ;; place_weights (length X) si sw)).
  { clear. intros X sda. unfold density_weights, f. cbn [fst snd]. destruct (rw_check Row X (SDArr sda)) as [sd'|]; [|reflexivity]. cbn [bind].
    destruct (source_positions sd') as [si|]; [|reflexivity]. cbn [bind]. destruct (np_take si X) as [Xs|]; [|reflexivity]. cbn [bind].
    destruct (es Xs); [|reflexivity]. cbn [bind]. destruct (et Xs); [|reflexivity]. cbn [bind]. destruct (np_map2 Rminus _ _); reflexivity. }
  rewrite EQ in H. rewrite EQ.
  apply (skeleton_same Row X X' sd sd' f (fun A x => let r := map (fun x => fexp (b x - a x)%R) A in
    if Req_EM_T (mean r) 0 then (1 / INR (length r))%R else (fexp (b x - a x) / mean r)%R)); auto.
  - intros l l' P. cbv zeta. pose proof (Permutation_map (fun x => fexp (b x - a x)%R) P) as Q. now rewrite (mean_perm _ _ Q), (Permutation_length Q).
  - intros A. unfold f. rewrite Ha, Hb. cbn [bind]. unfold np_map2. rewrite !map_length, Nat.eqb_refl. cbn [bind].
    rewrite map2_map, map_map. f_equal. cbv zeta. unfold normalise_or_uniform, Reqb. set (r := map (fun x => fexp (b x - a x)%R) A). destruct (Req_EM_T (mean r) 0); cbn [negb]; unfold r at 2; rewrite map_map; apply map_ext; intros; unfold r; rewrite ?map_length; reflexivity.
Qed.
Theorem C163_discriminator_weights : forall Row proba1 (X X' : list Row) sd sd' w, same_samples sd X sd' X' -> on_each_row proba1 ->
  disc_weights Row proba1 X (SDArr sd) = Ok w ->
  exists w', disc_weights Row proba1 X' (SDArr sd') = Ok w' /\ same_values sd X w sd' X' w'.
Proof.
  intros Row pr X X' sd sd' w S [a Ha] H.
  set (f := fun Xs : list Row => p <- pr Xs ;; let w := map (fun t => (1 - t) / t)%R (map (clip EPS 1) p) in Ok (map (fun t => t / mean w)%R w)).
  assert (EQ : forall X sd, disc_weights Row pr X (SDArr sd) =
    (sd <- rw_check Row X (SDArr sd) ;; si <- source_positions sd ;; Xs <- np_take si X ;; sw <- f Xs ;; place_weights (length X) si sw)).
  { clear. intros X sda. unfold disc_weights, f. destruct (rw_check Row X (SDArr sda)) as [sd'|]; [|reflexivity]. cbn [bind].
    destruct (source_positions sd') as [si|]; [|reflexivity]. cbn [bind]. destruct (np_take si X) as [Xs|]; [|reflexivity]. cbn [bind].
    destruct (pr Xs); reflexivity. }
  rewrite EQ in H. rewrite EQ. set (h := fun x => ((1 - clip EPS 1 (a x)) / clip EPS 1 (a x))%R).
  apply (skeleton_same Row X X' sd sd' f (fun A x => (h x / mean (map h A))%R)); auto.
  - intros l l' P. pose proof (Permutation_map h P) as Q. now rewrite (mean_perm _ _ Q).
  - intros A. unfold f. rewrite Ha. cbn [bind]. cbv zeta. f_equal. rewrite !map_map. reflexivity.
Qed.

(** ** Mapping and subspace adapters whose fitted maps act row by row. *)
Lemma by_side_same {B} (f g : list val -> B) sd (X : list (list val)) sd' X' : same_samples sd X sd' X' ->
  same_values sd X (by_side f g sd X) sd' X' (by_side f g sd' X').
Proof. intros S. unfold by_side. now apply (pointwise_values (fun p => if is_source (fst p) then f (snd p) else g (snd p))). Qed.
Lemma usable_same allow (X X' : arr) sd sd' : same_samples sd (a_rows X) sd' (a_rows X') -> usable allow (a_len X) (SDArr sd) -> usable allow (a_len X') (SDArr sd').
Proof.
  intros S (N & L & H). pose proof (same_len _ _ _ _ S) as E. unfold a_len in *. cbn [eff_domain] in *. split; [lia|]. split; [cbn; apply S|].
  intros A (d & Hd & Hs). apply (H A). exists d. split; [|exact Hs]. apply (Permutation_in _ (Permutation_sym (same_labels _ _ _ _ S)) Hd).
Qed.
Theorem C163_maps : forall allow (X X' : arr) sd sd' tl, same_samples sd (a_rows X) sd' (a_rows X') -> usable allow (a_len X) (SDArr sd) -> 0 < prod_tail tl ->
  (forall pca_s pca_t align f g h, row_by_row pca_s f tl -> row_by_row pca_t g tl -> row_by_row align h tl ->
     exists o o', sa_transform allow pca_s pca_t align X (SDArr sd) = Ok o /\ sa_transform allow pca_s pca_t align X' (SDArr sd') = Ok o'
       /\ same_values sd (a_rows X) (a_rows o) sd' (a_rows X') (a_rows o')) /\
  (forall dotW f, row_by_row dotW f tl ->
     exists o o', tsl_transform allow dotW X (SDArr sd) = Ok o /\ tsl_transform allow dotW X' (SDArr sd') = Ok o'
       /\ same_values sd (a_rows X) (a_rows o) sd' (a_rows X') (a_rows o')) /\
  (forall cs ct w c f g h k, row_by_row cs f tl -> row_by_row ct g tl -> row_by_row w h tl -> row_by_row c k tl ->
     exists o o', coral_transform allow false cs ct w c X (SDArr sd) = Ok o /\ coral_transform allow false cs ct w c X' (SDArr sd') = Ok o'
       /\ same_values sd (a_rows X) (a_rows o) sd' (a_rows X') (a_rows o')).
Proof.
  intros allow X X' sd sd' tl S U Htl. pose proof (usable_same _ _ _ _ _ S U) as U'.
  assert (G : forall fs ft f g, (forall a, 0 < a_len a -> fs a = Ok (mkArr DFloat tl (map f (a_rows a)))) -> (forall a, 0 < a_len a -> ft a = Ok (mkArr DFloat tl (map g (a_rows a)))) ->
    exists o o', split_map_merge allow fs ft X (SDArr sd) = Ok o /\ split_map_merge allow fs ft X' (SDArr sd') = Ok o' /\ same_values sd (a_rows X) (a_rows o) sd' (a_rows X') (a_rows o')).
  { intros fs ft f g Hf Hg. do 2 eexists. split; [apply (split_map_merge_rows allow fs ft X (SDArr sd) f g tl); auto|].
    split; [apply (split_map_merge_rows allow fs ft X' (SDArr sd') f g tl); auto|]. cbn [a_rows eff_domain]. now apply by_side_same. }
  split; [|split].
  - intros ps pt al f g h Hf Hg Hh. unfold sa_transform. apply (G _ _ (fun x => h (f x)) g); intros a _; [|apply Hg]. rewrite Hf. cbn [bind]. rewrite Hh. cbn [a_rows]. now rewrite map_map.
  - intros dotW f Hf. unfold tsl_transform. apply (G _ _ f f); intros a _; apply Hf.
  - intros cs ct w c f g h k Hf Hg Hh Hk. unfold coral_transform. apply (G _ _ (fun x => k (h (f x))) g); intros a _; [|apply Hg].
    rewrite Hf. cbn [bind]. rewrite Hh. cbn [bind]. rewrite Hk. cbn [a_rows]. now rewrite !map_map.
Qed.
(** New data through a fitted TCA or TJM. *)
Theorem C163_kernel_maps : forall Row kern (eqb : list Row -> list Row -> bool) V Xs Xt X X' sd sd' allow,
  (forall a b, eqb a b = true <-> a = b) -> same_samples sd X sd' X' -> usable allow (length X) (SDArr sd) ->
  (~ Permutation (rows_of is_source sd X) Xs \/ ~ Permutation (rows_of is_target sd X) Xt) ->
  exists o o', kernel_transform Row kern eqb allow Xs Xt V X (SDArr sd) = Ok o /\ kernel_transform Row kern eqb allow Xs Xt V X' (SDArr sd') = Ok o'
    /\ same_values sd X o sd' X' o'.
Proof.
  intros Row kern eqb V Xs Xt X X' sd sd' allow He S U N. pose proof (same_len _ _ _ _ S) as E.
  assert (U' : usable allow (length X') (SDArr sd')).
  { destruct U as (Hn & L & H). cbn [eff_domain] in *. split; [lia|]. split; [cbn; apply S|].
    intros A (d & Hd & Hs). apply (H A). exists d. split; [|exact Hs]. apply (Permutation_in _ (Permutation_sym (same_labels _ _ _ _ S)) Hd). }
  do 2 eexists. split; [apply C41_kernel_new_data; auto|]. { cbn [eff_domain]. destruct N as [N|N]; [left|right]; intros <-; apply N; reflexivity. }
  split; [apply C41_kernel_new_data; auto|]. { cbn [eff_domain]. destruct N as [N|N]; [left|right]; intros <-; apply N; apply same_rows; exact S. }
  assert (F : forall (s : list Z) (x : list Row), length s = length x -> map (kernel_image kern (Xs ++ Xt) V) x = map (fun t => kernel_image kern (Xs ++ Xt) V (snd t)) (combine s x)).
  { clear. induction s as [|a s IH]; intros [|b x] H; cbn in *; try discriminate; auto. f_equal. apply IH. lia. }
  rewrite (F sd X), (F sd' X') by apply S. now apply (pointwise_values (fun t => kernel_image kern (Xs ++ Xt) V (snd t))).
Qed.
Lemma nth_map_combine {A B} (g : Z * A -> B) : forall sd (X : list A) o, length sd = length X -> length o = length X ->
  (forall i d x, nth_error sd i = Some d -> nth_error X i = Some x -> nth_error o i = Some (g (d, x))) -> o = map g (combine sd X).
Proof.
  induction sd as [|d sd IH]; intros [|x X] [|v o] L L' H; cbn in *; try discriminate; auto.
  pose proof (H 0 d x eq_refl eq_refl) as H0. cbn in H0. injection H0 as ->. f_equal. apply IH; try lia. intros i. exact (H (S i)).
Qed.
Theorem C163_monge : forall mappings (X X' : arr) sd sd', same_samples sd (a_rows X) sd' (a_rows X') -> usable true (a_len X) (SDArr sd) ->
  a_dt X = DFloat -> a_dt X' = DFloat -> (forall d, In d sd -> exists f, dict_get Z.eqb d mappings = Some f) ->
  exists o o', mlm_transform mappings X (SDArr sd) = Ok o /\ mlm_transform mappings X' (SDArr sd') = Ok o' /\ same_values sd (a_rows X) (a_rows o) sd' (a_rows X') (a_rows o').
Proof.
  intros mappings X X' sd sd' S U D D' HM.
  set (g := fun t : Z * list val => match dict_get Z.eqb (fst t) mappings with Some f => f (snd t) | None => snd t end).
  assert (G : forall (X : arr) sd, usable true (a_len X) (SDArr sd) -> a_dt X = DFloat -> (forall d, In d sd -> exists f, dict_get Z.eqb d mappings = Some f) ->
    exists o, mlm_transform mappings X (SDArr sd) = Ok o /\ a_rows o = map g (combine sd (a_rows X))).
  { clear. intros X sd U D HM. destruct (C43_transform mappings X (SDArr sd) U D HM) as (o & E & L & H). exists o. split; [exact E|]. cbn [eff_domain] in H.
    apply nth_map_combine; [apply U|exact L|]. intros i d x Hd Hx. destruct (HM d (nth_error_In _ _ Hd)) as [f Hf]. unfold g. cbn [fst snd]. rewrite Hf. eapply H; eauto. }
  destruct (G X sd U D HM) as (o & E & R). destruct (G X' sd') as (o' & E' & R').
  - eapply usable_same; eauto.
  - exact D'.
  - intros d Hd. apply HM. apply (Permutation_in _ (Permutation_sym (same_labels _ _ _ _ S)) Hd).
  - exists o, o'. split; [exact E|]. split; [exact E'|]. rewrite R, R'. now apply pointwise_values.
Qed.

Lemma rows_determine {A} : forall sd (a b : list A), length a = length sd -> length b = length sd ->
  (forall d, In d sd -> rows_of (Z.eqb d) sd a = rows_of (Z.eqb d) sd b) -> a = b.
Proof.
  unfold rows_of. induction sd as [|d sd IH]; intros [|x a] [|y b] La Lb H; cbn [length] in *; try discriminate; auto.
  assert (H0 := H d (or_introl eq_refl)). cbn [combine filter fst snd map] in H0. rewrite Z.eqb_refl in H0. cbn [map snd] in H0. injection H0 as -> H0.
  f_equal. apply IH; try lia. intros e He. specialize (H e (or_intror He)). cbn [combine filter fst snd map] in H.
  destruct (e =? d)%Z; cbn [map snd] in H; [now injection H|exact H].
Qed.
(** ** PerDomain: every row goes to the estimator of its domain. *)
Theorem C163_per_domain : forall Row Est A route (zero : A) (meth : Est -> list Row -> params -> res (list A)) (ests : dict Z Est) (pred : Est -> Row -> A) X X' ps ps' sd sd',
  same_samples sd X sd' X' -> sd <> [] -> route ps = Ok [] -> route ps' = Ok [] -> get_sd ps = Some sd -> get_sd ps' = Some sd' ->
  (forall e A, meth e A [] = Ok (map (pred e) A)) -> (forall d, In d sd -> exists e, dict_get Z.eqb d ests = Some e) ->
  exists r r', per_domain_route route zero meth ests X ps = Ok r /\ per_domain_route route zero meth ests X' ps' = Ok r' /\ same_values sd X r sd' X' r'.
Proof.
  intros Row Est A route zero meth ests pred X X' ps ps' sd sd' S Ne R R' G G' HM HE.
  set (g := fun t : Z * Row => match dict_get Z.eqb (fst t) ests with Some e => pred e (snd t) | None => zero end).
  assert (Q : forall X sd ps, length sd = length X -> sd <> [] -> route ps = Ok [] -> get_sd ps = Some sd -> (forall d, In d sd -> exists e, dict_get Z.eqb d ests = Some e) ->
    exists r, per_domain_route route zero meth ests X ps = Ok r /\ r = map g (combine sd X)).
  { clear - HM. intros X sd ps L Ne R G HE.
    destruct (per_domain_route_ok route zero meth ests X ps [] sd (fun d => map (fun x => g (d, x)) (rows_of (Z.eqb d) sd X))) as (r & Er & Lr & Hr); auto.
    - intros k v [].
    - intros d Hd. destruct (HE d Hd) as [e He]. exists e. split; [exact He|]. split; [|rewrite map_length; now apply rows_of_length].
      replace (params_rows d sd []) with (@nil (string * pval)) by reflexivity. rewrite HM. f_equal. apply map_ext. intros x. unfold g. cbn [fst snd]. now rewrite He.
    - exists r. split; [exact Er|]. apply (rows_determine sd); [lia|rewrite map_length, combine_length; lia|]. intros d Hd. rewrite (Hr d Hd).
      clear. unfold rows_of. revert X. induction sd as [|e sd IH]; intros [|x X]; try reflexivity. cbn [combine filter fst snd map].
      destruct (Z.eqb_spec d e) as [->|]; cbn [map snd]; [f_equal|]; apply IH. }
  destruct (Q X sd ps) as (r & E & ->); auto; [apply S|]. destruct (Q X' sd' ps') as (r' & E' & ->); auto.
  - apply S.
  - intros ->. apply Ne. pose proof (same_labels _ _ _ _ S) as P. now apply Permutation_sym, Permutation_nil in P.
  - intros d Hd. apply HE. apply (Permutation_in _ (Permutation_sym (same_labels _ _ _ _ S)) Hd).
  - do 2 eexists. split; [exact E|]. split; [exact E'|]. now apply pointwise_values.
Qed.

