(** Theorem C170: what a fitted adapter returns for a sample does not depend on the other samples of the call. *)
From Coq Require Import String List ZArith QArith Bool Arith Lia Reals Lra.
From Verif Require Import Np NpFacts Labels Spec SpecFacts UtilsModel UtilsSpec UtilsProofs UtilsProofs2 SelectModel SelectSpec SelectProofs
  RVec RVecFacts ReweightModel ReweightSpec ReweightProofs ReweightProofs2 ThmReweight MapModel MapSpec MapProofs MapProofs2 MapProofs3 ThmMap OrderSpec ThmOrder PartSpec.
Import ListNotations.
Local Open Scope nat_scope.
Local Open Scope list_scope.

Lemma part_map {A B} (f : A -> B) keep : forall l, part keep (map f l) = map f (part keep l).
Proof. unfold part. induction keep as [|b k IH]; intros [|x l]; try reflexivity. cbn. destruct b; cbn; now rewrite IH. Qed.
Lemma part_combine {A B} keep : forall (a : list A) (b : list B), length a = length b -> combine (part keep a) (part keep b) = part keep (combine a b).
Proof.
  unfold part. induction keep as [|k ks IH]; intros [|x a] [|y b] L; try discriminate; try reflexivity. cbn in L. injection L as L.
  cbn. destruct k; cbn; now rewrite IH.
Qed.
Lemma part_length {A B} keep : forall (a : list A) (b : list B), length a = length b -> length (part keep a) = length (part keep b).
Proof.
  unfold part. induction keep as [|k ks IH]; intros [|x a] [|y b] L; try discriminate; try reflexivity. cbn in L. injection L as L.
  cbn. destruct k; cbn; now rewrite (IH a b L).
Qed.
Lemma part_In {A} keep (l : list A) x : In x (part keep l) -> In x l.
Proof.
  unfold part. intros H. apply in_map_iff in H as [[b y] [<- H]]. apply filter_In in H as [H _]. now apply in_combine_r in H.
Qed.
Lemma part_pointwise {A B} (g : Z * A -> B) keep sd X : length sd = length X ->
  map g (combine (part keep sd) (part keep X)) = part keep (map g (combine sd X)).
Proof. intros L. now rewrite part_combine, part_map. Qed.
Lemma part_rows {A} p keep : forall sd (X : list A), length sd = length X -> forall x, In x (rows_of p (part keep sd) (part keep X)) -> In x (rows_of p sd X).
Proof.
  intros sd X L x. unfold rows_of. rewrite part_combine by exact L. intros H. apply in_map_iff in H as [[d y] [<- H]]. apply filter_In in H as [H1 H2].
  apply part_In in H1. apply in_map_iff. exists (d, y). split; [reflexivity|]. now apply filter_In.
Qed.
Lemma part_pos {A B} keep (a : list A) (b : list B) : length a = length b -> part keep a <> [] -> 0 < length (part keep b).
Proof. intros L N. rewrite <- (part_length keep a b L). destruct (part keep a); [easy|cbn; lia]. Qed.
Lemma part_usable allow n keep (X : list n) sd : part keep sd <> [] -> usable allow (length X) (SDArr sd) -> usable allow (length (part keep X)) (SDArr (part keep sd)).
Proof.
  intros N (P & L & H). cbn [eff_domain] in *. split; [now apply (part_pos keep sd)|]. split; [now apply part_length|].
  intros A (d & Hd & Hs). apply (H A). exists d. split; [now apply part_In in Hd|exact Hs].
Qed.
Lemma by_side_part {A B} (f g : A -> B) keep sd X : length sd = length X -> by_side f g (part keep sd) (part keep X) = part keep (by_side f g sd X).
Proof. intros L. unfold by_side. now apply (part_pointwise (fun p => if is_source (fst p) then f (snd p) else g (snd p))). Qed.
Lemma part_table keep X : table X -> table (part_arr keep X).
Proof.
  intros [P W]. split; [exact P|]. intros D. specialize (W D). unfold part_arr. cbn [a_rows]. apply Forall_forall. intros r Hr. apply part_In in Hr.
  exact (proj1 (Forall_forall _ _) W r Hr).
Qed.

(** ** Mapping and subspace adapters. *)
Theorem C170_maps : forall allow (X : arr) sd keep tl, usable allow (a_len X) (SDArr sd) -> part keep sd <> [] -> 0 < prod_tail tl ->
  (forall pca_s pca_t align f g h, row_by_row pca_s f tl -> row_by_row pca_t g tl -> row_by_row align h tl ->
     exists o o', sa_transform allow pca_s pca_t align X (SDArr sd) = Ok o /\ sa_transform allow pca_s pca_t align (part_arr keep X) (SDArr (part keep sd)) = Ok o'
       /\ a_rows o' = part keep (a_rows o)) /\
  (forall dotW f, row_by_row dotW f tl ->
     exists o o', tsl_transform allow dotW X (SDArr sd) = Ok o /\ tsl_transform allow dotW (part_arr keep X) (SDArr (part keep sd)) = Ok o'
       /\ a_rows o' = part keep (a_rows o)) /\
  (forall cs ct w c f g h k, row_by_row cs f tl -> row_by_row ct g tl -> row_by_row w h tl -> row_by_row c k tl ->
     exists o o', coral_transform allow false cs ct w c X (SDArr sd) = Ok o /\ coral_transform allow false cs ct w c (part_arr keep X) (SDArr (part keep sd)) = Ok o'
       /\ a_rows o' = part keep (a_rows o)).
Proof.
  intros allow X sd keep tl U N Htl. pose proof (part_usable allow _ keep (a_rows X) sd N U) as U'. change (usable allow (a_len (part_arr keep X)) (SDArr (part keep sd))) in U'.
  assert (L : length sd = length (a_rows X)) by apply U.
  split; [|split].
  - intros. do 2 eexists. split; [eapply C41_subspace_alignment; eauto|]. split; [eapply C41_subspace_alignment; eauto|]. cbn [a_rows eff_domain part_arr]. now apply by_side_part.
  - intros. do 2 eexists. split; [eapply C41_transfer_subspace; eauto|]. split; [eapply C41_transfer_subspace; eauto|]. cbn [a_rows part_arr]. symmetry. apply part_map.
  - intros. do 2 eexists. split; [eapply C86_row_order; eauto|]. split; [eapply C86_row_order; eauto|]. cbn [a_rows eff_domain part_arr]. now apply by_side_part.
Qed.
Theorem C170_coral_centred : forall allow cs ct wh co fw fcol (X : arr) sd keep, usable allow (a_len X) (SDArr sd) -> part keep sd <> [] -> table X ->
  row_by_row wh fw (a_tail X) -> row_by_row co fcol (a_tail X) ->
  exists o o', coral_transform allow true cs ct wh co X (SDArr sd) = Ok o /\ coral_transform allow true cs ct wh co (part_arr keep X) (SDArr (part keep sd)) = Ok o'
    /\ a_rows o' = part keep (a_rows o).
Proof.
  intros allow cs ct wh co fw fcol X sd keep U N T H1 H2. pose proof (part_usable allow _ keep (a_rows X) sd N U) as U'. change (usable allow (a_len (part_arr keep X)) (SDArr (part keep sd))) in U'.
  assert (L : length sd = length (a_rows X)) by apply U.
  destruct (C86_assume_centered allow cs ct wh co fw fcol X (SDArr sd) U T H1 H2) as (o & E & R).
  destruct (C86_assume_centered allow cs ct wh co fw fcol (part_arr keep X) (SDArr (part keep sd)) U' (part_table _ _ T) H1 H2) as (o' & E' & R').
  exists o, o'. split; [exact E|]. split; [exact E'|]. rewrite R, R'. cbn [eff_domain part_arr a_rows]. now apply by_side_part.
Qed.
(** The optimal transport mappings, for a fitted transport that maps rows one by one. *)
Theorem C170_ot_map : forall allow transport f (X : arr) sd keep, usable allow (a_len X) (SDArr sd) -> part keep sd <> [] -> table X ->
  row_by_row transport f (a_tail X) ->
  exists o o', ot_transform allow transport X (SDArr sd) = Ok o /\ ot_transform allow transport (part_arr keep X) (SDArr (part keep sd)) = Ok o'
    /\ a_rows o' = part keep (a_rows o).
Proof.
  intros allow tr f X sd keep U N T H.
  assert (Q : forall Y s, usable allow (a_len Y) (SDArr s) -> table Y -> a_tail Y = a_tail X -> exists o, ot_transform allow tr Y (SDArr s) = Ok o /\ a_rows o = by_side f (fun x => x) s (a_rows Y)).
  { clear - H. intros Y s U T Ht. assert (L : length s = length (a_rows Y)) by apply U.
    assert (G : tr (half is_source s Y) = Ok (mkArr DFloat (a_tail X) (map f (rows_of is_source s (a_rows Y))))) by apply H.
    destruct (C40_ot_transform allow tr Y (SDArr s) U T) as (o & E & L' & R & RS & RN).
    { intros _. eexists. split; [apply G|]. cbn. split; [reflexivity|]. split; [now symmetry|]. unfold a_len, half. cbn. apply map_length. }
    exists o. split; [exact E|]. cbn [eff_domain] in *. destruct (rows_of_by_side f (fun x => x) s (a_rows Y)) as [B1 B2]. apply (rows_of_unique s).
    - now rewrite L.
    - apply by_side_length. exact L.
    - rewrite B1. destruct (existsb is_source s) eqn:EX.
      + rewrite (RS ltac:(apply existsb_exists in EX; exact EX) _ G). reflexivity.
      + assert (Z : forall A (l : list A), rows_of is_source s l = []).
        { intros A l. unfold rows_of. revert l. clear - EX. induction s as [|d s IH]; intros [|x l]; try reflexivity. cbn in *. apply orb_false_iff in EX as [-> EX]. cbn. now apply IH. }
        now rewrite !Z.
    - rewrite R, B2. now rewrite map_id. }
  pose proof (part_usable allow _ keep (a_rows X) sd N U) as U'.
  destruct (Q X sd U T eq_refl) as (o & E & R). destruct (Q (part_arr keep X) (part keep sd) U' (part_table _ _ T) eq_refl) as (o' & E' & R').
  exists o, o'. split; [exact E|]. split; [exact E'|]. rewrite R, R'. apply by_side_part. apply U.
Qed.
(** Kernel projections (TCA, TJM), on data other than the training data. *)
Theorem C170_kernel_maps : forall Row kern (eqb : list Row -> list Row -> bool) V Xs Xt X sd allow keep,
  (forall a b, eqb a b = true <-> a = b) -> usable allow (length X) (SDArr sd) -> part keep sd <> [] ->
  (rows_of is_source sd X <> Xs \/ rows_of is_target sd X <> Xt) ->
  (rows_of is_source (part keep sd) (part keep X) <> Xs \/ rows_of is_target (part keep sd) (part keep X) <> Xt) ->
  exists o, kernel_transform Row kern eqb allow Xs Xt V X (SDArr sd) = Ok o /\
    kernel_transform Row kern eqb allow Xs Xt V (part keep X) (SDArr (part keep sd)) = Ok (part keep o).
Proof.
  intros Row kern eqb V Xs Xt X sd allow keep He U N H1 H2. eexists. split; [now apply C41_kernel_new_data|].
  rewrite part_map. apply C41_kernel_new_data; auto. now apply part_usable.
Qed.
(** ... and on any data, training data included, when the sources come first. *)
Lemma sources_first_part keep : forall sd, sources_first sd -> sources_first (part keep sd).
Proof.
  intros sd (a & b & -> & Ha & Hb). unfold part. revert keep. induction Ha as [|d a Hd Ha IH]; intros keep.
  - cbn [app]. exists [], (part keep b). split; [reflexivity|]. split; [constructor|]. apply Forall_forall. intros d Hd. apply part_In in Hd. exact (proj1 (Forall_forall _ _) Hb d Hd).
  - destruct keep as [|k keep]; [exists [], []; cbn; auto|]. destruct (IH keep) as (a' & b' & E & Ha' & Hb'). cbn [app combine filter fst].
    destruct k; cbn [map snd]; [|exists a', b'; auto]. exists (d :: a'), b'. rewrite E. cbn. auto.
Qed.
Theorem C170_kernel_maps_sources_first : forall Row kern (eqb : list Row -> list Row -> bool) V Xs Xt X sd allow keep,
  (forall a b, eqb a b = true <-> a = b) -> (forall x y, kern x y = kern y x) -> usable allow (length X) (SDArr sd) -> part keep sd <> [] -> sources_first sd ->
  exists o, kernel_transform Row kern eqb allow Xs Xt V X (SDArr sd) = Ok o /\
    kernel_transform Row kern eqb allow Xs Xt V (part keep X) (SDArr (part keep sd)) = Ok (part keep o).
Proof.
  intros Row kern eqb V Xs Xt X sd allow keep He Hk U N SF.
  assert (G : forall (Y : list Row) s, usable allow (length Y) (SDArr s) -> sources_first s -> kernel_transform Row kern eqb allow Xs Xt V Y (SDArr s) = Ok (map (kernel_image kern (Xs ++ Xt) V) Y)).
  { clear - He Hk. intros Y s U SF. destruct (eqb (rows_of is_source s Y) Xs && eqb (rows_of is_target s Y) Xt) eqn:E.
    - apply andb_true_iff in E as [E1 E2]. apply He in E1, E2. rewrite <- E1, <- E2.
      pose proof (kernel_transform_train kern eqb V Y (SDArr s) allow Hk (fun a => proj2 (He a a) eq_refl) U) as T. cbv zeta in T. cbn [eff_domain] in T. rewrite T.
      assert (L : length s = length Y) by apply U. now rewrite (sources_first_rows s Y L SF).
    - apply C41_kernel_new_data; auto. cbn [eff_domain]. apply andb_false_iff in E as [E|E]; [left|right]; intros Q; apply He in Q; congruence. }
  eexists. split; [now apply G|]. rewrite part_map. apply G; [now apply part_usable|now apply sources_first_part].
Qed.
Theorem C170_monge : forall mappings (X : arr) sd keep, usable true (a_len X) (SDArr sd) -> part keep sd <> [] -> a_dt X = DFloat ->
  (forall d, In d sd -> exists f, dict_get Z.eqb d mappings = Some f) ->
  exists o o', mlm_transform mappings X (SDArr sd) = Ok o /\ mlm_transform mappings (part_arr keep X) (SDArr (part keep sd)) = Ok o' /\ a_rows o' = part keep (a_rows o).
Proof.
  intros mappings X sd keep U N D HM.
  set (g := fun t : Z * list val => match dict_get Z.eqb (fst t) mappings with Some f => f (snd t) | None => snd t end).
  assert (G : forall (X : arr) sd, usable true (a_len X) (SDArr sd) -> a_dt X = DFloat -> (forall d, In d sd -> exists f, dict_get Z.eqb d mappings = Some f) ->
    exists o, mlm_transform mappings X (SDArr sd) = Ok o /\ a_rows o = map g (combine sd (a_rows X))).
  { clear. intros X sd U D HM. destruct (C43_transform mappings X (SDArr sd) U D HM) as (o & E & L & H). exists o. split; [exact E|]. cbn [eff_domain] in H.
    apply nth_map_combine; [apply U|exact L|]. intros i d x Hd Hx. destruct (HM d (nth_error_In _ _ Hd)) as [f Hf]. unfold g. cbn [fst snd]. rewrite Hf. eapply H; eauto. }
  pose proof (part_usable true _ keep (a_rows X) sd N U) as U'.
  destruct (G X sd U D HM) as (o & E & R). destruct (G (part_arr keep X) (part keep sd) U' D) as (o' & E' & R').
  - intros d Hd. apply HM. now apply part_In in Hd.
  - exists o, o'. split; [exact E|]. split; [exact E'|]. rewrite R, R'. cbn [part_arr a_rows]. apply part_pointwise. apply U.
Qed.
(** MMDLSConS, on sources other than the training sources: by class with labels, by nearest neighbour without. *)
Theorem C170_mmdls_classes : forall Coef app czero eqb nearest veqb (st : ls_state Coef) (X : arr) y sd classes g keep,
  usable true (a_len X) (SDArr sd) -> part keep sd <> [] -> table X -> (forall a b, eqb a b = true <-> a = b) -> (forall a b, veqb a b = true <-> a = b) ->
  rows_of is_source sd (a_rows X) <> ls_X Coef st -> rows_of is_source (part keep sd) (part keep (a_rows X)) <> ls_X Coef st -> length y = a_len X ->
  ls_classes Coef st = Some classes -> ls_G Coef st = map g classes -> (forall c, In c (rows_of is_source sd y) -> In c classes) ->
  exists o o', ls_transform Coef app czero eqb nearest veqb true st X (Some y) (SDArr sd) = Ok o /\
    ls_transform Coef app czero eqb nearest veqb true st (part_arr keep X) (Some (part keep y)) (SDArr (part keep sd)) = Ok o' /\ a_rows o' = part keep (a_rows o).
Proof.
  intros Coef app czero eqb nearest veqb st X y sd classes g keep U N T He Hv H1 H2 Ly HC HG Hin.
  assert (L : length sd = length (a_rows X)) by apply U. unfold a_len in Ly.
  destruct (C87_known_classes Coef app czero eqb nearest veqb st X y (SDArr sd) classes g) as (o & E & R); auto.
  destruct (C87_known_classes Coef app czero eqb nearest veqb st (part_arr keep X) (part keep y) (SDArr (part keep sd)) classes g) as (o' & E' & R'); auto.
  - now apply (part_usable true _ keep (a_rows X)).
  - now apply part_table.
  - unfold a_len, part_arr. cbn [a_rows]. now apply part_length.
  - cbn [eff_domain]. intros c Hc. apply Hin. apply part_rows in Hc; [exact Hc|congruence].
  - exists o, o'. split; [exact E|]. split; [exact E'|]. rewrite R, R'. cbn [eff_domain part_arr a_rows]. rewrite part_combine by now symmetry. apply by_side_part. rewrite combine_length. lia.
Qed.
Theorem C170_mmdls_nearest : forall Coef app czero eqb nearest veqb (st : ls_state Coef) (X : arr) sd (c0 : Coef) keep,
  usable true (a_len X) (SDArr sd) -> part keep sd <> [] -> table X -> (forall a b, eqb a b = true <-> a = b) ->
  rows_of is_source sd (a_rows X) <> ls_X Coef st -> rows_of is_source (part keep sd) (part keep (a_rows X)) <> ls_X Coef st ->
  (forall x, nearest (ls_X Coef st) x < length (ls_W Coef st)) ->
  exists o o', ls_transform Coef app czero eqb nearest veqb true st X None (SDArr sd) = Ok o /\
    ls_transform Coef app czero eqb nearest veqb true st (part_arr keep X) None (SDArr (part keep sd)) = Ok o' /\ a_rows o' = part keep (a_rows o).
Proof.
  intros Coef app czero eqb nearest veqb st X sd c0 keep U N T He H1 H2 Hn. assert (L : length sd = length (a_rows X)) by apply U.
  destruct (C87_nearest Coef app czero eqb nearest veqb st X (SDArr sd) c0) as (o & E & R); auto.
  destruct (C87_nearest Coef app czero eqb nearest veqb st (part_arr keep X) (SDArr (part keep sd)) c0) as (o' & E' & R'); auto.
  - now apply (part_usable true _ keep (a_rows X)).
  - now apply part_table.
  - exists o, o'. split; [exact E|]. split; [exact E'|]. rewrite R, R'. cbn [eff_domain part_arr a_rows]. now apply by_side_part.
Qed.
(** TCA and TJM on their own training data, targets and sources mixed: the row of the target 2 is not its row when it is given alone. *)
Theorem C170_kernel_training_refuted : exists (eig : list (list R) -> res (list (list R))) V out row,
  let kern := (fun x y => IZR (x * y))%Z in
  eig [[1; 2]; [2; 4]]%R = Ok V /\
  kernel_fit_transform Z kern zrows_eqb eig [2; 1]%Z (SDArr [-1; 1]%Z) = Ok out /\
  kernel_transform Z kern zrows_eqb true [1]%Z [2]%Z V [2; 1]%Z (SDArr [-1; 1]%Z) = Ok out /\
  kernel_transform Z kern zrows_eqb true [1]%Z [2]%Z V [2]%Z (SDArr [-1]%Z) = Ok row /\ row <> part [true; false] out.
Proof.
  destruct C41_interleaved_refuted as (eig & V & out & HV & HO & _ & HN). cbv zeta in *.
  assert (Z2 : forall a b, zrows_eqb a b = true <-> a = b) by (intros a b; unfold zrows_eqb; destruct (list_eq_dec Z.eq_dec a b); split; congruence).
  assert (U : usable true (length [2; 1]%Z) (SDArr [-1; 1]%Z)) by (repeat split; simpl; auto; try lia; try discriminate).
  exists eig, V, out, [kernel_image (fun x y => IZR (x * y)) [1; 2]%Z V 2%Z]. split; [exact HV|]. split; [exact HO|].
  assert (T : kernel_transform Z (fun x y => IZR (x * y)) zrows_eqb true [1]%Z [2]%Z V [2; 1]%Z (SDArr [-1; 1]%Z) = Ok out).
  { rewrite <- HO. unfold kernel_fit_transform. rewrite (check_usable _ _ _ U). cbn -[kernel_transform block_kernel].
    assert (B : block_kernel Z (fun x y => IZR (x * y)) [1]%Z [2]%Z = [[1; 2]; [2; 4]]%R) by reflexivity.
    rewrite B, HV. reflexivity. }
  split; [exact T|]. split.
  - rewrite (C41_kernel_new_data Z (fun x y => IZR (x * y)) zrows_eqb V [1]%Z [2]%Z [2]%Z (SDArr [-1]%Z) true Z2); [reflexivity| |left; discriminate].
    repeat split; simpl; auto; try lia; try discriminate.
  - destruct out as [|r out]; [cbn; discriminate|]. destruct out as [|r2 out]; cbn in *; intros Q; injection Q as Q; apply HN; exact (eq_sym Q).
Qed.
