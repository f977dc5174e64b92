(** Theorem C164: the losses do not depend on the order of the samples of a batch. *)
From Coq Require Import String List ZArith Bool Arith Lia Reals Lra Permutation.
From Verif Require Import Np NpFacts RVec RVecFacts LossModel LossSpec LossProofs OrderSpec.
Import ListNotations.
Local Open Scope nat_scope.
Local Open Scope list_scope.
Local Open Scope R_scope.

Lemma mean_perm l l' : Permutation l l' -> mean l = mean l'.
Proof. intros P. unfold mean. now rewrite (vsum_perm _ _ P), (Permutation_length P). Qed.
Lemma column_perm M M' j : Permutation M M' -> Permutation (column M j) (column M' j).
Proof. intros P. now apply Permutation_map. Qed.
Lemma width_perm d M M' : rect d M -> Permutation M M' -> width M = width M'.
Proof.
  intros H P. destruct M as [|r M]; [apply Permutation_nil in P; now subst|]. destruct M' as [|r' M']; [apply Permutation_sym, Permutation_nil in P; discriminate|].
  cbn. rewrite (H r), (H r'); [reflexivity| |left; reflexivity]. apply (Permutation_in _ (Permutation_sym P)). left; reflexivity.
Qed.
Lemma rect_perm d M M' : rect d M -> Permutation M M' -> rect d M'.
Proof. intros H P r Hr. apply H. apply (Permutation_in _ (Permutation_sym P) Hr). Qed.

(** ** DeepCORAL *)
Lemma dot_map {A} (f g : A -> R) l : dot (map f l) (map g l) = vsum (map (fun x => f x * g x) l).
Proof. unfold dot. f_equal. induction l; cbn; congruence. Qed.
Lemma cov_entry_perm M M' j k : Permutation M M' -> cov_entry M j k = cov_entry M' j k.
Proof.
  intros P. unfold cov_entry, centred. rewrite <- (Permutation_length P), <- (mean_perm _ _ (column_perm M M' j P)), <- (mean_perm _ _ (column_perm M M' k P)).
  f_equal. generalize (mean (column M j)) (mean (column M k)). intros a b. unfold column. rewrite !map_map, !dot_map. apply vsum_perm. now apply Permutation_map.
Qed.
Lemma torch_cov_perm d M M' : rect d M -> Permutation M M' -> torch_cov M = torch_cov M'.
Proof.
  intros H P. unfold torch_cov. rewrite (width_perm d M M' H P). apply map_ext. intros j. apply map_ext. intros k. now apply cov_entry_perm.
Qed.
Lemma sub_mean_perm d M M' : rect d M -> Permutation M M' -> Permutation (sub_mean M) (sub_mean M').
Proof.
  intros H P. unfold sub_mean. rewrite (width_perm d M M' H P).
  rewrite (map_ext (fun j => mean (column M j)) (fun j => mean (column M' j))) by (intros j; apply mean_perm, column_perm, P). now apply Permutation_map.
Qed.
Theorem C164_deep_coral : forall d s s' t t' b, rect d s -> rect d t -> Permutation s s' -> Permutation t t' -> deepcoral_loss s t b = deepcoral_loss s' t' b.
Proof.
  intros d s s' t t' b Hs Ht Ps Pt. unfold deepcoral_loss. rewrite (width_perm d s s' Hs Ps). f_equal. destruct b.
  - now rewrite (torch_cov_perm d s s' Hs Ps), (torch_cov_perm d t t' Ht Pt).
  - assert (RS : forall M, rect d M -> rect d (sub_mean M)).
    { clear. intros M H r Hr. unfold sub_mean in Hr. apply in_map_iff in Hr as (x & <- & Hx). destruct M as [|x0 M]; [destruct Hx|].
      unfold vsub. rewrite map2_length; rewrite ?map_length, ?seq_length; [now apply H|]. cbn [width]. rewrite (H x Hx), (H x0 (or_introl eq_refl)). reflexivity. }
    rewrite (torch_cov_perm d _ _ (RS s Hs) (sub_mean_perm d s s' Hs Ps)), (torch_cov_perm d _ _ (RS t Ht) (sub_mean_perm d t t' Ht Pt)). reflexivity.
Qed.

(** ** DAN, with the given or the default bandwidths *)
Lemma concat_perm {A} (l l' : list (list A)) : Permutation l l' -> Permutation (concat l) (concat l').
Proof.
  induction 1 as [|x l l' P IH|x y l|l l' l'' P1 IH1 P2 IH2]; cbn [concat]; auto.
  - now apply Permutation_app_head.
  - rewrite !app_assoc. apply Permutation_app_tail, Permutation_app_comm.
  - etransitivity; eauto.
Qed.
Lemma table_perm {A B C} (f : A -> B -> C) xs xs' ys ys' : Permutation xs xs' -> Permutation ys ys' ->
  Permutation (concat (map (fun x => map (f x) ys) xs)) (concat (map (fun x => map (f x) ys') xs')).
Proof.
  intros Px Py. transitivity (concat (map (fun x => map (f x) ys') xs)).
  - clear Px. induction xs as [|x xs IH]; cbn [map concat]; auto. apply Permutation_app; [now apply Permutation_map|exact IH].
  - apply concat_perm. now apply Permutation_map.
Qed.
Lemma insert_comm x y l : insert_sorted x (insert_sorted y l) = insert_sorted y (insert_sorted x l).
Proof.
  assert (T : forall a b, Rleb a b = true <-> a <= b) by (intros; apply Rleb_iff).
  induction l as [|z l IH]; cbn [insert_sorted].
  - destruct (Rleb x y) eqn:A, (Rleb y x) eqn:B; try reflexivity.
    + apply T in A, B. assert (x = y) by lra. now subst.
    + exfalso. assert (~ x <= y) by (rewrite <- T; congruence). assert (~ y <= x) by (rewrite <- T; congruence). lra.
  - destruct (Rleb x z) eqn:A, (Rleb y z) eqn:B; cbn [insert_sorted].
    + rewrite A, B. destruct (Rleb x y) eqn:C, (Rleb y x) eqn:D; try reflexivity.
      * apply T in C, D. assert (x = y) by lra. now subst.
      * exfalso. assert (~ x <= y) by (rewrite <- T; congruence). assert (~ y <= x) by (rewrite <- T; congruence). lra.
    + rewrite A. destruct (Rleb y x) eqn:D.
      * exfalso. apply T in A, D. assert (~ y <= z) by (rewrite <- T; congruence). lra.
      * cbn [insert_sorted]. now rewrite B.
    + rewrite B. destruct (Rleb x y) eqn:D.
      * exfalso. apply T in B, D. assert (~ x <= z) by (rewrite <- T; congruence). lra.
      * cbn [insert_sorted]. now rewrite A.
    + rewrite A, B. now rewrite IH.
Qed.
Lemma sort_perm l l' : Permutation l l' -> sort l = sort l'.
Proof.
  unfold sort. induction 1 as [|x l l' P IH|x y l|l l' l'' P1 IH1 P2 IH2]; cbn [fold_right]; auto; [now rewrite IH|apply insert_comm|congruence].
Qed.
Lemma sigmas_perm sg eps s s' : Permutation s s' -> the_sigmas sg s eps = the_sigmas sg s' eps.
Proof.
  intros P. destruct sg as [l|]; [reflexivity|]. cbn [the_sigmas]. unfold default_sigmas.
  assert (Q : Permutation (concat (cdist s s)) (concat (cdist s' s'))) by (apply (table_perm euclid); exact P).
  unfold median. now rewrite (sort_perm _ _ Q), (Permutation_length Q).
Qed.
Theorem C164_dan : forall s s' t t' sigmas eps, Permutation s s' -> Permutation t t' -> dan_loss s t sigmas eps = dan_loss s' t' sigmas eps.
Proof.
  intros s s' t t' sg eps Ps Pt. unfold dan_loss, mmd, mean_all, gaussian_kernel. rewrite (sigmas_perm sg eps s s' Ps).
  set (K := multi_kernel (the_sigmas sg s' eps)).
  now rewrite (mean_perm _ _ (table_perm K s s' s s' Ps Ps)), (mean_perm _ _ (table_perm K t t' t t' Pt Pt)), (mean_perm _ _ (table_perm K s s' t t' Ps Pt)).
Qed.

(** ** MCC *)
Theorem C164_mcc : forall c y y' T eps, rect c y -> Permutation y y' -> mcc_loss y T eps = mcc_loss y' T eps.
Proof.
  intros c y y' T eps H P. unfold mcc_loss. do 4 f_equal. 
  set (h := fun r => softmax (map (fun x => x / T) r)). unfold probability_scaling. fold h.
  assert (PY : Permutation (map h y) (map h y')) by now apply Permutation_map.
  assert (HY : rect c (map h y)) by (intros r Hr; apply in_map_iff in Hr as (x & <- & Hx); unfold h, softmax; rewrite !map_length; now apply H).
  clear - PY HY. revert PY HY. generalize (map h y) (map h y'). clear. intros Y Y' PY HY.
  unfold class_correlation. rewrite (width_perm c Y Y' HY PY). set (e := fun p => 1 + exp (- entropy eps p)). 
  assert (W : forall Y, map2 vscale (mcc_weights eps Y) Y = map (fun p => vscale (e p / mean (map e Y)) p) Y).
  { clear. intros Y. unfold mcc_weights. fold e. rewrite map_map. generalize (mean (map e Y)). intros m. induction Y; cbn; congruence. }
  rewrite !W, (mean_perm _ _ (Permutation_map e PY)). apply map_ext. intros j. apply map_ext. intros k.
  unfold column. rewrite !map_map, !dot_map. apply vsum_perm. now apply Permutation_map.
Qed.

(** ** MDD: the predictions of a sample stay with its domain predictions *)
Lemma mapM_perm {A B} (f : A -> res B) e : (forall x er, f x = Err er -> er = e) -> forall l l', Permutation l l' ->
  (mapM f l = Err e /\ mapM f l' = Err e) \/ (exists r r', mapM f l = Ok r /\ mapM f l' = Ok r' /\ Permutation (combine l r) (combine l' r') /\ length r = length l /\ length r' = length l').
Proof.
  intros He. assert (D : forall l, mapM f l = Err e \/ exists r, mapM f l = Ok r).
  { induction l as [|x l IH]; [right; now exists []|]. cbn [mapM]. destruct (f x) as [b|er] eqn:E; cbn [bind]; [|left; f_equal; now apply (He x)].
    destruct IH as [-> | [r ->]]; cbn [bind]; eauto. }
  assert (L : forall l r, mapM f l = Ok r -> length r = length l).
  { induction l as [|x l IH]; intros r H; cbn [mapM] in H; [injection H as <-; reflexivity|]. apply bind_ok in H as (b & _ & H). apply bind_ok in H as (r0 & H0 & H). injection H as <-. cbn. f_equal. now apply IH. }
  assert (G : forall l l', Permutation l l' -> forall r, mapM f l = Ok r -> exists r', mapM f l' = Ok r' /\ Permutation (combine l r) (combine l' r')).
  { induction 1 as [|x l l' P IH|x y l|l l' l'' P1 IH1 P2 IH2]; intros r H.
    - exists r. auto.
    - cbn [mapM] in *. apply bind_ok in H as (b & Hb & H). apply bind_ok in H as (r0 & H0 & H). injection H as <-. destruct (IH r0 H0) as (r' & H' & Q).
      rewrite Hb, H'. cbn [bind]. eexists. split; [reflexivity|]. cbn [combine]. now constructor.
    - cbn [mapM] in *. apply bind_ok in H as (b & Hb & H). apply bind_ok in H as (r0 & H0 & H). injection H as <-. apply bind_ok in H0 as (a & Ha & H0). apply bind_ok in H0 as (r1 & H1 & H0). injection H0 as <-.
      rewrite Ha, Hb, H1. cbn [bind]. eexists. split; [reflexivity|]. cbn [combine]. apply perm_swap.
    - destruct (IH1 r H) as (r' & H' & Q). destruct (IH2 r' H') as (r'' & H'' & Q'). exists r''. split; [exact H''|]. etransitivity; eauto. }
  intros l l' P. destruct (D l) as [E|[r E]].
  - destruct (D l') as [E'|[r' E']]; [left; auto|]. destruct (G l' l (Permutation_sym P) r' E') as (r0 & E0 & _). congruence.
  - destruct (G l l' P r E) as (r' & E' & Q). right. exists r, r'. repeat split; auto.
Qed.
Lemma combine_fst {A B} (l : list A) (r : list B) : length r = length l -> map fst (combine l r) = l.
Proof. revert r. induction l; intros [|b r] H; cbn in *; try discriminate; auto. f_equal. apply IHl. lia. Qed.
Lemma combine_snd {A B} (l : list A) (r : list B) : length r = length l -> map snd (combine l r) = r.
Proof. revert r. induction l; intros [|b r] H; cbn in *; try discriminate; auto. f_equal. apply IHl. lia. Qed.
Lemma mapM_values {A B} (f : A -> res B) e : (forall x er, f x = Err er -> er = e) -> forall l l', Permutation l l' ->
  (mapM f l = Err e /\ mapM f l' = Err e) \/ (exists r r', mapM f l = Ok r /\ mapM f l' = Ok r' /\ Permutation r r').
Proof.
  intros He l l' P. destruct (mapM_perm f e He l l' P) as [H|(r & r' & E & E' & Q & L & L')]; [now left|]. right. exists r, r'. repeat split; auto.
  apply (Permutation_map snd) in Q. now rewrite !combine_snd in Q.
Qed.
Lemma all_some_perm {A} (l l' : list (option A)) : Permutation l l' ->
  (all_some l = None /\ all_some l' = None) \/ (exists r r', all_some l = Some r /\ all_some l' = Some r' /\ Permutation r r').
Proof.
  induction 1 as [|x l l' P IH|x y l|l l' l'' P1 IH1 P2 IH2].
  - right. exists [], []. auto.
  - destruct x as [x|]; cbn [all_some]; [|now left]. destruct IH as [[-> ->]|(r & r' & -> & -> & Q)]; [now left|right]. do 2 eexists. split; [reflexivity|]. split; [reflexivity|]. now constructor.
  - destruct x as [x|], y as [y|]; cbn [all_some]; try now left.
    destruct (all_some l) as [r|]; [right|now left]. do 2 eexists. split; [reflexivity|]. split; [reflexivity|]. apply perm_swap.
  - destruct IH1 as [[E1 E1']|(r & r' & E1 & E1' & Q)], IH2 as [[E2 E2']|(s & s' & E2 & E2' & Q')]; try congruence; [now left|right].
    exists r, s'. repeat split; auto. rewrite E1' in E2. injection E2 as <-. etransitivity; eauto.
Qed.
Lemma argmax_err l er : np_argmax l = Err er -> er = ValueError.
Proof. destruct l; cbn; [now intros [= <-]|discriminate]. Qed.
Lemma mce_perm sm I I' t t' : Permutation I I' -> Permutation t t' -> modified_cross_entropy sm I t = modified_cross_entropy sm I' t'.
Proof.
  intros PI Pt. unfold modified_cross_entropy.
  set (pick := fun row k => match nth_error (smooth sm row) k with Some p => Ok p | None => Err IndexError end).
  assert (HE : forall row k er, pick row k = Err er -> er = IndexError) by (intros row k er; unfold pick; destruct (nth_error _ _); [discriminate|now intros [= <-]]).
  assert (HM : forall row er t, mapM (pick row) t = Err er -> er = IndexError).
  { intros row er u. induction u as [|k u IH]; cbn [mapM]; [discriminate|]. destruct (pick row k) as [b|e] eqn:E; cbn [bind]; [|intros [= <-]; now apply (HE row k)].
    destruct (mapM (pick row) u); cbn [bind]; [discriminate|]. auto. }
  change (fun row => mapM (fun t0 => match nth_error (smooth sm row) t0 with Some p => Ok p | None => Err IndexError end) t) with (fun row => mapM (pick row) t).
  change (fun row => mapM (fun t0 => match nth_error (smooth sm row) t0 with Some p => Ok p | None => Err IndexError end) t') with (fun row => mapM (pick row) t').
  assert (T : (mapM (fun row => mapM (pick row) t) I = Err IndexError /\ mapM (fun row => mapM (pick row) t') I = Err IndexError) \/
    exists M M', mapM (fun row => mapM (pick row) t) I = Ok M /\ mapM (fun row => mapM (pick row) t') I = Ok M' /\ Permutation (concat M) (concat M')).
  { clear PI I'. induction I as [|row I IH]; [right; exists [], []; auto|]. cbn [mapM].
    destruct (mapM_values (pick row) IndexError (HE row) t t' Pt) as [[-> ->]|(r & r' & -> & -> & Q)]; cbn [bind]; [now left|].
    destruct IH as [[-> ->]|(M & M' & -> & -> & QM)]; cbn [bind]; [now left|right]. do 2 eexists. split; [reflexivity|]. split; [reflexivity|]. cbn [concat]. now apply Permutation_app. }
  destruct (mapM_values (fun row => mapM (pick row) t') IndexError (fun row er => HM row er t') I I' PI) as [[E1 E2]|(M1 & M2 & E1 & E2 & Q)].
  - destruct T as [[-> _]|(M & M' & _ & E & _)]; [|congruence]. rewrite E2. reflexivity.
  - destruct T as [[_ E]|(M & M' & -> & E & QM)]; [congruence|]. rewrite E1 in E. injection E as <-. rewrite E2. cbn [bind]. f_equal.
    assert (PC : Permutation (concat M) (concat M2)) by (etransitivity; [exact QM|now apply concat_perm]).
    destruct (all_some_perm _ _ (Permutation_map log1m PC)) as [[-> ->]|(r & r' & -> & -> & QR)]; [reflexivity|]. cbn. f_equal. now apply mean_perm.
Qed.
Theorem C164_mdd : forall gamma sm (Ds Ds' Dt Dt' : list (list R * list R)), Permutation Ds Ds' -> Permutation Dt Dt' ->
  mdd_loss gamma sm (map fst Ds) (map fst Dt) (map snd Ds) (map snd Dt) = mdd_loss gamma sm (map fst Ds') (map fst Dt') (map snd Ds') (map snd Dt').
Proof.
  intros gamma sm Ds Ds' Dt Dt' Ps Pt. unfold mdd_loss.
  assert (MF : forall D : list (list R * list R), mapM np_argmax (map fst D) = mapM (fun q => np_argmax (fst q)) D) by (induction D as [|q D IH]; cbn; [reflexivity|now rewrite IH]).
  rewrite !MF.
  assert (AE : forall (q : list R * list R) er, np_argmax (fst q) = Err er -> er = ValueError) by (intros; eapply argmax_err; eauto).
  destruct (mapM_perm _ ValueError AE Ds Ds' Ps) as [[-> ->]|(ps & ps' & -> & -> & Q & L & L')]; [reflexivity|]. cbn [bind].
  destruct (mapM_values _ ValueError AE Dt Dt' Pt) as [[-> ->]|(pt & pt' & -> & -> & Qt)]; [reflexivity|]. cbn [bind].
  assert (CE : cross_entropy_mean (map snd Ds) ps = cross_entropy_mean (map snd Ds') ps').
  { unfold cross_entropy_mean. assert (NM : forall (D : list (list R * list R)) p, length p = length D -> np_map2 (fun (r : list R) (t : nat) => (r, t)) (map snd D) p = Ok (map (fun u => (snd (fst u), snd u)) (combine D p))).
    { clear. intros D p H. unfold np_map2. rewrite map_length, H, Nat.eqb_refl. f_equal. revert p H. induction D as [|q D IH]; intros [|k p] H; cbn in *; try discriminate; auto. f_equal. apply IH. lia. }
    rewrite !NM by auto. cbn [bind]. pose proof (Permutation_map (fun u : (list R * list R) * nat => (snd (fst u), snd u)) Q) as QQ.
    assert (XE : forall (rt : list R * nat) er, cross_entropy (fst rt) (snd rt) = Err er -> er = IndexError) by (intros rt er; unfold cross_entropy; destruct (nth_error _ _); [discriminate|now intros [= <-]]).
    destruct (mapM_values _ IndexError XE _ _ QQ) as [[-> ->]|(v & v' & -> & -> & Qv)]; [reflexivity|]. cbn [bind]. f_equal. now apply mean_perm. }
  rewrite CE, (mce_perm sm (map snd Dt) (map snd Dt') pt pt' (Permutation_map snd Pt) Qt). reflexivity.
Qed.

(** ** CAN: labels stay with their features *)
Lemma filter_perm {A} (p : A -> bool) l l' : Permutation l l' -> Permutation (filter p l) (filter p l').
Proof.
  induction 1 as [|x l l' P IH|x y l|l l' l'' P1 IH1 P2 IH2]; cbn [filter]; auto.
  - destruct (p x); auto.
  - destruct (p x), (p y); auto. apply perm_swap.
  - etransitivity; eauto.
Qed.
Lemma n_unique_perm y y' : Permutation y y' -> n_unique y = n_unique y'.
Proof.
  intros P. unfold n_unique. apply Permutation_length, NoDup_Permutation; try apply NoDup_nodup.
  intros x. rewrite !nodup_In. split; apply Permutation_in; [exact P|now apply Permutation_sym].
Qed.
Lemma bincount_perm l l' n : Permutation l l' -> bincount l n = bincount l' n.
Proof.
  intros P. unfold bincount. assert (M : fold_right Nat.max 0%nat l = fold_right Nat.max 0%nat l').
  { clear n. induction P as [|x l l' P IH|x y l|l l' l'' P1 IH1 P2 IH2]; cbn [fold_right]; try lia. }
  rewrite M, (Permutation_length P). apply map_ext. intros c. apply Permutation_length, filter_perm, P.
Qed.
Lemma mask_row (f : nat * list R -> R) c (D : list (nat * list R)) : vsum (map2 Rmult (map f D) (indicator (map fst D) c)) = vsum (map (fun q => f q * (if Nat.eqb (fst q) c then 1 else 0)) D).
Proof. unfold indicator. rewrite map_map. f_equal. induction D; cbn; congruence. Qed.
Lemma same_term_perm sg c (D D' : list (nat * list R)) : Permutation D D' ->
  same_term (gaussian_kernel sg (map snd D) (map snd D)) (indicator (map fst D) c) = same_term (gaussian_kernel sg (map snd D') (map snd D')) (indicator (map fst D') c).
Proof.
  intros P. unfold same_term. assert (Q : Permutation (indicator (map fst D) c) (indicator (map fst D') c)) by (unfold indicator; now apply Permutation_map, Permutation_map).
  rewrite (vsum_perm _ _ Q). destruct (Rltb 0 _); [|reflexivity]. f_equal. unfold gaussian_kernel. rewrite !map_map.
  assert (E : forall (D : list (nat * list R)) x, vsum (map2 Rmult (map (multi_kernel sg x) (map snd D)) (indicator (map fst D) c)) = vsum (map (fun q => multi_kernel sg x (snd q) * (if Nat.eqb (fst q) c then 1 else 0)) D)).
  { intros D0 x. rewrite map_map. apply mask_row. }
  rewrite (map_ext _ _ (fun q => E D (snd q))), (map_ext _ _ (fun q => E D' (snd q))).
  rewrite (vsum_perm _ _ (Permutation_map _ P)). f_equal. apply map_ext. intros q. apply vsum_perm. now apply Permutation_map.
Qed.
Lemma cross_term_perm sg c1 c2 (D D' E E' : list (nat * list R)) : Permutation D D' -> Permutation E E' ->
  cross_term (gaussian_kernel sg (map snd D) (map snd E)) (indicator (map fst D) c1) (indicator (map fst E) c2)
  = cross_term (gaussian_kernel sg (map snd D') (map snd E')) (indicator (map fst D') c1) (indicator (map fst E') c2).
Proof.
  intros P Q. unfold cross_term.
  assert (I : forall (A B : list (nat * list R)) c, Permutation A B -> vsum (indicator (map fst A) c) = vsum (indicator (map fst B) c)) by (intros A B c H; apply vsum_perm; unfold indicator; now apply Permutation_map, Permutation_map).
  rewrite (I D D' c1 P), (I E E' c2 Q). cbv zeta. destruct (Rltb 0 _); [|reflexivity]. f_equal.
  assert (G : forall D E : list (nat * list R), map2 (fun a r => a * vsum (map2 Rmult r (indicator (map fst E) c2))) (indicator (map fst D) c1) (gaussian_kernel sg (map snd D) (map snd E))
     = map (fun q => (if Nat.eqb (fst q) c1 then 1 else 0) * vsum (map (fun u => multi_kernel sg (snd q) (snd u) * (if Nat.eqb (fst u) c2 then 1 else 0)) E)) D).
  { clear. intros D E. unfold gaussian_kernel, indicator at 2. rewrite !map_map. induction D as [|q D IH]; [reflexivity|]. cbn [map map2]. rewrite IH. f_equal. f_equal. rewrite map_map. apply mask_row. }
  rewrite !G. rewrite (vsum_perm _ _ (Permutation_map _ P)). f_equal. apply map_ext. intros q. f_equal. apply vsum_perm. now apply Permutation_map.
Qed.
Theorem C164_can : forall (Ds Ds' : list (nat * list R)) ft ft' kmeans sigmas dt ct eps, Permutation Ds Ds' -> Permutation ft ft' ->
  cdd_loss (map fst Ds) (map snd Ds) ft kmeans sigmas dt ct eps = cdd_loss (map fst Ds') (map snd Ds') ft' kmeans sigmas dt ct eps.
Proof.
  intros Ds Ds' ft ft' km sg dt ct eps Ps Pt. destruct km as [[centers predict]|]; [|reflexivity]. cbn [cdd_loss].
  rewrite (n_unique_perm _ _ (Permutation_map fst Ps)), (sigmas_perm sg eps _ _ (Permutation_map snd Ps)).
  pose proof (filter_perm (confident dt centers) _ _ Pt) as Pf.
  rewrite (bincount_perm _ _ (n_unique (map fst Ds')) (Permutation_map predict Pf)).
  set (counts := bincount _ _). set (valid := fun c => (ct <=? nth c counts 0)%nat).
  pose proof (filter_perm (fun x => valid (predict x)) _ _ Pf) as Pv.
  set (F := filter (fun x => valid (predict x)) (filter (confident dt centers) ft)) in *.
  set (F' := filter (fun x => valid (predict x)) (filter (confident dt centers) ft')) in *.
  set (s := the_sigmas sg (map snd Ds') eps).
  assert (DD : forall c1 c2, discrepancy s (map fst Ds) (map snd Ds) (map predict F) F c1 c2 = discrepancy s (map fst Ds') (map snd Ds') (map predict F') F' c1 c2).
  { intros c1 c2. unfold discrepancy. set (E := map (fun x => (predict x, x)) F). set (E' := map (fun x => (predict x, x)) F').
    assert (PE : Permutation E E') by now apply Permutation_map.
    assert (Q : forall L : list (list R), map fst (map (fun x => (predict x, x)) L) = map predict L /\ map snd (map (fun x => (predict x, x)) L) = L).
    { clear. intros L. rewrite !map_map. cbn. split; [reflexivity|apply map_id]. }
    destruct (Q F) as [Q1 Q2]. destruct (Q F') as [Q1' Q2']. fold E in Q1, Q2. fold E' in Q1', Q2'.
    pose proof (same_term_perm s c2 E E' PE) as H2. pose proof (cross_term_perm s c1 c2 Ds Ds' E E' Ps PE) as H3. rewrite Q1, Q2, Q1', Q2' in H2, H3.
    now rewrite (same_term_perm s c1 Ds Ds' Ps), H2, H3. }
  destruct (_ || _)%bool; [reflexivity|]. do 3 f_equal; f_equal; apply map_ext; intros p; apply DD.
Qed.

Example C164_ex : rect 1 [[1]; [2]; [6]] /\ Permutation [[1]; [2]; [6]] [[6]; [2]; [1]] /\
  mean (column [[1]; [2]; [6]] 0) = 3 /\ cov_entry [[1]; [2]; [6]] 0 0 = 7 /\ deepcoral_loss [[1]; [2]; [6]] [[0]; [0]] true = 49 / 4.
Proof.
  split; [intros r [<-|[<-|[<-|[]]]]; reflexivity|]. split; [exact (Permutation_rev [[1]; [2]; [6]])|].
  unfold deepcoral_loss, torch_cov, cov_entry, centred, mean, dot. cbn. repeat split; field.
Qed.
