(** * C179, C180: the labels of the target samples are not used *)
From Coq Require Import List ZArith QArith Bool Arith Lia Reals Lra.
From Verif Require Import Np NpFacts Labels Spec UtilsModel SelectModel RVec MetricsModel ReweightModel Rew2Model MapModel OTModel SelfModel.
Import ListNotations.
Local Open Scope nat_scope.
Local Open Scope list_scope.

(** ** Specification *)
(** Two label vectors of the same length that agree at every sample of a source domain (label >= 0). *)
Definition same_source_labels {L} (sd : list Z) (y y' : list L) : Prop :=
  length y = length y' /\ forall i d, nth_error sd i = Some d -> (0 <= d)%Z -> nth_error y i = nth_error y' i.
(** The domains are given by the caller, as an array or as one number for all samples, rather than guessed from masked labels. *)
Definition given_domains (sda : sd_arg) (n : nat) (sd : list Z) : Prop :=
  match sda with SDNone => False | SDScalar z => sd = repeat z n | SDArr l => sd = l end.

(** ** Lemmas *)
Lemma same_select {L} : forall sd (y y' : list L), same_source_labels sd y y' -> np_select (source_mask sd) y = np_select (source_mask sd) y'.
Proof.
  intros sd y y' [E A]. unfold np_select. rewrite <- E. destruct (_ =? _); [|reflexivity]. f_equal. revert y y' E A.
  induction sd as [|d sd IH]; intros [|a y] [|a' y'] E A; cbn in *; try easy.
  injection E as E. assert (R : select (source_mask sd) y = select (source_mask sd) y').
  { apply IH; [exact E|]. intros i e H He. exact (A (S i) e H He). }
  fold (source_mask sd). destruct (0 <=? d)%Z eqn:Ed; [|exact R]. rewrite R. apply Z.leb_le in Ed. specialize (A 0 d eq_refl Ed). cbn in A. congruence.
Qed.
Lemma given_check n (y y' : list val) sda sd f : given_domains sda n sd -> length y = length y' ->
  check_X_y_domain n y sda true f = check_X_y_domain n y' sda true f.
Proof. intros G E. unfold check_X_y_domain. rewrite E. destruct sda; [easy| |]; cbn [negb andb]; reflexivity. Qed.
Lemma check_flags_id f sd sd' : check_flags f sd = Ok sd' -> sd' = sd.
Proof. unfold check_flags, raise_if. cbv zeta. repeat match goal with |- context [if ?b then _ else _] => destruct b end; try discriminate; intros H; injection H; auto. Qed.
Lemma given_check_ok n (y : list val) sda sd f r : given_domains sda n sd -> check_X_y_domain n y sda true f = Ok r -> r = sd.
Proof.
  intros G. unfold check_X_y_domain. destruct (n =? 0); [discriminate|]. destruct (length y =? 0); [discriminate|]. cbn [negb andb].
  destruct (n =? length y) eqn:E; [|discriminate]. apply Nat.eqb_eq in E. cbn [negb]. destruct sda; cbn in G; [easy| |]; subst sd; cbn [bind];
  destruct (extract_source_indices _); cbn [bind]; try discriminate; intros H; apply check_flags_id in H; congruence.
Qed.
Lemma given_domain_ok n sda sd f r : given_domains sda n sd -> check_X_domain n sda f = Ok r -> r = sd.
Proof.
  intros G. unfold check_X_domain. destruct (n =? 0); [discriminate|]. destruct sda; cbn in G; [easy| |]; subst sd; cbn [bind];
  destruct (extract_source_indices _); cbn [bind]; try discriminate; destruct (negb _); try discriminate; destruct (negb _); try discriminate; intros H; now apply check_flags_id in H.
Qed.
Lemma indices_ok sd m : extract_source_indices sd = Ok m -> m = source_mask sd.
Proof. unfold extract_source_indices. destruct (_ =? _); [discriminate|]. now intros [= <-]. Qed.
(** The source halves agree; the halves exist for one vector if they exist for the other. *)
Lemma same_split {L A} sd (y y' : list L) (k : list (option (list L)) -> res A) : same_source_labels sd y y' ->
  (forall ys yt yt', k [Some ys; Some yt] = k [Some ys; Some yt']) ->
  bind (source_target_split [Some y] sd) k = bind (source_target_split [Some y'] sd) k.
Proof.
  intros S K. unfold source_target_split, split_gen, raise_if. cbn [length Nat.eqb]. destruct (extract_source_indices sd) as [m|] eqn:Em; [|reflexivity].
  apply indices_ok in Em. subst m. cbn [bind mapM split_one]. rewrite (same_select _ _ _ S). destruct (np_select (source_mask sd) y') as [ys|]; [|reflexivity]. cbn [bind].
  unfold np_select. rewrite (proj1 S). destruct (_ =? _); [|reflexivity]. cbn [bind concat app]. apply K.
Qed.
Lemma target_part_same Row (X : list Row) y y' sda sd : given_domains sda (length X) sd -> length y = length y' -> target_part Row X y sda = target_part Row X y' sda.
Proof. intros G E. unfold target_part. now rewrite (given_check _ y y' _ sd _ G E). Qed.

(** ** C179: unsupervised scorers *)
Section Scorers.
  Variables (Row : Type) (sign : R) (X : list Row) (y y' : list val) (sda : sd_arg) (sd : list Z).
  Hypothesis G : given_domains sda (length X) sd.
  Hypothesis S : same_source_labels sd y y'.
  Lemma same_circular_backward ty predict dt : check_y_masking y = Ok ty -> check_y_masking y' = Ok ty ->
    circular_backward Row predict dt X y sda = circular_backward Row predict dt X y' sda.
  Proof.
    intros H H'. unfold circular_backward, target_part. rewrite (given_check _ y y' _ sd _ G (proj1 S)).
    destruct (check_X_y_domain _ y' _ _ _) as [sd'|] eqn:E; [|reflexivity]. apply (given_check_ok _ _ _ sd) in E; [|exact G]. subst sd'. cbn [bind].
    destruct (extract_source_indices sd) as [m|] eqn:Em; [|reflexivity]. apply indices_ok in Em. subst m. cbn [bind].
    destruct (np_select _ X); [|reflexivity]. cbn [bind]. destruct (np_select _ sd); [|reflexivity]. cbn [bind]. rewrite H, H'. cbn [bind].
    destruct (predict _ _) as [yp|]; [|reflexivity]. cbn [bind]. destruct (_ =? _); [reflexivity|].
    rewrite (same_select _ _ _ S), (proj1 S). reflexivity.
  Qed.
End Scorers.

Theorem C179_no_target_labels : forall (Row F L : Type) sign X (y y' : list val) (yl yl' : list L) sda sd,
  given_domains sda (length X) sd -> same_source_labels sd y y' -> same_source_labels sd yl yl' ->
  (forall kde fexp scorer, importance_score Row sign kde fexp scorer X y sda = importance_score Row sign kde fexp scorer X y' sda) /\
  (forall pp plp red, entropy_score Row sign pp plp red X y sda = entropy_score Row sign pp plp red X y' sda) /\
  (forall pp T, snd_score Row sign pp T X y sda = snd_score Row sign pp T X y' sda) /\
  (forall tr va (tf : list Row -> res (list F)) clf pred loss, dev_score Row sign tr va tf clf pred loss X y yl sda = dev_score Row sign tr va tf clf pred loss X y' yl' sda).
Proof.
  intros Row F L sign X y y' yl yl' sda sd G S SL. repeat split; intros.
  - unfold importance_score. rewrite (given_check _ y y' _ sd _ G (proj1 S)). destruct (check_X_y_domain _ y' _ _ _) as [sd'|] eqn:E; [|reflexivity].
    apply (given_check_ok _ _ _ sd) in E; [|exact G]. subst sd'. cbn [bind]. destruct (extract_source_indices sd) as [m|] eqn:Em; [|reflexivity]. apply indices_ok in Em. subst m. cbn [bind].
    rewrite (same_select _ _ _ S). reflexivity.
  - unfold entropy_score. now rewrite (target_part_same _ _ y y' _ sd G (proj1 S)).
  - unfold snd_score. now rewrite (target_part_same _ _ y y' _ sd G (proj1 S)).
  - unfold dev_score. rewrite (given_check _ y y' _ sd _ G (proj1 S)). destruct (check_X_y_domain _ y' _ _ _) as [sd'|] eqn:E; [|reflexivity].
    apply (given_check_ok _ _ _ sd) in E; [|exact G]. subst sd'. cbn [bind]. destruct (extract_source_indices sd) as [m|] eqn:Em; [|reflexivity]. apply indices_ok in Em. subst m. cbn [bind].
    rewrite (same_select _ _ _ SL). reflexivity.
Qed.
(** Scorers for classifiers only look at the type of the labels. *)
Theorem C179_classification : forall (Row : Type) sign X (y y' : list val) (Xr : list (list R)) sda sd sda' sd',
  given_domains sda (length X) sd -> given_domains sda' (length Xr) sd' -> length y = length y' -> find_y_type1 y = find_y_type1 y' ->
  (forall predict scorer alpha ice perm, mixval_score sign predict scorer alpha ice perm Xr y sda' = mixval_score sign predict scorer alpha ice perm Xr y' sda') /\
  (forall p threshold est, mano_score Row sign p threshold est X y sda = mano_score Row sign p threshold est X y' sda).
Proof.
  intros Row sign X y y' Xr sda sd sda' sd' G G' E T. split; intros.
  - unfold mixval_score. now rewrite (target_part_same _ _ y y' _ sd' G' E), T.
  - unfold mano_score. now rewrite (target_part_same _ _ y y' _ sd G E), T.
Qed.
(** CircularValidation refuses labels that are not masked; among those it accepts, the target labels make no difference. *)
Theorem C179_circular : forall (Row : Type) sign X (y y' : list val) sda sd ty,
  given_domains sda (length X) sd -> same_source_labels sd y y' -> check_y_masking y = Ok ty -> check_y_masking y' = Ok ty ->
  forall predict fit_backward source_scorer dt,
    circular_score Row sign predict fit_backward source_scorer dt X y sda = circular_score Row sign predict fit_backward source_scorer dt X y' sda.
Proof.
  intros Row sign X y y' sda sd ty G S H H' predict fb sc dt. unfold circular_score. rewrite (target_part_same _ _ y y' _ sd G (proj1 S)).
  destruct (target_part Row X y' sda) as [[[m Xt] sdt]|] eqn:E; [|reflexivity]. cbn [bind].
  rewrite (same_circular_backward _ _ y y' sda sd G S ty predict dt H H'). destruct (circular_backward _ _ _ _ y' _); [|reflexivity]. cbn [bind].
  assert (Em : m = source_mask sd).
  { unfold target_part in E. destruct (check_X_y_domain _ y' _ _ _) as [sd'|] eqn:Es; [|discriminate]. apply (given_check_ok _ _ _ sd) in Es; [|exact G]. subst sd'. cbn [bind] in E.
    destruct (extract_source_indices sd) as [m0|] eqn:Em; [|discriminate]. apply indices_ok in Em. subst m0. cbn [bind] in E.
    destruct (np_select _ X); [|discriminate]. cbn [bind] in E. destruct (np_select _ sd); [|discriminate]. cbn [bind] in E. congruence. }
  subst m. now rewrite (same_select _ _ _ S).
Qed.
(** Two sources of class 1 and 2 and two targets; the labels of the targets are masked, or not. *)
Example C179_ex : given_domains (SDArr [1; -2; 1; -2]%Z) 4 [1; -2; 1; -2]%Z /\
  same_source_labels [1; -2; 1; -2]%Z [VNum 1%Q; VNum (-1)%Q; VNum 2%Q; VNum (-1)%Q] [VNum 1%Q; VNum 2%Q; VNum 2%Q; VNum 1%Q] /\
  find_y_type1 [VNum 1%Q; VNum (-1)%Q; VNum 2%Q; VNum (-1)%Q] = find_y_type1 [VNum 1%Q; VNum 2%Q; VNum 2%Q; VNum 1%Q] /\
  check_y_masking [VNum 1%Q; VNum (-1)%Q; VNum 2%Q; VNum (-1)%Q] = Ok DISCRETE /\ check_y_masking [VNum 1%Q; VNum (-1)%Q; VNum 2%Q; VNum 5%Q] = Ok DISCRETE.
Proof. repeat split; try reflexivity. intros [|[|[|[|[|i]]]]] d H Hd; cbn in *; try discriminate; try reflexivity; injection H as <-; lia. Qed.

(** ** C180: adapters and estimators *)
Lemma take_status {L} (y y' : list L) : length y = length y' -> forall idx,
  (exists r r', np_take idx y = Ok r /\ np_take idx y' = Ok r') \/ (np_take idx y = Err IndexError /\ np_take idx y' = Err IndexError).
Proof.
  intros E. induction idx as [|i idx IH]; [left; exists [], []; auto|]. unfold np_take in *. cbn [mapM].
  destruct (nth_error y i) as [a|] eqn:Ei.
  - assert (Hi : i < length y) by (apply nth_error_Some; congruence). destruct (nth_error y' i) as [a'|] eqn:Ei'; [|apply nth_error_None in Ei'; lia]. cbn [bind].
    destruct IH as [(r & r' & -> & ->)|[-> ->]]; cbn [bind]; [left; eauto|right; auto].
  - apply nth_error_None in Ei. destruct (nth_error y' i) as [a'|] eqn:Ei'; [|right; auto]. assert (i < length y') by (apply nth_error_Some; congruence). lia.
Qed.
Lemma take_same {L} (y y' : list L) idx : Forall (fun i => nth_error y i = nth_error y' i) idx -> np_take idx y = np_take idx y'.
Proof. unfold np_take. induction 1 as [|i idx H _ IH]; [reflexivity|]. cbn [mapM]. now rewrite H, IH. Qed.
Lemma same_domains {L} sd (y y' : list L) : same_source_labels sd y y' -> forall di, Forall (fun kv : Z * list nat => Forall (fun i => nth_error sd i = Some (fst kv)) (snd kv)) di ->
  let f (u : list L) (kv : Z * list nat) := (r <- mapM (take_opt np_take (snd kv)) [Some u] ;; Ok (fst kv, r)) in
  (exists e, mapM (f y) di = Err e /\ mapM (f y') di = Err e) \/
  exists p q, mapM (f y) di = Ok p /\ mapM (f y') di = Ok q /\ filter (fun kv => (0 <=? fst kv)%Z) p = filter (fun kv => (0 <=? fst kv)%Z) q.
Proof.
  intros S di F f. induction F as [|[d idx] di H _ IH]; [right; exists [], []; auto|]. cbn [mapM].
  assert (Ef : forall u, f u (d, idx) = (r <- np_take idx u ;; Ok (d, [Some r]))).
  { intros u. unfold f. cbn [mapM take_opt fst snd bind]. destruct (np_take idx u); reflexivity. }
  rewrite !Ef. destruct (0 <=? d)%Z eqn:Ed.
  - assert (Et : np_take idx y = np_take idx y').
    { apply take_same. eapply Forall_impl; [|exact H]. cbn beta. intros i Hi. apply (proj2 S i d Hi). now apply Z.leb_le. }
    rewrite Et. destruct (np_take idx y') as [r|e]; [|left; eexists; split; reflexivity]. cbn [bind].
    destruct IH as [(e & -> & ->)|(p & q & -> & -> & Eq)]; cbn [bind]; [left; eexists; split; reflexivity|]. right. do 2 eexists. split; [reflexivity|]. split; [reflexivity|]. cbn [filter fst]. rewrite Ed. now f_equal.
  - destruct (take_status y y' (proj1 S) idx) as [(r & r' & -> & ->)|[-> ->]]; cbn [bind]; [|left; eexists; split; reflexivity].
    destruct IH as [(e & -> & ->)|(p & q & -> & -> & Eq)]; cbn [bind]; [left; eexists; split; reflexivity|]. right. do 2 eexists. split; [reflexivity|]. split; [reflexivity|]. cbn [filter fst]. now rewrite Ed.
Qed.
Lemma same_map {L M} (f : L -> M) sd y y' : same_source_labels sd y y' -> same_source_labels sd (map f y) (map f y').
Proof. intros [E A]. split; [now rewrite !map_length|]. intros i d H Hd. rewrite !nth_error_map. now rewrite (A i d H Hd). Qed.
Theorem C180_reweighting : forall Row (X : list Row) sda sd, given_domains sda (length X) sd ->
  (forall (y y' : list Z), same_source_labels sd y y' ->
     (forall solve, tars_fit Row solve X y sda = tars_fit Row solve X y' sda) /\
     (forall rows_eqb st, tars_weights Row rows_eqb st X y sda = tars_weights Row rows_eqb st X y' sda)) /\
  (forall (y y' : list R), same_source_labels sd y y' ->
     (forall kern inv solve, tarsc_fit kern inv solve X y sda = tarsc_fit kern inv solve X y' sda) /\
     (forall dist rows_eqb st, tarsc_weights dist rows_eqb st X y sd = tarsc_weights dist rows_eqb st X y' sd)).
Proof.
  intros Row X sda sd G. split; intros y y' S; split; intros.
  - unfold tars_fit. destruct (rw_check Row X sda) as [sd'|] eqn:E; [|reflexivity]. apply (given_domain_ok _ _ sd) in E; [|exact G]. subst sd'. cbn [bind].
    destruct (source_target_split [Some X] sd) as [parts|]; [|reflexivity]. cbn [bind]. apply same_split; [exact S|]. intros ys yt yt'. reflexivity.
  - unfold tars_weights. rewrite (given_check _ (map _ y) (map _ y') _ sd _ G (proj1 (same_map _ _ _ _ S))).
    destruct (check_X_y_domain _ _ _ _ _) as [sd'|] eqn:E; [|reflexivity]. apply (given_check_ok _ _ _ sd) in E; [|exact G]. subst sd'. cbn [bind].
    destruct (extract_source_indices sd) as [m|] eqn:Em; [|reflexivity]. apply indices_ok in Em. subst m. cbn [bind]. now rewrite (same_select _ _ _ S).
  - unfold tarsc_fit. destruct (rw_check Row X sda) as [sd'|] eqn:E; [|reflexivity]. apply (given_domain_ok _ _ sd) in E; [|exact G]. subst sd'. cbn [bind].
    destruct (source_target_split [Some X] sd) as [parts|]; [|reflexivity]. cbn [bind]. apply same_split; [exact S|]. intros ys yt yt'. reflexivity.
  - unfold tarsc_weights. now rewrite (proj1 S).
Qed.
(** MMDLSConSMappingAdapter *)
Theorem C180_mapping : forall Coef (X : arr) (y y' : list val) sda sd, given_domains sda (a_len X) sd -> same_source_labels sd y y' ->
  (forall optimise, ls_fit Coef optimise X y sda = ls_fit Coef optimise X y' sda) /\
  (forall app czero same nearest veqb allow st, ls_transform Coef app czero same nearest veqb allow st X (Some y) sda = ls_transform Coef app czero same nearest veqb allow st X (Some y') sda).
Proof.
  intros Coef X y y' sda sd G S. split; intros.
  - unfold ls_fit. destruct (check_X_domain _ sda _) as [sd'|] eqn:E; [|reflexivity]. apply (given_domain_ok _ _ sd) in E; [|exact G]. subst sd'. cbn [bind].
    destruct (source_target_split [Some (a_rows X)] sd) as [parts|]; [|reflexivity]. cbn [bind]. apply same_split; [exact S|]. reflexivity.
  - unfold ls_transform. destruct (check_X_domain _ sda _) as [sd'|] eqn:E; [|reflexivity]. apply (given_domain_ok _ _ sd) in E; [|exact G]. subst sd'. cbn [bind].
    destruct (extract_source_indices sd) as [m|] eqn:Em; [|reflexivity]. apply indices_ok in Em. subst m. cbn [bind]. now rewrite (same_select _ _ _ S).
Qed.
(** Label propagation and JDOT: [sd] are the labels after the checks. *)
Theorem C180_propagation : forall Xrow (X : list Xrow) sw sd,
  (forall plan (y y' : list Z), same_source_labels sd y y' -> otlp_discrete plan X y sw sd = otlp_discrete plan X y' sw sd) /\
  (forall plan (y y' : list R), same_source_labels sd y y' -> otlp_regression plan X y sw sd = otlp_regression plan X y' sw sd) /\
  (forall labels (y y' : list Z), same_source_labels sd y y' -> jcpot_fit_transform labels X y sd = jcpot_fit_transform labels X y' sd) /\
  (forall L Out solver (y y' : list L), same_source_labels sd y y' -> jdot_fit (Out := Out) solver X y sw sd = jdot_fit solver X y' sw sd).
Proof.
  intros Xrow X sw sd.
  assert (P : forall L A (y y' : list L) (k : list Xrow * list Xrow * list L * list R * list R -> res A), same_source_labels sd y y' ->
     bind (otlp_parts X y sw sd) k = bind (otlp_parts X y' sw sd) k).
  { intros L A y y' k S. unfold otlp_parts. destruct (source_target_split [Some X] sd) as [px|]; [|reflexivity]. cbn [bind]. f_equal. apply same_split; [exact S|]. reflexivity. }
  repeat split.
  - intros plan y y' S. unfold otlp_discrete. rewrite (proj1 S). now apply P.
  - intros plan y y' S. unfold otlp_regression. rewrite (proj1 S). now apply P.
  - intros labels y y' S. unfold jcpot_fit_transform. destruct (per_domain_split [Some X] sd) as [px|]; [|reflexivity]. cbn [bind].
    assert (D : (exists e, per_domain_split [Some y] sd = Err e /\ per_domain_split [Some y'] sd = Err e) \/
                exists p q, per_domain_split [Some y] sd = Ok p /\ per_domain_split [Some y'] sd = Ok q /\ fst p = fst q).
    { unfold per_domain_split, per_domain_gen, raise_if. cbn [length Nat.eqb]. unfold extract_domains_indices. destruct (length sd =? 0); [left; eexists; split; reflexivity|]. cbn [bind].
      pose proof (same_domains sd y y' S (map (fun d => (d, flatnonzero (map (fun x => (x =? d)%Z) sd))) (unique sd))) as D. cbn zeta in D.
      destruct D as [(e & D1 & D2)|(p & q & D1 & D2 & D3)].
      - apply Forall_forall. intros [d idx] I. apply in_map_iff in I as (d0 & [= <- <-] & _). cbn [fst snd]. apply Forall_forall. intros i Hi.
        apply flatnonzero_In in Hi. rewrite nth_error_map in Hi. destruct (nth_error sd i) as [z|]; [|discriminate]. cbn in Hi. f_equal. apply Z.eqb_eq. congruence.
      - left. exists e. rewrite D1, D2. auto.
      - right. exists (filter (fun kv => (0 <=? fst kv)%Z) p, filter (fun kv => negb (0 <=? fst kv)%Z) p), (filter (fun kv => (0 <=? fst kv)%Z) q, filter (fun kv => negb (0 <=? fst kv)%Z) q).
        rewrite D1, D2. auto. }
    destruct D as [(e & -> & ->)|(p & q & -> & -> & Ep)]; [reflexivity|]. cbn [bind]. rewrite Ep, (proj1 S). reflexivity.
  - intros L Out solver y y' S. unfold jdot_fit. destruct (source_target_split [Some X] sd) as [px|]; [|reflexivity]. cbn [bind]. apply same_split; [exact S|]. reflexivity.
Qed.
Theorem C180_dasvm : forall Row Est fitE predictE decisionE veqb k max_iter (X : list Row) (y y' : list val) sda sd,
  given_domains sda (length X) sd -> same_source_labels sd y y' ->
  dasvm_fit Row Est fitE predictE decisionE veqb k max_iter X y sda = dasvm_fit Row Est fitE predictE decisionE veqb k max_iter X y' sda.
Proof.
  intros Row Est fitE predictE decisionE veqb k mi X y y' sda sd G S. unfold dasvm_fit. rewrite (given_check _ y y' _ sd _ G (proj1 S)).
  destruct (check_X_y_domain _ y' _ _ _) as [sd'|] eqn:E; [|reflexivity]. apply (given_check_ok _ _ _ sd) in E; [|exact G]. subst sd'. cbn [bind].
  destruct (source_target_split [Some X] sd) as [px|]; [|reflexivity]. cbn [bind]. apply same_split; [exact S|]. reflexivity.
Qed.
(** What JDOT hands over: the labels 1 and 2 of the sources, whether the target label is 5 or masked. *)
Example C180_ex : same_source_labels [1; -2; 1]%Z [1; 5; 2]%Z [1; -1; 2]%Z /\
  jdot_fit (fun Xs ys Xt _ _ => Ok (Xs, ys, Xt)) [10; 20; 30] [1; 5; 2]%Z None [1; -2; 1]%Z = Ok ([10; 30], [1; 2]%Z, [20]) /\
  jdot_fit (fun Xs ys Xt _ _ => Ok (Xs, ys, Xt)) [10; 20; 30] [1; -1; 2]%Z None [1; -2; 1]%Z = Ok ([10; 30], [1; 2]%Z, [20]).
Proof. split; [|split; reflexivity]. split; [reflexivity|]. intros [|[|[|i]]] d H Hd; cbn in *; try discriminate; try reflexivity; injection H as <-; lia. Qed.
