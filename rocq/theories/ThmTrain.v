(** C182: what a pipeline trains its final estimator on. *)
From Coq Require Import String List ZArith QArith Bool Arith Lia.
From Verif Require Import Np NpFacts Labels Spec SpecFacts UtilsModel UtilsSpec UtilsProofs UtilsProofs2
  SelectModel SelectSpec SelectProofs ThmSelect.
Import ListNotations.
Local Open Scope string_scope.
Local Open Scope nat_scope.
Local Open Scope list_scope.

(** ** Specification *)

(** What the steps before the last one return on [n] samples: one row per sample, parameters with distinct names
    and none of them a Python list of one element per sample. *)
Definition adapted {R} (n : nat) (o : @step_out R) : Prop :=
  length (out_X o) = n /\ NoDup (map fst (out_params o)) /\ no_pylist n (out_params o).
Definition no_labels {R} (o : @step_out R) : Prop := match o with OTriple _ (Some _) _ => False | _ => True end.
Definition new_labels {R} (o : @step_out R) (y : list val) : Prop :=
  match o with OTriple _ (Some l) _ => l = y | _ => False end.

(** A transformer step whose outputs are of that form and give no labels. *)
Definition adapter {R} (n : nat) (s : shared_step R) : Prop :=
  s_transformer s = true /\ forall k o, length (k_X k) = n -> s_run s k = Ok o -> adapted n o /\ no_labels o.

(** The labels a user may give: a class code per sample, none of the sources' being -1; or a target value per
    sample, the sources' being finite. [m] is the mask of that kind of labels. *)
Definition usable_labels (sd : list Z) (y : list val) (m : val) : Prop :=
  (discrete_labels y /\ m = VNum (inject_Z (-1)) /\ Forall (fun v => keep_discrete v = true) (rows_of is_source sd y)) \/
  (continuous_labels y /\ m = VNan /\ Forall (fun v => keep_continuous v = true) (rows_of is_source sd y)).

(** Labels given to the targets only: the sources' are masked and the targets' are not. *)
Definition target_labels (sd : list Z) (y : list val) : Prop :=
  length y = length sd /\
  ((discrete_labels y /\ map keep_discrete y = map is_target sd) \/
   (continuous_labels y /\ map keep_continuous y = map is_target sd)).

(** Step [i] receives the rows of the step before it and the labels [y], and returns [outs i]. *)
Definition run_on {R} (X : list R) (y : list val) (steps : list (shared_step R)) (calls : list (@call R))
  (outs : list (@step_out R)) : Prop :=
  Forall2 (fun sk o => s_run (fst sk) (snd sk) = Ok o) (combine steps calls) outs /\
  length calls = length steps /\
  map k_X calls = removelast (X :: map out_X outs) /\
  Forall (fun k => k_y k = Some y) calls.

(** The parameters in force after the steps returned [outs]. *)
Definition in_force {R} (outs : list (@step_out R)) (ps ps' : params) : Prop :=
  forall key, p_get key ps' = match last_param key outs with Some v => Some v | None => p_get key ps end.

(** An estimator that does not ask for the domain labels and is not a transformer: what is in scikit-learn. *)
Definition plain {R} (s : shared_step R) : Prop :=
  s_transformer s = false /\
  forall ps rp, s_route s ps = Ok rp -> p_get "sample_domain" rp = None /\ incl rp ps.

(** ** Masking twice *)

Lemma mask_targets_idem m sd y : mask_targets m sd (mask_targets m sd y) = mask_targets m sd y.
Proof.
  unfold mask_targets. revert y. induction sd as [|d sd IH]; intros [|v y]; cbn; auto.
  rewrite IH. now destruct (is_source d).
Qed.

Lemma mask_targets_keep (keep : val -> bool) m sd y : length y = length sd -> keep m = false ->
  Forall (fun v => keep v = true) (rows_of is_source sd y) ->
  map keep (mask_targets m sd y) = map is_source sd.
Proof.
  rewrite rows_of_select. unfold mask_targets. intros HL Hm. revert y HL.
  induction sd as [|d sd IH]; intros [|v y] HL HF; cbn in *; try discriminate; auto.
  destruct (is_source d) eqn:E; cbn in HF.
  - inversion HF; subst. rewrite IH by (auto; lia). now f_equal.
  - rewrite IH by (auto; lia). now f_equal.
Qed.

Lemma filter_by_as {A} (keep : val -> bool) (p : Z -> bool) bs sd (xs : list A) :
  map keep bs = map p sd -> filter_by keep bs xs = rows_of p sd xs.
Proof. intros H. now rewrite filter_by_select, rows_of_select, H. Qed.

Lemma params_filter_as (keep : val -> bool) (p : Z -> bool) bs sd rp :
  map keep bs = map p sd -> params_filter keep bs rp = params_filter p sd rp.
Proof.
  intros H. assert (L : length bs = length sd) by (rewrite <- (map_length keep bs), H; apply map_length).
  unfold params_filter. apply map_ext. intros [k v]. cbn [fst snd]. f_equal.
  unfold param_filter. destruct v; auto; rewrite L; destruct (_ =? _); auto; f_equal;
  now rewrite !filter_by_select, H.
Qed.

Lemma rows_of_mask_targets m sd y : length y = length sd ->
  rows_of is_source sd (mask_targets m sd y) = rows_of is_source sd y.
Proof.
  rewrite !rows_of_select. unfold mask_targets. revert y.
  induction sd as [|d sd IH]; intros [|v y] HL; cbn in *; try discriminate; auto.
  destruct (is_source d) eqn:E; cbn; [f_equal|]; apply IH; lia.
Qed.

Lemma filter_rows (p : val -> bool) (q : Z -> bool) y sd : map p y = map q sd -> filter p y = rows_of q sd y.
Proof.
  intros H. rewrite rows_of_select, <- H. clear H sd. induction y as [|v y IH]; cbn; auto.
  destruct (p v); cbn; now rewrite IH.
Qed.

Lemma usable_type sd y m : sd <> [] -> length y = length sd -> usable_labels sd y m ->
  exists ty, m = mask_of ty /\ find_y_type1 y = Ok ty /\ find_y_type1 (mask_targets m sd y) = Ok ty.
Proof.
  intros Hne HL [[H [-> _]]|[H [-> _]]].
  - exists DISCRETE. split; [reflexivity|]. split.
    + apply find_y_type_discrete; auto. intros ->. destruct sd; cbn in *; easy.
    + apply find_y_type_discrete.
      * intros E. apply (f_equal (@length _)) in E. rewrite mask_targets_length in E by auto. destruct sd; easy.
      * unfold discrete_labels, mask_targets in *. rewrite Forall_forall in *. intros v Hv.
        apply in_map_iff in Hv. destruct Hv as [[d w] [<- Hin]]. cbn [fst snd].
        destruct (is_source d).
        -- apply H. eapply in_combine_r; eauto.
        -- exists (inject_Z (-1)), (-1)%Z. split; reflexivity.
  - exists CONTINUOUS. split; [reflexivity|]. split.
    + now apply find_y_type_continuous.
    + apply find_y_type_continuous.
      destruct (forallb is_source sd) eqn:E.
      * rewrite mask_targets_all_source; auto. now apply forallb_forall.
      * left. clear H Hne. revert y HL. induction sd as [|d sd IH]; [discriminate|].
        intros [|v y] HL; [discriminate|]. unfold mask_targets in *. cbn in *.
        destruct (is_source d); cbn in *; [right; apply IH; auto; lia|now left].
Qed.

(** ** The run of the first steps *)

Lemma chain_prefix {R} (ps : params) (sd : list Z) (ym : list val) (pre tail : list (shared_step R)) :
  auto_mask (Some ym) ps = Ok (Some ym) ->
  Forall (adapter (length sd)) pre ->
  forall c ks, length (c_X c) = length sd -> c_labels c = None ->
  shared_chain (pre ++ tail) c (Some ym) ps = Ok ks ->
  exists calls outs ks', ks = calls ++ ks' /\ run_on (c_X c) ym pre calls outs /\
    Forall (fun o => adapted (length sd) o /\ no_labels o) outs /\
    c_labels (fold_left merge_in outs c) = None /\
    shared_chain tail (fold_left merge_in outs c) (Some ym) ps = Ok ks'.
Proof.
  intros Hm Hpre. induction Hpre as [|s pre [Ht Hs] Hpre IH]; intros c ks HX Hl Hc.
  - exists [], [], ks. repeat split; auto; constructor.
  - cbn [app shared_chain] in Hc.
    assert (E : (if s_mask s then auto_mask (Some ym) ps else Ok (Some ym)) = Ok (Some ym)) by (now destruct (s_mask s)).
    unfold shared_fit in Hc. rewrite E in Hc. cbn [bind] in Hc. unfold merge_out in Hc. rewrite Hl in Hc.
    destruct (s_route s _) as [rp|e]; [|discriminate]. cbn [bind] in Hc.
    rewrite Ht in Hc. cbn [sel_remove_masked negb andb bind] in Hc.
    set (k := mkCall (c_X c) (Some ym) rp) in *.
    destruct (s_run s k) as [o|e] eqn:Eo; [|discriminate]. cbn [bind] in Hc.
    destruct (shared_chain (pre ++ tail) (merge_in c o) (Some ym) ps) as [ks1|e] eqn:Ec; [|discriminate].
    cbn [bind] in Hc. injection Hc as <-.
    destruct (Hs k o HX Eo) as [Ha Hn].
    assert (EX : c_X (merge_in c o) = out_X o) by (now destruct o).
    assert (HX' : length (c_X (merge_in c o)) = length sd) by (rewrite EX; apply Ha).
    assert (Hl' : c_labels (merge_in c o) = None) by (destruct o as [| |? [] ?]; cbn in *; auto; easy).
    destruct (IH _ _ HX' Hl' Ec) as [calls [outs [ks' [-> [[R1 [R2 [R3 R4]]] [R5 [R6 R7]]]]]]].
    exists (k :: calls), (o :: outs), ks'. split; [reflexivity|]. split; [|split; [|split]]; auto.
    split; [|split; [|split]].
    + cbn [combine]. constructor; auto.
    + cbn. now f_equal.
    + cbn [map]. rewrite R3, EX. reflexivity.
    + constructor; auto.
Qed.

Lemma chain_mask_first {R} (s : shared_step R) steps c y ym ps :
  s_mask s = true -> auto_mask (Some y) ps = Ok (Some ym) -> auto_mask (Some ym) ps = Ok (Some ym) ->
  shared_chain (s :: steps) c (Some y) ps = shared_chain (s :: steps) c (Some ym) ps.
Proof. intros H1 H2 H3. cbn [shared_chain]. unfold shared_fit. now rewrite H1, H2, H3. Qed.

Lemma in_dict_set {V} (d : dict string V) k v q : In q (dict_set String.eqb k v d) -> q = (k, v) \/ In q d.
Proof.
  induction d as [|[k' v'] d IH]; cbn; [intuition|].
  destruct (String.eqb k k') eqn:E; cbn.
  - apply String.eqb_eq in E. subst k'. intuition.
  - intuition.
Qed.

Lemma in_dict_update {V} (d e : dict string V) q : In q (dict_update String.eqb d e) -> In q d \/ In q e.
Proof.
  unfold dict_update. revert d. induction e as [|[k v] e IH]; intros d H; cbn in *; auto.
  apply IH in H. destruct H as [H|H]; auto. apply in_dict_set in H. destruct H as [->|H]; auto.
Qed.

Lemma meta_no_pylist {R} n (outs : list (@step_out R)) : Forall (fun o => no_pylist n (out_params o)) outs ->
  forall c, no_pylist n (c_meta c) -> no_pylist n (c_meta (fold_left merge_in outs c)).
Proof.
  induction 1 as [|o outs Ho H IH]; intros c Hc; auto. cbn [fold_left]. apply IH.
  intros k l Hin. destruct o as [X|X po|X y po]; cbn in *; [now apply (Hc k)| |];
  apply in_dict_update in Hin; destruct Hin; [now apply (Hc k)|now apply (Ho k)|now apply (Hc k)|now apply (Ho k)].
Qed.

Lemma final_params {R} (X0 : list R) outs ps :
  Forall (fun o => NoDup (map fst (out_params o))) outs ->
  in_force outs ps (dict_update String.eqb ps (c_meta (fold_left merge_in outs (from_array X0)))).
Proof.
  intros H key. pose proof (C19_metadata_override R X0 outs None ps) as G. unfold merge_out in G.
  apply G. now apply Forall_forall.
Qed.

Lemma final_rows {R} (X0 : list R) outs :
  c_X (fold_left merge_in outs (from_array X0)) = last (map out_X outs) X0.
Proof.
  assert (G : forall c, c_X (fold_left merge_in outs c) = last (map out_X outs) (c_X c)).
  { induction outs as [|o outs IH]; intros c; auto. cbn [fold_left map]. rewrite IH.
    destruct outs as [|o' outs']; [destruct o; reflexivity|].
    change (last (out_X o :: map out_X (o' :: outs')) (c_X c)) with (last (map out_X (o' :: outs')) (c_X c)).
    apply last_default. easy. }
  apply (G (from_array X0)).
Qed.

Lemma last_rows_length {R} n (X : list R) outs : length X = n ->
  Forall (fun o : @step_out R => length (out_X o) = n) outs -> length (last (map out_X outs) X) = n.
Proof.
  intros HX H. induction H as [|o outs Ho H IH]; auto. cbn [map]. destruct outs as [|o' outs]; auto.
Qed.

(** The call on a plain estimator, from the labels in force. *)
Lemma plain_fit {R} (s : shared_step R) (c : @container R) yarg ps sd yf (p : Z -> bool) y' kf :
  plain s -> no_pylist (length sd) ps -> no_pylist (length sd) (c_meta c) ->
  sd <> [] -> length (c_X c) = length sd -> length yf = length sd ->
  (match c_labels c with Some l => Some l | None => yarg end) = Some yf ->
  ((discrete_labels yf /\ map keep_discrete yf = map p sd) \/
   (continuous_labels yf /\ map keep_continuous yf = map p sd)) ->
  auto_mask yarg ps = Ok yarg ->
  shared_fit (s_route s) (s_transformer s) (s_mask s) c yarg ps = Ok (y', kf) ->
  exists rp, s_route s (dict_update String.eqb ps (c_meta c)) = Ok rp /\
    kf = mkCall (rows_of p sd (c_X c)) (Some (rows_of p sd yf)) (params_filter p sd rp).
Proof.
  intros [Ht Hr] Hpy1 Hpy2 Hne HX HL Hlab Hk Hm Hf. unfold shared_fit in Hf.
  assert (E : (if s_mask s then auto_mask yarg ps else Ok yarg) = Ok yarg) by (now destruct (s_mask s)).
  rewrite E in Hf. cbn [bind] in Hf. unfold merge_out in Hf. rewrite Hlab in Hf.
  destruct (s_route s (dict_update String.eqb ps (c_meta c))) as [rp|e] eqn:Er; [|discriminate].
  cbn [bind] in Hf. rewrite Ht in Hf. destruct (Hr _ _ Er) as [Hsd Hin].
  assert (Hpl : no_pylist (length sd) rp).
  { intros k l Hk1. apply Hin, in_dict_update in Hk1. destruct Hk1; [now apply (Hpy1 k)|now apply (Hpy2 k)]. }
  unfold sel_remove_masked, has_key in Hf. rewrite Hsd in Hf. cbn [negb andb] in Hf.
  exists rp. split; [reflexivity|].
  assert (Hy : yf <> []) by (intros ->; destruct sd; cbn in *; easy).
  rewrite <- HL in Hpl.
  destruct Hk as [[Hd Hk]|[Hd Hk]].
  - rewrite remove_masked_discrete in Hf by (auto; lia). cbn [bind] in Hf. injection Hf as _ <-.
    rewrite (filter_by_as _ _ _ _ _ Hk), (filter_rows _ _ _ _ Hk), (params_filter_as _ _ _ _ _ Hk). reflexivity.
  - rewrite remove_masked_continuous in Hf by (auto; lia). cbn [bind] in Hf. injection Hf as _ <-.
    rewrite (filter_by_as _ _ _ _ _ Hk), (filter_rows _ _ _ _ Hk), (params_filter_as _ _ _ _ _ Hk). reflexivity.
Qed.

Lemma usable_mask ps sd y m : get_sd ps = Some sd -> sd <> [] -> length y = length sd -> usable_labels sd y m ->
  auto_mask (Some y) ps = Ok (Some (mask_targets m sd y)) /\
  auto_mask (Some (mask_targets m sd y)) ps = Ok (Some (mask_targets m sd y)).
Proof.
  intros Hsd Hne HL Hu. destruct (usable_type sd y m Hne HL Hu) as [ty [Em [E1 E2]]]. subst m. split.
  - now apply auto_mask_ok.
  - rewrite (auto_mask_ok _ ps sd ty); auto.
    + now rewrite mask_targets_idem.
    + now apply mask_targets_length.
Qed.

Lemma usable_kept sd y m : sd <> [] -> length y = length sd -> usable_labels sd y m ->
  let ym := mask_targets m sd y in
  (discrete_labels ym /\ map keep_discrete ym = map is_source sd) \/
  (continuous_labels ym /\ map keep_continuous ym = map is_source sd).
Proof.
  intros Hne HL Hu. pose proof (usable_type sd y m Hne HL Hu) as [ty [Em [_ E]]]. cbn zeta.
  destruct Hu as [[H [-> HF]]|[H [-> HF]]].
  - left. split; [|now apply mask_targets_keep].
    unfold discrete_labels, mask_targets in *. rewrite Forall_forall in *. intros v Hv.
    apply in_map_iff in Hv. destruct Hv as [[d w] [<- Hin]]. cbn [fst snd].
    destruct (is_source d); [apply H; eapply in_combine_r; eauto|exists (inject_Z (-1)), (-1)%Z; split; reflexivity].
  - right. split; [|now apply mask_targets_keep].
    destruct (forallb is_source sd) eqn:Ea.
    + rewrite mask_targets_all_source; auto. now apply forallb_forall.
    + left. clear - HL Ea. revert y HL. induction sd as [|d sd IH]; [discriminate|].
      intros [|v y] HL; [discriminate|]. unfold mask_targets in *. cbn in *.
      destruct (is_source d); cbn in *; [right; apply IH; auto; lia|now left].
Qed.

(** ** C182 *)

(** Any number of adapters, the first of which masks, then an estimator from scikit-learn: every adapter receives
    all samples with the target labels masked; the estimator is fitted on the source samples as the last adapter
    returned them, on the labels the user gave for them, and on the source part of every parameter it asks for, the
    last adapter that set a parameter deciding its value. *)
Theorem C182_trained_on_adapted_sources : forall (R : Type) (pre : list (shared_step R)) (fin : shared_step R) first
    (X : list R) y ps sd m ks,
  get_sd ps = Some sd -> sd <> [] -> length X = length sd -> length y = length sd -> usable_labels sd y m ->
  no_pylist (length sd) ps ->
  Forall (adapter (length sd)) pre -> plain fin ->
  hd_error (pre ++ [fin]) = Some first -> s_mask first = true ->
  shared_chain (pre ++ [fin]) (from_array X) (Some y) ps = Ok ks ->
  exists calls outs ps' rp,
    run_on X (mask_targets m sd y) pre calls outs /\
    in_force outs ps ps' /\ s_route fin ps' = Ok rp /\
    ks = calls ++ [mkCall (rows_of is_source sd (last (map out_X outs) X)) (Some (rows_of is_source sd y))
                     (params_filter is_source sd rp)].
Proof.
  intros R pre fin first X y ps sd m ks Hsd Hne HX HL Hu Hps Hpre Hfin Hhd Hfm Hc.
  destruct (usable_mask ps sd y m Hsd Hne HL Hu) as [M1 M2].
  assert (Hc' : shared_chain (pre ++ [fin]) (from_array X) (Some (mask_targets m sd y)) ps = Ok ks).
  { destruct (pre ++ [fin]) as [|s l]; [discriminate|]. injection Hhd as ->.
    rewrite <- (chain_mask_first first l _ y _ ps Hfm M1 M2). exact Hc. }
  destruct (chain_prefix ps sd _ pre [fin] M2 Hpre (from_array X) ks HX eq_refl Hc')
    as [calls [outs [ks' [-> [Hrun [Houts [Hlab Htail]]]]]]].
  cbn [shared_chain] in Htail.
  destruct (shared_fit (s_route fin) (s_transformer fin) (s_mask fin) (fold_left merge_in outs (from_array X))
              (Some (mask_targets m sd y)) ps) as [[y' kf]|e] eqn:Ef; [|discriminate].
  cbn [bind] in Htail. destruct (s_run fin kf) as [o|e]; [|discriminate]. cbn [bind] in Htail. injection Htail as <-.
  assert (Hlen : length (c_X (fold_left merge_in outs (from_array X))) = length sd).
  { rewrite final_rows. apply last_rows_length; auto. eapply Forall_impl; [|exact Houts]. intros o' Ho'. apply Ho'. }
  assert (Hlabf : (match c_labels (fold_left merge_in outs (from_array X)) with Some l => Some l
                   | None => Some (mask_targets m sd y) end) = Some (mask_targets m sd y)) by now rewrite Hlab.
  assert (Hmeta : no_pylist (length sd) (c_meta (fold_left merge_in outs (from_array X)))).
  { apply meta_no_pylist; [|intros k l []]. eapply Forall_impl; [|exact Houts]. intros o' Ho'. apply Ho'. }
  destruct (plain_fit fin _ _ ps sd _ is_source y' kf Hfin Hps Hmeta Hne Hlen (mask_targets_length m sd y HL) Hlabf
              (usable_kept sd y m Hne HL Hu) M2 Ef) as [rp [Hr ->]].
  exists calls, outs, (dict_update String.eqb ps (c_meta (fold_left merge_in outs (from_array X)))), rp.
  split; [exact Hrun|]. split; [|split; [exact Hr|]].
  - apply final_params. eapply Forall_impl; [|exact Houts]. intros o' Ho'. apply Ho'.
  - rewrite final_rows, rows_of_mask_targets by auto. reflexivity.
Qed.

(** The same when the last adapter gives labels to the targets only, as label propagation does: the estimator is
    fitted on the target samples and on those labels. *)
Theorem C182_trained_on_propagated_targets : forall (R : Type) (pre : list (shared_step R)) (prop fin : shared_step R)
    first (X : list R) y ps sd m ks,
  get_sd ps = Some sd -> sd <> [] -> length X = length sd -> length y = length sd -> usable_labels sd y m ->
  no_pylist (length sd) ps ->
  Forall (adapter (length sd)) pre -> plain fin ->
  s_transformer prop = true ->
  (forall k o, length (k_X k) = length sd -> s_run prop k = Ok o ->
     adapted (length sd) o /\ exists yt, new_labels o yt /\ target_labels sd yt) ->
  hd_error (pre ++ [prop; fin]) = Some first -> s_mask first = true ->
  shared_chain (pre ++ [prop; fin]) (from_array X) (Some y) ps = Ok ks ->
  exists calls outs kp op yt ps' rp,
    run_on X (mask_targets m sd y) pre calls outs /\
    k_X kp = last (map out_X outs) X /\ k_y kp = Some (mask_targets m sd y) /\ s_run prop kp = Ok op /\
    new_labels op yt /\
    in_force (outs ++ [op]) ps ps' /\ s_route fin ps' = Ok rp /\
    ks = calls ++ [kp; mkCall (rows_of is_target sd (out_X op)) (Some (rows_of is_target sd yt))
                         (params_filter is_target sd rp)].
Proof.
  intros R pre prop fin first X y ps sd m ks Hsd Hne HX HL Hu Hps Hpre Hfin Hpt Hprop Hhd Hfm Hc.
  destruct (usable_mask ps sd y m Hsd Hne HL Hu) as [M1 M2].
  assert (Hc' : shared_chain (pre ++ [prop; fin]) (from_array X) (Some (mask_targets m sd y)) ps = Ok ks).
  { destruct (pre ++ [prop; fin]) as [|s l]; [discriminate|]. injection Hhd as ->.
    rewrite <- (chain_mask_first first l _ y _ ps Hfm M1 M2). exact Hc. }
  destruct (chain_prefix ps sd _ pre [prop; fin] M2 Hpre (from_array X) ks HX eq_refl Hc')
    as [calls [outs [ks' [-> [Hrun [Houts [Hlab Htail]]]]]]].
  set (c := fold_left merge_in outs (from_array X)) in *.
  assert (Hlen : length (c_X c) = length sd).
  { unfold c. rewrite final_rows. apply last_rows_length; auto. eapply Forall_impl; [|exact Houts]. intros o' Ho'. apply Ho'. }
  set (ym := mask_targets m sd y) in *.
  cbn [shared_chain] in Htail.
  assert (Ep : exists rp0, shared_fit (s_route prop) (s_transformer prop) (s_mask prop) c (Some ym) ps =
               Ok (Some ym, mkCall (c_X c) (Some ym) rp0) \/
               exists e, shared_fit (s_route prop) (s_transformer prop) (s_mask prop) c (Some ym) ps = Err e).
  { unfold shared_fit.
    assert (E : (if s_mask prop then auto_mask (Some ym) ps else Ok (Some ym)) = Ok (Some ym)) by (now destruct (s_mask prop)).
    rewrite E. cbn [bind]. unfold merge_out. rewrite Hlab.
    destruct (s_route prop _) as [rp0|e].
    - exists rp0. left. cbn [bind]. rewrite Hpt. reflexivity.
    - exists []. right. exists e. reflexivity. }
  destruct Ep as [rp0 [Ep|[e Ep]]]; rewrite Ep in Htail; [|discriminate]. cbn [bind] in Htail.
  set (kp := mkCall (c_X c) (Some ym) rp0) in *.
  destruct (s_run prop kp) as [op|e] eqn:Eo; [|discriminate]. cbn [bind] in Htail.
  destruct (Hprop kp op Hlen Eo) as [Hop [yt [Hyt [HLt Htl]]]].
  destruct (shared_fit (s_route fin) (s_transformer fin) (s_mask fin) (merge_in c op) (Some ym) ps)
    as [[y' kf]|e] eqn:Ef; [|discriminate].
  cbn [bind] in Htail. destruct (s_run fin kf) as [o|e]; [|discriminate]. cbn [bind] in Htail. injection Htail as <-.
  assert (EX : c_X (merge_in c op) = out_X op) by (now destruct op).
  assert (Hlen' : length (c_X (merge_in c op)) = length sd) by (rewrite EX; apply Hop).
  assert (Hlabf : (match c_labels (merge_in c op) with Some l => Some l | None => Some ym end) = Some yt).
  { destruct op as [| |Xo [l|] po]; cbn in Hyt; try easy. cbn. now rewrite Hyt. }
  assert (Hmeta : no_pylist (length sd) (c_meta (merge_in c op))).
  { change (merge_in c op) with (fold_left merge_in [op] c). apply meta_no_pylist.
    - constructor; [apply Hop|constructor].
    - apply meta_no_pylist; [|intros k l []]. eapply Forall_impl; [|exact Houts]. intros o' Ho'. apply Ho'. }
  destruct (plain_fit fin _ _ ps sd yt is_target y' kf Hfin Hps Hmeta Hne Hlen' HLt Hlabf Htl M2 Ef) as [rp [Hr ->]].
  exists calls, outs, kp, op, yt, (dict_update String.eqb ps (c_meta (merge_in c op))), rp.
  split; [exact Hrun|]. split; [apply final_rows|]. split; [reflexivity|]. split; [exact Eo|]. split; [exact Hyt|].
  split; [|split; [exact Hr|]].
  - replace (merge_in c op) with (fold_left merge_in (outs ++ [op]) (from_array X)) by (rewrite fold_left_app; reflexivity).
    apply final_params. apply Forall_app. split.
    + eapply Forall_impl; [|exact Houts]. intros o' Ho'. apply Ho'.
    + constructor; [apply Hop|constructor].
  - rewrite EX. reflexivity.
Qed.

(** A mapping, then a reweighting, then an estimator that asks for the weights; three samples, the second of the
    target. *)
Example C182_ex :
  let maps := mkStep (fun p => Ok p) true true (fun k => Ok (OArr (map (fun x => 10 * x) (k_X k)))) in
  let weighs := mkStep (fun p => Ok p) true true
                  (fun k => Ok (OPair (k_X k) [("sample_weight", PArr (map (fun x => VNum (inject_Z (Z.of_nat x))) (k_X k)))])) in
  let fin := mkStep (fun p => Ok (filter (fun kv => String.eqb (fst kv) "sample_weight") p)) false false
               (fun k => Ok (OArr (k_X k))) in
  let ps := [("sample_domain", PDom [1; -2; 1]%Z)] in
  let y := [VNum 0; VNum (inject_Z 5); VNum 1] in
  Forall (adapter 3) [maps; weighs] /\ plain fin /\ no_pylist 3 ps /\
  usable_labels [1; -2; 1]%Z y (VNum (inject_Z (-1))) /\
  shared_chain ([maps; weighs] ++ [fin]) (from_array [1; 2; 3]) (Some y) ps =
  Ok [mkCall [1; 2; 3] (Some [VNum 0; VNum (inject_Z (-1)); VNum 1]) ps;
      mkCall [10; 20; 30] (Some [VNum 0; VNum (inject_Z (-1)); VNum 1]) ps;
      mkCall [10; 30] (Some [VNum 0; VNum 1]) [("sample_weight", PArr [VNum (inject_Z 10); VNum (inject_Z 30)])]].
Proof.
  cbn zeta. split; [|split; [|split; [|split]]].
  - apply Forall_cons; [|apply Forall_cons; [|apply Forall_nil]]; (split; [reflexivity|]);
    intros k o Hk H; cbn in H; injection H as <-; (split; [split; [|split]|exact I]); cbn;
    rewrite ?map_length; auto; try (intros k1 l1 H1; cbn in H1; destruct H1 as [H1|[]]; discriminate);
    try (intros k1 l1 []); repeat constructor; cbn; tauto.
  - split; [reflexivity|]. intros ps rp H. cbn in H. injection H as <-. split.
    + unfold p_get. induction ps as [|[k v] ps IH]; [reflexivity|]. cbn [filter fst].
      destruct (String.eqb k "sample_weight") eqn:E; [|exact IH].
      apply String.eqb_eq in E. subst k. cbn. exact IH.
    + intros q Hq. apply filter_In in Hq. apply Hq.
  - intros k l [H|[]]. discriminate.
  - left. split; [|split; [reflexivity|]].
    + unfold discrete_labels. repeat constructor.
      * exists 0%Q, 0%Z. split; reflexivity.
      * exists (inject_Z 5), 5%Z. split; reflexivity.
      * exists 1%Q, 1%Z. split; reflexivity.
    + repeat constructor.
  - reflexivity.
Qed.

(** A step that gives the label 7 to every target sample and masks the sources, as label propagation does. *)
Example C182_ex_propagated :
  let gives := fun (k : @call nat) =>
    [VNum (inject_Z (-1)); VNum (inject_Z 7); VNum (inject_Z (-1)); VNum (inject_Z 7)] in
  let prop := mkStep (fun p => Ok p) true true (fun k => if length (k_X k) =? 4 then Ok (OTriple (k_X k) (Some (gives k)) []) else Err ValueError) in
  let fin := mkStep (fun _ => Ok []) false false (fun k => Ok (OArr (k_X k))) in
  let sd := [1; -2; 1; -2]%Z in
  let y := [VNum 0; VNum 0; VNum 1; VNum 0] in
  target_labels sd (gives (mkCall [] None [])) /\
  shared_chain ([] ++ [prop; fin]) (from_array [10; 20; 30; 40]) (Some y) [("sample_domain", PDom sd)] =
  Ok [mkCall [10; 20; 30; 40] (Some [VNum 0; VNum (inject_Z (-1)); VNum 1; VNum (inject_Z (-1))]) [("sample_domain", PDom sd)];
      mkCall [20; 40] (Some [VNum (inject_Z 7); VNum (inject_Z 7)]) []].
Proof.
  cbn zeta. split; [|reflexivity]. split; [reflexivity|]. left. split; [|reflexivity].
  unfold discrete_labels.
  repeat (apply Forall_cons; [eexists; (exists (-1)%Z; split; reflexivity) || (exists 7%Z; split; reflexivity)|]).
  apply Forall_nil.
Qed.
