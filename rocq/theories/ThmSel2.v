(** Theorems C117-C124: methods, scores, parameters and metadata of the selectors of /repo/skada/base.py. *)
From Coq Require Import String List ZArith QArith Bool Arith Lia.
From Verif Require Import Np Labels UtilsModel SelectModel PipeModel Sel2Model NpFacts Spec SpecFacts SelectSpec SelectProofs.
Import ListNotations.
Local Open Scope nat_scope.
Local Open Scope list_scope.

(** ** C117 *)

Lemma fitted_lookup (src : caps) (l : list Z) (c : caps) :
  dict_get ekey_eqb (KLabel 0) (map (fun d => (KLabel d, src)) l) = Some c -> c = src.
Proof.
  induction l as [|d l IH]; [discriminate|]. cbn [map dict_get ekey_eqb].
  destruct (0 =? d)%Z; [intros [= <-]; reflexivity|exact IH].
Qed.

(** A selector of the classes Shared, PerDomain, SelectSource and SelectTarget has a method exactly when the wrapped
    estimator has it, before and after fitting. *)
Theorem C117_exposed : forall c (src : caps) tgt labels m, c <> CSourceTarget ->
  exposes c m (new_obj c src) = src m /\ exposes c m (fitted_obj c src tgt labels) = src m.
Proof.
  intros c src tgt labels m Hc. unfold exposes, estimator_has, has_base_estimator, has_estimator_selector.
  destruct c; try congruence; cbn [uses_source new_obj fitted_obj ob_base ob_source ob_fitted];
    destruct (src m) eqn:E; split; auto.
  destruct (dict_get ekey_eqb (KLabel 0) (map (fun d => (KLabel d, src)) (unique labels))) eqn:E2; [|reflexivity].
  apply fitted_lookup in E2. subst c. exact E.
Qed.

(** SelectSourceTarget has every method of its source estimator other than [predict]. *)
Theorem C117_source_target_partial : forall (src : caps) tgt labels m, m <> MPredict ->
  exposes CSourceTarget m (new_obj CSourceTarget src) = src m /\
  exposes CSourceTarget m (fitted_obj CSourceTarget src tgt labels) = src m.
Proof.
  intros src tgt labels m Hm. unfold exposes, estimator_has, has_base_estimator, has_estimator_selector.
  cbn [new_obj fitted_obj ob_base ob_source ob_fitted].
  destruct m; try congruence; cbn [uses_source dict_get ekey_eqb];
    destruct (src _) eqn:E; auto.
Qed.

(** It never has [predict], not even after fitting classifiers on both sides. *)
Theorem C117_source_target_predict_refuted : forall (src : caps) tgt labels,
  src MPredict = true ->
  exposes CSourceTarget MPredict (new_obj CSourceTarget src) = false /\
  exposes CSourceTarget MPredict (fitted_obj CSourceTarget src tgt labels) = false.
Proof. intros. split; reflexivity. Qed.

Definition classifier_caps : caps :=
  fun m => match m with MPredict | MPredictProba | MPredictLogProba | MDecision | MScore => true | _ => false end.
Definition scaler_caps : caps := fun m => match m with MTransform | MFitTransform => true | _ => false end.

Example C117_ex :
  map (fun m => exposes CPerDomain m (fitted_obj CPerDomain classifier_caps None [1;1;0;-2]%Z))
      [MTransform; MPredict; MScore] = [false; true; true] /\
  map (fun m => exposes CSourceTarget m (fitted_obj CSourceTarget classifier_caps None []))
      [MPredict; MPredictProba; MScore] = [false; true; true].
Proof. split; reflexivity. Qed.

(** ** C118 *)

(** A transformer paired with a predictor is rejected when the transformer is on the source side. *)
Theorem C118_transformer_first_partial : forall src tgt mask,
  src MTransform = true -> tgt MTransform = false -> sst_ctor src (Some tgt) mask = Err TypeError.
Proof. intros src tgt mask H1 H2. unfold sst_ctor. rewrite H1, H2. reflexivity. Qed.

(** Two estimators of the same kind, or one for both sides, are accepted; masking never is. *)
Theorem C118_same_kind : forall src tgt mask,
  match tgt with Some t => t MTransform = src MTransform | None => True end ->
  sst_ctor src tgt mask = if mask then Err ValueError else Ok tt.
Proof.
  intros src [t|] mask H; unfold sst_ctor; [rewrite H; destruct (src MTransform)|]; reflexivity.
Qed.

(** The other order is accepted. *)
Theorem C118_predictor_first_refuted : exists src tgt,
  src MTransform = false /\ tgt MTransform = true /\ sst_ctor src (Some tgt) false = Ok tt.
Proof. exists classifier_caps, scaler_caps. repeat split. Qed.

Example C118_ex : sst_ctor scaler_caps (Some classifier_caps) false = Err TypeError /\
  sst_ctor scaler_caps (Some scaler_caps) false = Ok tt /\ sst_ctor scaler_caps None true = Err ValueError.
Proof. repeat split; reflexivity. Qed.

(** ** C119 *)

(** Scoring with PerDomain never returns: whatever numbers the per-domain scores are, merging them fails. *)
Theorem C119_per_domain_score_refuted : forall (R Est A : Type) route (zero : A) of_num
    (method : Est -> @call R -> res (mout A)) ests (X : list R) y ps r,
  (forall e k o, method e k = Ok o -> exists q, o = MNum q) ->
  per_domain_route_any route zero of_num method ests X y ps <> Ok r.
Proof.
  intros R Est A route zero of_num method ests X y ps r Hnum.
  unfold per_domain_route_any.
  destruct (route ps) as [rp|]; [|discriminate]. cbn [bind].
  destruct (match get_sd ps with Some sd => Ok sd | None => Err KeyError end) as [sd|]; [|discriminate]. cbn [bind].
  destruct (unique sd) as [|d ds]; [discriminate|]. cbn [mapM].
  destruct (dict_get Z.eqb d ests) as [e|]; [|discriminate].
  destruct (domain_call X y rp sd d) as [[d' [idx k]]|]; [|discriminate]. cbn [bind].
  destruct (method e k) as [o|] eqn:E; [|discriminate]. cbn [bind].
  destruct (Hnum _ _ _ E) as [q ->].
  destruct (mapM _ ds) as [outs|]; discriminate.
Qed.

(** Nor does scoring with SelectSourceTarget. *)
Theorem C119_source_target_score_refuted : forall (R A : Type) route_s route_t (zero : A) of_num
    (meth_s meth_t : @call R -> res (mout A)) (X : list R) y ps r,
  (forall k o, meth_s k = Ok o -> exists q, o = MNum q) ->
  (forall k o, meth_t k = Ok o -> exists q, o = MNum q) ->
  sst_route_any route_s route_t zero of_num false meth_s meth_t X y ps <> Ok r.
Proof.
  intros R A route_s route_t zero of_num meth_s meth_t X y ps r Hs Ht.
  unfold sst_route_any.
  destruct (sst_domains X y ps) as [sd|]; [|discriminate]. cbn [bind].
  destruct (extract_source_indices sd) as [m|]; [|discriminate]. cbn [bind].
  assert (Hside : forall route meth m' o,
            (forall k o, meth k = Ok o -> exists q, o = MNum q) ->
            sst_out_any (A:=A) route false meth X y (dict_set String.eqb "sample_domain"%string (PDom sd) ps) m' = Ok o ->
            o = []).
  { intros route meth m' o Hm. unfold sst_out_any.
    destruct (count m' =? 0); [intros [= <-]; reflexivity|].
    destruct (apply_domain_masks _ _ _ _) as [[[X1 y1] ps1]|]; [|discriminate]. cbn [bind].
    destruct (route ps1) as [rp|]; [|discriminate]. cbn [bind].
    destruct (meth _) as [o'|] eqn:E; [|discriminate]. cbn [bind].
    destruct (Hm _ _ E) as [q ->]. discriminate. }
  destruct (sst_out_any route_s _ _ _ _ _ _) as [a|] eqn:Ea; [|discriminate]. cbn [bind].
  destruct (sst_out_any route_t _ _ _ _ _ _) as [b|] eqn:Eb; [|discriminate]. cbn [bind].
  apply Hside in Ea; [|assumption]. apply Hside in Eb; [|assumption]. subst. discriminate.
Qed.

(** Methods whose output is an array are not concerned: the rows of the result are those of C15. *)
Lemma mapM_map {A B C} (f : A -> res B) (f' : A -> res C) (g : B -> C) : forall l, (forall x, f' x = (y <- f x ;; Ok (g y))) ->
  mapM f' l = (ys <- mapM f l ;; Ok (map g ys)).
Proof.
  intros l H. induction l as [|x l IH]; [reflexivity|]. cbn [mapM]. rewrite H. destruct (f x) as [y|]; [|reflexivity]. cbn [bind].
  rewrite IH. destruct (mapM f l); reflexivity.
Qed.
Lemma merge_any_arrays {A} (zero : A) of_num n outs :
  merge_domain_any zero of_num n (map (fun io : dindex * list A => (fst io, MArr (snd io))) outs) = merge_domain_outputs zero n outs.
Proof.
  unfold merge_domain_any, merge_domain_outputs. destruct outs as [|[i o] outs]; [reflexivity|]. cbn [map length Nat.eqb fst snd].
  rewrite map_map. cbn [fst snd]. f_equal. f_equal. rewrite <- (map_id outs) at 2. apply map_ext. now intros [].
Qed.
Theorem C119_per_domain_arrays : forall (R Est A : Type) route (zero : A) of_num (meth : Est -> list R -> params -> res (list A)) ests X ps,
  per_domain_route_any route zero of_num (fun e k => r <- meth e (k_X k) (k_params k) ;; Ok (MArr r)) ests X None ps =
  per_domain_route route zero meth ests X ps.
Proof.
  intros R Est A route zero of_num meth ests X ps. unfold per_domain_route_any, per_domain_route.
  destruct (route ps) as [rp|]; [|reflexivity]. cbn [bind]. destruct (get_sd ps) as [sd|]; [|reflexivity]. cbn [bind].
  match goal with |- (outs <- mapM ?f' ?l ;; _) = (outs <- mapM ?f ?l ;; _) =>
    rewrite (mapM_map f f' (fun io => (fst io, MArr (snd io))) l); [destruct (mapM f l); [|reflexivity]; cbn [bind]; apply merge_any_arrays|] end.
  intros d. destruct (dict_get Z.eqb d ests); [|reflexivity]. unfold domain_call. cbn [opt_map].
  destruct (np_take _ X); [|reflexivity]. cbn [bind]. destruct (map_params _ rp); [|reflexivity]. cbn [bind k_X k_params].
  destruct (meth _ _ _); reflexivity.
Qed.
Theorem C119_source_target_arrays : forall (R A : Type) route_s route_t (zero : A) of_num tr (ms mt : list R -> params -> res (list A)) X ps,
  sst_route_any route_s route_t zero of_num tr (fun k => r <- ms (k_X k) (k_params k) ;; Ok (MArr r)) (fun k => r <- mt (k_X k) (k_params k) ;; Ok (MArr r)) X None ps =
  sst_route route_s route_t zero ms mt X ps.
Proof.
  intros R A route_s route_t zero of_num tr ms mt X ps. unfold sst_route_any, sst_route.
  destruct (sst_domains X None ps) as [sd|]; [|reflexivity]. cbn [bind]. destruct (extract_source_indices sd) as [m|]; [|reflexivity]. cbn [bind].
  assert (S : forall route meth m' ps', sst_out_any route tr (fun k => r <- meth (k_X k) (k_params k) ;; Ok (MArr r)) X None ps' m' =
    (outs <- sst_out route meth X ps' m' ;; Ok (map (fun io : dindex * list A => (fst io, MArr (snd io))) outs))).
  { intros route meth m' ps'. unfold sst_out_any, sst_out. destruct (count m' =? 0); [reflexivity|].
    destruct (apply_domain_masks X None ps' m') as [[[X1 y1] ps1]|]; [|reflexivity]. cbn [bind]. destruct (route ps1); [|reflexivity]. cbn [bind k_X k_params].
    destruct (meth X1 _); reflexivity. }
  rewrite !S. destruct (sst_out route_s ms X _ m) as [a|]; [|reflexivity]. cbn [bind].
  destruct (sst_out route_t mt X _ (map negb m)) as [b|]; [|reflexivity]. cbn [bind]. rewrite <- map_app. apply merge_any_arrays.
Qed.

(** [transform] is called without labels: only what the methods do on calls without labels matters. *)
Theorem C119_transform_without_labels : forall (R A : Type) route_s route_t (zero : A) of_num (ms mt ms' mt' : @call R -> res (mout A)) X y ps,
  (forall k, k_y k = None -> ms k = ms' k) -> (forall k, k_y k = None -> mt k = mt' k) ->
  sst_route_any route_s route_t zero of_num true ms mt X y ps = sst_route_any route_s route_t zero of_num true ms' mt' X y ps.
Proof.
  intros R A route_s route_t zero of_num ms mt ms' mt' X y ps Hs Ht. unfold sst_route_any.
  destruct (sst_domains X y ps) as [sd|]; [|reflexivity]. cbn [bind]. destruct (extract_source_indices sd) as [m|]; [|reflexivity]. cbn [bind].
  assert (S : forall route meth meth' m' ps', (forall k, k_y k = None -> meth k = meth' k) ->
     sst_out_any (A:=A) route true meth X y ps' m' = sst_out_any route true meth' X y ps' m').
  { intros route meth meth' m' ps' H. unfold sst_out_any. destruct (count m' =? 0); [reflexivity|].
    destruct (apply_domain_masks X y ps' m') as [[[X1 y1] ps1]|]; [|reflexivity]. cbn [bind]. destruct (route ps1); [|reflexivity]. cbn [bind].
    now rewrite H. }
  now rewrite (S route_s ms ms' m _ Hs), (S route_t mt mt' _ _ Ht).
Qed.

(** The failure is an AssertionError on perfectly good input: here one sample per domain, every score 1. *)
Example C119_fails :
  per_domain_route_any (fun _ => Ok []) 0%Q (fun q => q) (fun (_ : unit) (_ : @call nat) => Ok (MNum 1))
    [(1%Z, tt); ((-2)%Z, tt)] [10;20] (Some [VNum 0; VNum 1]) [("sample_domain"%string, PDom [1;-2]%Z)]
  = Err AssertionError /\
  sst_route_any (fun _ => Ok []) (fun _ => Ok []) 0%Q (fun q => q) false
    (fun (_ : @call nat) => Ok (MNum 1)) (fun _ => Ok (MNum 1))
    [10;20] (Some [VNum 0; VNum 1]) [("sample_domain"%string, PDom [1;-2]%Z)]
  = Err AssertionError.
Proof. split; reflexivity. Qed.

(** Scoring with Shared (and the selectors derived from it) calls the wrapped score once. A predictor that does not
    ask for the domain labels is scored on exactly the labelled samples, in order. *)
Theorem C119_shared_score_partial : forall (R : Type) route (X : list R) y ps rp,
  route ps = Ok rp -> ~ gets_domains rp -> length X = length y ->
  (forall k v n, In (k, v) rp -> pv_len v = Some n -> n = length y -> forall l, v <> PPyList l) ->
  forall ty, find_y_type1 y = Ok ty ->
  exists k, shared_route route false X (Some y) ps = Ok k /\
    let labelled := match ty with
                    | DISCRETE => fun v => negb (val_eqb_q v mask_cls_q)
                    | CONTINUOUS => is_finite
                    end in
    k_X k = map fst (filter (fun q => labelled (snd q)) (combine X y)) /\
    k_y k = Some (filter labelled y).
Proof.
  intros R route X y ps rp Hr Hk Hl Hpy ty Hty. domain_keys. unfold shared_route. rewrite Hr. cbn [bind sel_remove_masked].
  rewrite Hk. cbn [negb andb]. unfold remove_masked. rewrite Hty. cbn [bind].
  set (lab := match ty with DISCRETE => fun v => negb (val_eqb_q v mask_cls_q) | CONTINUOUS => is_finite end).
  assert (Hm : match ty with
               | CONTINUOUS => map is_finite y
               | DISCRETE => map (fun v => negb (val_eqb_q v mask_cls_q)) y end = map lab y)
    by (destruct ty; reflexivity).
  rewrite Hm. clear Hm. unfold apply_domain_masks, np_select, opt_map.
  rewrite map_length, Hl, Nat.eqb_refl. cbn [bind].
  assert (Hps : exists rp', map_params (fun v => match pv_len v with
            | Some k => if k =? length y then pv_select (map lab y) v else Ok v
            | None => Ok v end) rp = Ok rp').
  { unfold map_params. clear Hr Hk. induction rp as [|[k v] rp IH]; [eexists; reflexivity|].
    destruct IH as [rp' E]; [intros; eapply Hpy; eauto; right; eassumption|].
    cbn [mapM fst snd]. rewrite E.
    assert (Hv : exists v', (match pv_len v with
              | Some k => if k =? length y then pv_select (map lab y) v else Ok v | None => Ok v end) = Ok v').
    { specialize (Hpy k v). destruct v as [l|l|l|z]; cbn [pv_len pv_select];
        try (destruct (length l =? length y) eqn:E2; [apply Nat.eqb_eq in E2|eauto]);
        try (unfold np_select; rewrite map_length, E2, Nat.eqb_refl; cbn [bind]; eauto); eauto.
      exfalso. apply (Hpy (length l) (or_introl eq_refl) eq_refl E2 l). reflexivity. }
    destruct Hv as [v' ->]. cbn [bind]. eauto. }
  destruct Hps as [rp' ->]. cbn [bind]. eexists. split; [reflexivity|]. cbn [k_X k_y]. split.
  - clear -Hl. revert X Hl. induction y as [|v y IH]; intros [|x X] H; try discriminate; [reflexivity|].
    cbn. injection H as H. destruct (lab v); cbn; rewrite IH; auto.
  - f_equal. clear. induction y as [|v y IH]; [reflexivity|]. cbn. destruct (lab v); rewrite IH; reflexivity.
Qed.

Example C119_shared_ex :
  shared_route (R:=nat) (fun _ => Ok []) false [10;20;30] (Some [VNum 0; VNum (-1); VNum 1]) []
  = Ok (mkCall [10;30] (Some [VNum 0; VNum 1]) []).
Proof. reflexivity. Qed.

(** ** C120 *)

Lemma get_set_same {V} k (v : V) d : dict_get String.eqb k (dict_set String.eqb k v d) = Some v.
Proof.
  induction d as [|[k' v'] d IH]; cbn; [rewrite String.eqb_refl; reflexivity|].
  destruct (String.eqb k k') eqn:E; cbn; rewrite E; auto.
Qed.

Lemma get_set_other {V} k k2 (v : V) d : k <> k2 ->
  dict_get String.eqb k (dict_set String.eqb k2 v d) = dict_get String.eqb k d.
Proof.
  intros H. induction d as [|[k' v'] d IH]; cbn.
  - destruct (String.eqb_spec k k2); [contradiction|reflexivity].
  - destruct (String.eqb_spec k2 k') as [->|N]; cbn.
    + destruct (String.eqb_spec k k'); [contradiction|reflexivity].
    + rewrite IH. reflexivity.
Qed.

Lemma get_map_val {P} k (d : dict string P) :
  dict_get String.eqb k (map (fun kv => (fst kv, PVal (snd kv))) d) =
  option_map PVal (dict_get String.eqb k d).
Proof.
  induction d as [|[k' v] d IH]; [reflexivity|]. cbn. destruct (String.eqb k k'); [reflexivity|exact IH].
Qed.

Lemma get_params_lookup {P} (s : psel P) : ps_cls s <> CSourceTarget ->
  exists g, sel_get_params s = Ok g /\
    dict_get String.eqb "base_estimator"%string g = Some (PEst (ps_base s)) /\
    forall k, k <> "base_estimator"%string ->
      dict_get String.eqb k g = option_map PVal (dict_get String.eqb k (ps_base s)).
Proof.
  intros H. eexists. split; [destruct (ps_cls s) eqn:E; try congruence; unfold sel_get_params; rewrite E; reflexivity|].
  split; [apply get_set_same|]. intros k Hk. rewrite get_set_other by assumption. apply get_map_val.
Qed.

(** The constructor: the wrapped estimator with the keyword parameters set; masking of target labels is refused by
    SelectTarget only, and is on by default for Shared, PerDomain and SelectSource. *)
Theorem C120_construct : forall P c (b : list (string * P)) mask,
  sel_new c b mask [] =
  match c, mask with
  | CSelectTarget, Some true => Err ValueError
  | _, Some m => Ok (mkPSel c b m)
  | (CShared | CPerDomain | CSelectSource), None => Ok (mkPSel c b true)
  | _, None => Ok (mkPSel c b false)
  end.
Proof. intros P c b [[]|]; destruct c; reflexivity. Qed.

(** Setting a hyper-parameter of the wrapped estimator is visible in get_params, changes nothing else, and is a
    ValueError when the wrapped estimator has no such parameter. *)
Theorem C120_set_then_get : forall P (s : psel P) k (v : P), ps_cls s <> CSourceTarget -> k <> "base_estimator"%string ->
  match dict_get String.eqb k (ps_base s) with
  | None => sel_set_params s None [(k, v)] = Err ValueError
  | Some _ => exists s' g g', sel_set_params s None [(k, v)] = Ok s' /\
      sel_get_params s = Ok g /\ sel_get_params s' = Ok g' /\
      ps_cls s' = ps_cls s /\ ps_mask s' = ps_mask s /\
      dict_get String.eqb k g' = Some (PVal v) /\
      forall k', k' <> k -> k' <> "base_estimator"%string ->
        dict_get String.eqb k' g' = dict_get String.eqb k' g
  end.
Proof.
  intros P s k v Hc Hk.
  destruct (get_params_lookup s Hc) as (g & Hg & _ & Hgl).
  destruct (dict_get String.eqb k (ps_base s)) as [v0|] eqn:E.
  - set (s' := mkPSel (ps_cls s) (dict_set String.eqb k v (ps_base s)) (ps_mask s)).
    destruct (get_params_lookup s' Hc) as (g' & Hg' & _ & Hgl').
    exists s', g, g'. split.
    + unfold sel_set_params, est_set_params. cbn [forallb fst]. rewrite E. cbn.
      destruct (ps_cls s) eqn:Ec; try congruence; unfold s'; rewrite ?Ec; reflexivity.
    + split; [assumption|]. split; [assumption|]. split; [reflexivity|]. split; [reflexivity|]. split.
      * rewrite Hgl' by assumption. unfold s'. cbn [ps_base]. rewrite get_set_same. reflexivity.
      * intros k' H1 H2. rewrite Hgl', Hgl by assumption. unfold s'. cbn [ps_base].
        rewrite get_set_other by assumption. reflexivity.
  - unfold sel_set_params, est_set_params. cbn [forallb fst]. rewrite E. cbn.
    destruct (ps_cls s); try congruence; reflexivity.
Qed.

(** Replacing the wrapped estimator together with its parameters. *)
Theorem C120_replace_base : forall P (s : psel P) b k v, ps_cls s <> CSourceTarget ->
  dict_get String.eqb k b = Some v ->
  forall v', exists s', sel_set_params s (Some b) [(k, v')] = Ok s' /\ ps_cls s' = ps_cls s /\ ps_mask s' = ps_mask s /\
    dict_get String.eqb k (ps_base s') = Some v' /\
    forall k', k' <> k -> dict_get String.eqb k' (ps_base s') = dict_get String.eqb k' b.
Proof.
  intros P s b k v Hc Hb v'. exists (mkPSel (ps_cls s) (dict_set String.eqb k v' b) (ps_mask s)). split.
  - unfold sel_set_params, est_set_params. cbn [forallb fst]. rewrite Hb. cbn.
    destruct (ps_cls s); try congruence; reflexivity.
  - split; [reflexivity|]. split; [reflexivity|]. cbn [ps_base]. split; [apply get_set_same|].
    intros k' H. apply get_set_other. assumption.
Qed.

(** [mask_target_labels] is a constructor argument that can neither be read nor set. *)
Theorem C120_mask_not_a_parameter_refuted : forall P (s : psel P) (v : P), ps_cls s <> CSourceTarget ->
  dict_get String.eqb "mask_target_labels"%string (ps_base s) = None ->
  (exists g, sel_get_params s = Ok g /\ dict_get String.eqb "mask_target_labels"%string g = None) /\
  sel_set_params s None [("mask_target_labels"%string, v)] = Err ValueError.
Proof.
  intros P s v Hc Hn. split.
  - destruct (get_params_lookup s Hc) as (g & Hg & _ & Hgl). exists g. split; [assumption|].
    rewrite Hgl by discriminate. rewrite Hn. reflexivity.
  - pose proof (C120_set_then_get P s "mask_target_labels"%string v Hc) as H. rewrite Hn in H. apply H. discriminate.
Qed.

(** The parameters of a SelectSourceTarget can neither be read nor set, and it cannot be cloned. *)
Theorem C120_source_target_refuted : forall P (s : psel P) base kw, ps_cls s = CSourceTarget ->
  sel_get_params s = Err AttributeError /\ sel_clone s = Err AttributeError /\
  ((base <> None \/ kw <> []) -> sel_set_params s base kw = Err AttributeError).
Proof.
  intros P s base kw Hc. unfold sel_clone, sel_get_params, sel_set_params. rewrite Hc.
  split; [reflexivity|]. split; [reflexivity|]. intros [H|H].
  - destruct base; [reflexivity|congruence].
  - destruct base; [reflexivity|]. destruct kw; [congruence|reflexivity].
Qed.

Lemma set_existing {V} k (v : V) d : dict_get String.eqb k d = Some v -> dict_set String.eqb k v d = d.
Proof.
  induction d as [|[k' v'] d IH]; [discriminate|]. cbn. destruct (String.eqb k k') eqn:E.
  - intros [= <-]. reflexivity.
  - intros H. rewrite IH by assumption. reflexivity.
Qed.

Lemma in_get {V} k (v : V) d : NoDup (map fst d) -> In (k, v) d -> dict_get String.eqb k d = Some v.
Proof.
  induction d as [|[k' v'] d IH]; [contradiction|]. cbn. intros Hn [H|H].
  - injection H as -> ->. rewrite String.eqb_refl. reflexivity.
  - inversion Hn; subst. destruct (String.eqb_spec k k') as [->|]; [|auto].
    exfalso. apply H2. apply in_map_iff. exists (k', v). auto.
Qed.

Lemma update_sub {V} (d kw : dict string V) : (forall k v, In (k, v) kw -> dict_get String.eqb k d = Some v) ->
  dict_update String.eqb d kw = d.
Proof.
  unfold dict_update. induction kw as [|[k v] kw IH]; intros H; [reflexivity|]. cbn [fold_left fst snd].
  rewrite set_existing by (apply H; left; reflexivity). apply IH. intros; apply H; right; assumption.
Qed.

Lemma flat_vals_set {P} (d : dict string P) e b : ~ In b (map fst d) ->
  flat_map (fun kv : string * pvalue P => match snd kv with PVal p => [(fst kv, p)] | PEst _ => [] end)
    (dict_set String.eqb b (PEst e) (map (fun kv => (fst kv, PVal (snd kv))) d)) = d.
Proof.
  induction d as [|[k v] d IH]; intros H; [reflexivity|].
  cbn [map dict_set fst snd]. destruct (String.eqb_spec b k) as [->|N].
  - exfalso. apply H. left. reflexivity.
  - cbn [flat_map fst snd]. rewrite IH; [reflexivity|]. intros X. apply H. right. exact X.
Qed.

(** A clone wraps an estimator with the same parameters and has the masking default of its class. *)
Theorem C120_clone : forall P (s : psel P), ps_cls s <> CSourceTarget ->
  NoDup (map fst (ps_base s)) -> ~ In "base_estimator"%string (map fst (ps_base s)) ->
  sel_clone s = Ok (mkPSel (ps_cls s) (ps_base s)
                           (match ps_cls s with CShared | CPerDomain | CSelectSource => true | _ => false end)).
Proof.
  intros P s Hc Hn Hb. unfold sel_clone.
  assert (Hg : sel_get_params s = Ok (dict_set String.eqb "base_estimator"%string (PEst (ps_base s))
                        (map (fun kv => (fst kv, PVal (snd kv))) (ps_base s))))
    by (unfold sel_get_params; destruct (ps_cls s); try congruence; reflexivity).
  rewrite Hg. cbn [bind]. rewrite get_set_same, flat_vals_set by assumption.
  unfold sel_new, est_set_params.
  assert (Hall : forallb (fun kv => match dict_get String.eqb (fst kv) (ps_base s) with Some _ => true | None => false end)
                   (ps_base s) = true).
  { apply forallb_forall. intros [k v] H. cbn. rewrite (in_get k v) by assumption. reflexivity. }
  assert (Hu : dict_update String.eqb (ps_base s) (ps_base s) = ps_base s)
    by (apply update_sub; intros; apply in_get; assumption).
  rewrite Hall, Hu. destruct (ps_cls s); try congruence; reflexivity.
Qed.

Example C120_ex :
  let s := mkPSel CShared [("C"%string, 1); ("tol"%string, 2)] false in
  sel_set_params s None [("C"%string, 7)] = Ok (mkPSel CShared [("C"%string, 7); ("tol"%string, 2)] false) /\
  sel_get_params s = Ok [("C"%string, PVal 1); ("tol"%string, PVal 2); ("base_estimator"%string, PEst (ps_base s))] /\
  sel_clone s = Ok (mkPSel CShared [("C"%string, 1); ("tol"%string, 2)] true).
Proof. repeat split. Qed.

(** ** C121 *)

(** With Shared, fit_transform of an estimator that has only fit and transform is fit followed by transform of the
    same samples with the same parameters; labels and metadata are kept. *)
Theorem C121_shared_fit_then_transform : forall (R Est : Type) route_fit route_tr (est_fit : @call R -> res Est)
    est_transform mask c y ps y' c',
  (forall p rp, route_tr p = Ok rp -> route_tr rp = Ok rp) ->
  (shared_fit_transform_fallback route_fit route_tr est_fit est_transform mask c y ps = Ok (y', c') <->
   exists e X', shared_fit_est route_fit est_fit mask c y ps = Ok (y', e) /\
     shared_transform route_tr est_transform e (c_X c) (dict_update String.eqb ps (c_meta c)) = Ok X' /\
     c' = mkC X' (c_labels c) (c_meta c)).
Proof.
  intros R Est route_fit route_tr est_fit est_transform mask c y ps y' c' Hid.
  unfold shared_fit_transform_fallback, shared_transform, shared_route, merge_out.
  destruct (shared_fit_est route_fit est_fit mask c y ps) as [[y1 e]|x]; cbn [bind].
  2:{ split; [discriminate|]. intros (? & ? & [=] & _). }
  destruct (route_tr (dict_update String.eqb ps (c_meta c))) as [tp|x] eqn:Et; cbn [bind].
  2:{ split; [discriminate|]. intros (? & ? & _ & [=] & _). }
  rewrite (Hid _ _ Et). cbn [bind sel_remove_masked k_X k_params].
  destruct (est_transform e (c_X c) tp) as [o|x] eqn:Eo; cbn [bind].
  - split.
    + intros [= <- <-]. exists e, o. auto.
    + intros (e' & X' & [= <- <-] & H & ->). rewrite Eo in H. injection H as <-. reflexivity.
  - split; [discriminate|]. intros (e' & X' & [= <- <-] & H & _). rewrite Eo in H. discriminate.
Qed.

(** The labels the caller has afterwards are the masked ones (C12), not the original ones. *)
Theorem C121_labels_after : forall (R Est : Type) route_fit route_tr (est_fit : @call R -> res Est) est_transform mask c y ps y' c',
  shared_fit_transform_fallback route_fit route_tr est_fit est_transform mask c y ps = Ok (y', c') ->
  (if mask then auto_mask y ps else Ok y) = Ok y'.
Proof.
  intros R Est route_fit route_tr est_fit est_transform mask c y ps y' c' H.
  unfold shared_fit_transform_fallback, shared_fit_est, shared_fit in H.
  destruct (if mask then auto_mask y ps else Ok y) as [y1|]; [|discriminate]. cbn [bind] in H.
  destruct (merge_out c y1 ps) as [[X y2] ps2]. destruct (route_fit ps2) as [rp|]; [|discriminate]. cbn [bind] in H.
  destruct (sel_remove_masked true X y2 rp) as [[[X3 y3] rp3]|]; [|discriminate]. cbn [bind] in H.
  destruct (est_fit _) as [e|]; [|discriminate]. cbn [bind] in H.
  repeat match type of H with
  | bind ?a _ = Ok _ => destruct a as [?|]; [cbn [bind] in H|discriminate]
  | (let '(_, _) := ?a in _) = Ok _ => destruct a
  end. congruence.
Qed.

(** PerDomain and SelectSourceTarget never return from it. *)
Theorem C121_per_domain_refuted : forall (R : Type) mask (c : @container R) y ps r,
  per_domain_fit_transform_fallback mask c y ps <> Ok r.
Proof.
  intros R mask c y ps r. unfold per_domain_fit_transform_fallback.
  destruct (if mask then auto_mask y ps else Ok y); discriminate.
Qed.

Theorem C121_source_target_refuted : forall (R Est : Type) (est_fit : @call R -> res Est) route_s route_t c y ps r,
  sst_fit_transform_fallback est_fit route_s route_t c y ps <> Ok r.
Proof.
  intros R Est est_fit route_s route_t c y ps r. unfold sst_fit_transform_fallback.
  destruct (sst_fit route_s route_t true c y ps) as [[ka kb]|]; [|discriminate]. cbn [bind].
  destruct (est_fit ka); [|discriminate]. cbn [bind]. destruct (est_fit kb); discriminate.
Qed.

(** On the same input and the same estimator (centring on the first row) Shared succeeds. *)
Example C121_ex :
  let est_fit := fun k : @call nat => Ok (hd 0 (k_X k)) in
  let tr := fun e (X : list nat) (_ : params) => Ok (map (fun x => x - e) X) in
  let ps := [("sample_domain"%string, PDom [1;-2]%Z)] in
  shared_fit_transform_fallback (fun _ => Ok []) (fun _ => Ok []) est_fit tr true (from_array [10;25])
    (Some [VNum 0; VNum 1]) ps = Ok (Some [VNum 0; VNum (-1)], mkC [0;15] None []) /\
  per_domain_fit_transform_fallback true (from_array [10;25]) (Some [VNum 0; VNum 1]) ps = Err TypeError /\
  sst_fit_transform_fallback est_fit (fun _ => Ok []) (fun _ => Ok []) (from_array [10;25])
    (Some [VNum 0; VNum 1]) ps = Err AttributeError.
Proof. repeat split. Qed.

(** ** C122 *)

Lemma get_flat_reqs {V} (f : string -> req -> option V) reqs k : NoDup (map fst reqs) ->
  dict_get String.eqb k (flat_map (fun kr : string * req => match f (fst kr) (snd kr) with Some v => [(fst kr, v)] | None => [] end) reqs)
  = match dict_get String.eqb k reqs with Some r => f k r | None => None end.
Proof.
  induction reqs as [|[k' r] reqs IH]; [reflexivity|]. cbn [map fst snd flat_map dict_get]. intros Hn.
  inversion Hn as [|? ? Hni Hn']; subst. destruct (String.eqb_spec k k') as [->|N].
  - destruct (f k' r) as [v|]; cbn; [rewrite String.eqb_refl; reflexivity|].
    rewrite IH by assumption.
    destruct (dict_get String.eqb k' reqs) as [r'|] eqn:E; [|reflexivity].
    exfalso. apply Hni. clear -E. induction reqs as [|[a b] reqs IH]; [discriminate|]. cbn in *.
    destruct (String.eqb_spec k' a); auto.
  - destruct (f k' r) as [v|]; cbn; [destruct (String.eqb_spec k k'); [contradiction|]|]; auto.
Qed.

Lemma get_in {V} k (v : V) d : dict_get String.eqb k d = Some v -> In (k, v) d.
Proof.
  induction d as [|[a b] d IH]; [discriminate|]. cbn. destruct (String.eqb_spec k a) as [E|E]; [|auto].
  intros [= ->]. left. congruence.
Qed.

Lemma final_or_predictor fin tr : fin = true \/ tr = false -> (fin || negb tr)%bool = true.
Proof. destruct fin, tr; intuition discriminate. Qed.

Definition delivered {V} (ps : kwargs V) (k : string) (r : req) : option V :=
  match r with RTrue => given k ps | RAlias a => given a ps | _ => None end.

Lemma route_params_flat {V} reqs (ps : kwargs V) d : route_params reqs ps = Some d ->
  d = flat_map (fun kr => match delivered ps (fst kr) (snd kr) with Some v => [(fst kr, v)] | None => [] end) reqs.
Proof.
  unfold route_params. destruct (unset_given reqs ps); [discriminate|]. intros [= <-].
  apply flat_map_ext. intros [k []]; reflexivity.
Qed.

Lemma get_map_some {V} k (d : dict string V) :
  dict_get String.eqb k (map (fun kv => (fst kv, Some (snd kv))) d) = option_map Some (dict_get String.eqb k d).
Proof. induction d as [|[k' v] d IH]; [reflexivity|]. cbn. destruct (String.eqb k k'); auto. Qed.

(** What the final step, and every predictor, receives: a parameter is passed exactly when it was requested and
    given, under its own name, and a parameter neither requested nor refused is never passed over. *)
Theorem C122_predictor_receives : forall V fin tr reqs meta (ps : kwargs V) d, fin = true \/ tr = false ->
  NoDup (map fst reqs) -> prepare_routing fin tr reqs meta ps = Routed d ->
  forall k, match dict_get String.eqb k reqs with
            | Some RTrue => dict_get String.eqb k d = option_map Some (given k ps)
            | Some (RAlias a) => dict_get String.eqb k d = option_map Some (given a ps)
            | Some RFalse | None => dict_get String.eqb k d = None
            | Some RUnset => given k ps = None /\ dict_get String.eqb k d = None
            end.
Proof.
  intros V fin tr reqs meta ps d Hf Hn H k. unfold prepare_routing in H.
  assert (Hb : (fin || negb tr)%bool = true) by (apply final_or_predictor; exact Hf).
  rewrite Hb in H.
  destruct (route_params reqs ps) as [d0|] eqn:E.
  2:{ destruct meta as [md|]; [destruct (find _ md)|]; discriminate. }
  injection H as <-. rewrite get_map_some. rewrite (route_params_flat _ _ _ E), get_flat_reqs by assumption.
  destruct (dict_get String.eqb k reqs) as [[| | |a]|] eqn:Ek; try reflexivity.
  split; [|reflexivity].
  destruct (given k ps) as [v|] eqn:Eg; [|reflexivity]. exfalso.
  unfold route_params in E.
  assert (Hu : unset_given reqs ps = true).
  { unfold unset_given. apply existsb_exists. exists (k, RUnset). split; [|cbn; rewrite Eg; reflexivity].
    apply get_in. assumption. }
  rewrite Hu in E. discriminate.
Qed.

(** A value produced by an adapter whose request was left unset by the next predictor is reported as such (if several
    are, the first one is named), whatever else was given. *)
Theorem C122_unset_adapter_output_reported : forall V fin tr reqs (md ps : kwargs V) k v, fin = true \/ tr = false ->
  In (k, Some v) md -> given k ps = Some v -> dict_get String.eqb k reqs = Some RUnset ->
  exists k' v', prepare_routing fin tr reqs (Some md) ps = Incompatible k' /\ In (k', Some v') md /\
    (dict_get String.eqb k' reqs = None \/ dict_get String.eqb k' reqs = Some RUnset).
Proof.
  intros V fin tr reqs md ps k v Hf Hin Hg Hr. unfold prepare_routing.
  assert (Hb : (fin || negb tr)%bool = true) by (apply final_or_predictor; exact Hf).
  rewrite Hb.
  assert (Hu : route_params reqs ps = None).
  { unfold route_params.
    assert (Hu : unset_given reqs ps = true).
    { unfold unset_given. apply existsb_exists. exists (k, RUnset). split; [|cbn; rewrite Hg; reflexivity].
      apply get_in. assumption. }
    rewrite Hu. reflexivity. }
  rewrite Hu.
  destruct (find _ md) as [[k' o]|] eqn:Ef.
  - pose proof (find_some _ _ Ef) as [H1 H2]. cbn [fst snd] in *. destruct o as [v'|]; [|discriminate].
    exists k', v'. split; [reflexivity|]. split; [assumption|].
    destruct (dict_get String.eqb k' reqs) as [[| | |]|]; try discriminate; auto.
  - exfalso. pose proof (find_none _ _ Ef _ Hin) as H. cbn [fst snd] in H. rewrite Hr in H. discriminate.
Qed.

(** A parameter given by the user, not by an adapter, whose request is unset: sklearn's own error. *)
Theorem C122_unset_user_parameter_reported : forall V fin tr reqs (ps : kwargs V) k v, fin = true \/ tr = false ->
  given k ps = Some v -> dict_get String.eqb k reqs = Some RUnset ->
  prepare_routing fin tr reqs (Some []) ps = UnsetMetadata.
Proof.
  intros V fin tr reqs ps k v Hf Hg Hr. unfold prepare_routing.
  assert (Hb : (fin || negb tr)%bool = true) by (apply final_or_predictor; exact Hf).
  rewrite Hb. unfold route_params.
  assert (Hu : unset_given reqs ps = true).
  { unfold unset_given. apply existsb_exists. exists (k, RUnset). split; [|cbn; rewrite Hg; reflexivity].
    apply get_in. assumption. }
  rewrite Hu. reflexivity.
Qed.

(** Weights computed by an adapter are silently dropped when the final predictor has no such argument: no error is
    raised although the predictor never asked for, nor refused, the weights. *)
Theorem C122_adapter_output_dropped_refuted : forall V (v : V), exists reqs md ps d,
  dict_get String.eqb "sample_weight"%string md = Some (Some v) /\
  given "sample_weight"%string ps = Some v /\
  prepare_routing true false reqs (Some md) ps = Routed d /\
  dict_get String.eqb "sample_weight"%string reqs = None /\
  dict_get String.eqb "sample_weight"%string d = None.
Proof.
  intros V v. exists [], [("sample_weight"%string, Some v)], [("sample_weight"%string, Some v)], [].
  repeat split.
Qed.

(** Under SelectSourceTarget the report itself fails, for every set of requests and every input. *)
Theorem C122_source_target_report_refuted : forall V fin tr reqs (ps : kwargs V) k v, fin = true \/ tr = false ->
  given k ps = Some v -> dict_get String.eqb k reqs = Some RUnset ->
  prepare_routing fin tr reqs None ps = NoIterMetadata.
Proof.
  intros V fin tr reqs ps k v Hf Hg Hr. unfold prepare_routing.
  assert (Hb : (fin || negb tr)%bool = true) by (apply final_or_predictor; exact Hf).
  rewrite Hb. unfold route_params.
  assert (Hu : unset_given reqs ps = true).
  { unfold unset_given. apply existsb_exists. exists (k, RUnset). split; [|cbn; rewrite Hg; reflexivity].
    apply get_in. assumption. }
  rewrite Hu. reflexivity.
Qed.

Example C122_ex :
  let ps := [("sample_domain"%string, Some 1); ("sample_weight"%string, Some 2); ("other"%string, None)] in
  prepare_routing true false [("sample_weight"%string, RTrue); ("sample_domain"%string, RFalse)] (Some []) ps
    = Routed [("sample_weight"%string, Some 2)] /\
  prepare_routing true false [("sample_weight"%string, RUnset)] (Some [("sample_weight"%string, Some 2)]) ps
    = Incompatible "sample_weight"%string /\
  prepare_routing true false [("sample_weight"%string, RUnset)] None ps = NoIterMetadata.
Proof. repeat split. Qed.

(** ** C123 *)

(** Without aliases, and when every given parameter has a value, a transformer inside the pipeline receives exactly
    what it would receive as the final step. *)
Theorem C123_inner_transformer_partial : forall V reqs meta (ps : kwargs V) d,
  NoDup (map fst reqs) ->
  (forall k a, dict_get String.eqb k reqs <> Some (RAlias a)) ->
  (forall k, dict_get String.eqb k ps <> Some None) ->
  prepare_routing true true reqs meta ps = Routed d ->
  exists d', prepare_routing false true reqs meta ps = Routed d' /\
    forall k, dict_get String.eqb k d' = dict_get String.eqb k d.
Proof.
  intros V reqs meta ps d Hn Ha Hv H. eexists. split; [reflexivity|]. intros k.
  pose proof (C122_predictor_receives V true true reqs meta ps d (or_introl eq_refl) Hn H k) as Hk.
  assert (Hc : map (fun k => (k, match dict_get String.eqb k ps with Some v => v | None => None end)) (consumes reqs ps)
    = flat_map (fun kr : string * req => match (match snd kr with
        | RTrue => dict_get String.eqb (fst kr) ps | _ => None end) with Some v => [(fst kr, v)] | None => [] end) reqs).
  { assert (Ha' : forall k r a, In (k, r) reqs -> r <> RAlias a).
    { intros k0 r a Hi ->. apply (Ha k0 a). apply in_get; assumption. }
    clear -Ha'. unfold consumes. induction reqs as [|[k0 r] reqs IH]; [reflexivity|]. cbn [flat_map fst snd].
    rewrite map_app, IH by (intros; eapply Ha'; right; eassumption). f_equal.
    destruct r; try reflexivity.
    - destruct (dict_get String.eqb k0 ps) as [v|] eqn:E; cbn; [rewrite E|]; reflexivity.
    - exfalso. apply (Ha' k0 _ s (or_introl eq_refl) eq_refl). }
  rewrite Hc. clear Hc.
  rewrite (get_flat_reqs (fun k r => match r with RTrue => dict_get String.eqb k ps | _ => None end)) by assumption.
  destruct (dict_get String.eqb k reqs) as [[| | |a]|] eqn:Ek; try (symmetry; exact Hk).
  - rewrite Hk. unfold given. destruct (dict_get String.eqb k ps) as [[v|]|] eqn:Ep; try reflexivity.
    exfalso. exact (Hv _ Ep).
  - symmetry. exact (proj2 Hk).
  - exfalso. exact (Ha _ _ Ek).
Qed.

(** With an alias it receives the value under the alias, not under the name of its own argument, for every value. *)
Theorem C123_alias_refuted : forall V (v : V) k a, k <> a -> exists d d',
  prepare_routing true true [(k, RAlias a)] (Some []) [(a, Some v)] = Routed d /\
  prepare_routing false true [(k, RAlias a)] (Some []) [(a, Some v)] = Routed d' /\
  dict_get String.eqb k d = Some (Some v) /\ dict_get String.eqb k d' = None /\
  dict_get String.eqb a d' = Some (Some v).
Proof.
  intros V v k a Hka. do 2 eexists.
  unfold prepare_routing, route_params, unset_given, consumes, given. cbn. rewrite String.eqb_refl. cbn.
  rewrite String.eqb_refl.
  split; [reflexivity|]. split; [reflexivity|]. cbn. rewrite !String.eqb_refl.
  destruct (String.eqb_spec k a); [contradiction|]. auto.
Qed.

Example C123_ex :
  let ps := [("w"%string, Some 2); ("sample_domain"%string, Some 5)] in
  prepare_routing false true [("sample_domain"%string, RTrue); ("x"%string, RUnset)] None ps
    = Routed [("sample_domain"%string, Some 5)] /\
  prepare_routing false true [("sample_weight"%string, RAlias "w")] None ps = Routed [("w"%string, Some 2)].
Proof. repeat split. Qed.

(** ** C124 *)

Lemma map_params_scalar f (ps ps' : params) k z : (forall z, f (POther z) = Ok (POther z)) ->
  map_params f ps = Ok ps' -> p_get k ps = Some (POther z) -> p_get k ps' = Some (POther z).
Proof.
  intros Hf. unfold map_params, p_get. revert ps'. induction ps as [|[k' v] ps IH]; intros ps' H Hg; [discriminate|].
  cbn [mapM fst snd] in H. destruct (f v) as [v'|] eqn:Ev; [|discriminate]. cbn [bind] in H.
  destruct (mapM _ ps) as [r|] eqn:Er; [|discriminate]. cbn [bind] in H. injection H as <-.
  cbn in *. destruct (String.eqb k k'); [|apply (IH r); auto].
  injection Hg as ->. rewrite Hf in Ev. injection Ev as <-. reflexivity.
Qed.

(** Selecting the samples of one side keeps a flag or number as it is, so each estimator of SelectSourceTarget can
    receive it. *)
Theorem C124_side_keeps_scalars : forall (R : Type) (X : list R) y ps m X' y' ps' k z,
  apply_domain_masks X y ps m = Ok (X', y', ps') ->
  p_get k ps = Some (POther z) -> p_get k ps' = Some (POther z).
Proof.
  intros R X y ps m X' y' ps' k z H Hg. unfold apply_domain_masks in H.
  destruct (np_select m X); [|discriminate]. cbn [bind] in H.
  destruct (opt_map (np_select m) y); [|discriminate]. cbn [bind] in H.
  destruct (map_params _ ps) as [p|] eqn:E; [|discriminate]. cbn [bind] in H. injection H as <- <- <-.
  eapply map_params_scalar; [|eassumption|eassumption]. reflexivity.
Qed.

Lemma map_take_scalar_fails idx (rp : params) k z rp' : In (k, POther z) rp -> map_params (pv_take idx) rp <> Ok rp'.
Proof.
  unfold map_params. revert rp'. induction rp as [|[k' v] rp IH]; [intros rp' []|intros rp' [H|H]].
  - injection H as -> ->. cbn. discriminate.
  - cbn [mapM fst snd]. destruct (pv_take idx v); [|discriminate]. cbn [bind].
    destruct (mapM _ rp) as [r|] eqn:E; [|discriminate]. exfalso. exact (IH r H eq_refl).
Qed.

(** PerDomain fails as soon as a flag or number is routed to the wrapped estimator: fitting and predicting never
    return. *)
Theorem C124_per_domain_refuted : forall (R Est A : Type) route tr mask (c : @container R) y ps rp k z
    (zero : A) of_num (method : Est -> @call R -> res (mout A)) ests,
  route (dict_update String.eqb ps (c_meta c)) = Ok rp -> In (k, POther z) rp -> (tr = true \/ y = None /\ c_labels c = None) ->
  get_sd (dict_update String.eqb ps (c_meta c)) <> Some [] ->
  (forall r, per_domain_fit route tr mask c y ps <> Ok r) /\
  (forall r, c_meta c = [] -> per_domain_route_any route zero of_num method ests (c_X c) None ps <> Ok r).
Proof.
  intros R Est A route tr mask c y ps rp k z zero of_num method ests Hr Hin Ht Hne.
  assert (Hcall : forall X y' sd d r, domain_call (R:=R) X y' rp sd d <> Ok r).
  { intros X y' sd d r. unfold domain_call. destruct (np_take _ X); [|discriminate]. cbn [bind].
    destruct (opt_map _ y'); [|discriminate]. cbn [bind].
    destruct (map_params _ rp) as [rp'|] eqn:E; [|discriminate].
    exfalso. exact (map_take_scalar_fails _ _ _ _ _ Hin E). }
  assert (Hu : forall sd, sd <> [] -> exists d ds, unique sd = d :: ds).
  { intros [|a sd] H; [congruence|]. unfold unique. cbn [fold_right].
    destruct (fold_right insert_uniq [] sd) as [|h t]; cbn; [eauto|].
    destruct (a <? h)%Z; [eauto|]. destruct (a =? h)%Z; eauto. }
  split.
  - intros r. unfold per_domain_fit, merge_out.
    destruct (if mask then auto_mask y ps else Ok y) as [y1|] eqn:Ey; [|discriminate]. cbn [bind].
    destruct (get_sd (dict_update String.eqb ps (c_meta c))) as [sd|]; [|discriminate]. cbn [bind].
    rewrite Hr. cbn [bind].
    assert (Hrm : sel_remove_masked tr (c_X c) (match c_labels c with Some l => Some l | None => y1 end) rp =
                  Ok (c_X c, match c_labels c with Some l => Some l | None => y1 end, rp)).
    { destruct Ht as [->|[-> Hl]]; unfold sel_remove_masked.
      - destruct (match c_labels c with Some l => Some l | None => y1 end); reflexivity.
      - rewrite Hl. assert (y1 = None) as ->; [|reflexivity].
        destruct mask; cbn in Ey; congruence. }
    rewrite Hrm. cbn [bind]. destruct (Hu sd) as (d & ds & ->); [congruence|]. cbn [mapM].
    destruct (domain_call _ _ rp sd d) eqn:E; [|discriminate]. exfalso. exact (Hcall _ _ _ _ _ E).
  - intros r Hm. rewrite Hm in *. unfold dict_update in *. cbn [fold_left] in *.
    unfold per_domain_route_any. rewrite Hr. cbn [bind].
    destruct (get_sd ps) as [sd|]; [|discriminate]. cbn [bind].
    destruct (Hu sd) as (d & ds & ->); [congruence|]. cbn [mapM].
    destruct (dict_get Z.eqb d ests); [|discriminate].
    destruct (domain_call _ _ rp sd d) eqn:E; [|discriminate]. exfalso. exact (Hcall _ _ _ _ _ E).
Qed.

Example C124_ex :
  let ps := [("sample_domain"%string, PDom [1;-2]%Z); ("allow_source"%string, POther 1)] in
  sst_route (fun p => Ok p) (fun p => Ok p) 0 (fun X p => Ok X)
    (fun X p => match p_get "allow_source"%string p with Some (POther 1) => Ok X | _ => Err ValueError end)
    [10;20] ps = Ok [10;20] /\
  per_domain_route_any (fun p => Ok p) 0 (fun _ => 0) (fun (_ : unit) k => Ok (MArr (k_X k)))
    [(1%Z, tt); ((-2)%Z, tt)] [10;20] None ps = Err TypeError.
Proof. split; reflexivity. Qed.
