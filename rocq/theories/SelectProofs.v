(** Proofs about masking, selectors and containers. *)
From Coq Require Import String List ZArith QArith Bool Arith Lia Sorting.Permutation Sorting.Sorted.
From Verif Require Import Np NpFacts Labels Spec SpecFacts UtilsModel UtilsSpec UtilsProofs UtilsProofs2 SelectModel SelectSpec.
Import ListNotations.
Local Open Scope nat_scope.
Local Open Scope list_scope.

Lemma filter_by_select {A B} (p : B -> bool) bs (xs : list A) : filter_by p bs xs = select (map p bs) xs.
Proof. symmetry. apply select_filter. Qed.

Lemma rows_of_filter_by {A} p sd (xs : list A) : rows_of p sd xs = filter_by p sd xs.
Proof. reflexivity. Qed.

Lemma filter_by_length {A B} (p : B -> bool) bs (xs : list A) : length bs = length xs ->
  length (filter_by p bs xs) = how_many p bs.
Proof. intros H. rewrite filter_by_select, select_length by now rewrite map_length. apply count_map. Qed.

Lemma filter_by_ext {A B} (p q : B -> bool) bs (xs : list A) : (forall b, In b bs -> p b = q b) ->
  filter_by p bs xs = filter_by q bs xs.
Proof. intros H. rewrite !filter_by_select. f_equal. now apply map_ext_in. Qed.

(** ** apply_domain_masks *)

Lemma map_params_ok f (g : pval -> pval) ps :
  (forall k v, In (k, v) ps -> f v = Ok (g v)) ->
  map_params f ps = Ok (map (fun kv => (fst kv, g (snd kv))) ps).
Proof.
  intros H. unfold map_params. rewrite <- mapM_pure. apply mapM_ext. intros [k v] Hin.
  cbn [fst snd]. now rewrite (H k v Hin).
Qed.

Lemma pv_select_filter {B} (p : B -> bool) bs v : (forall l, v = PPyList l -> length l <> length bs) ->
  match pv_len v with
  | Some k => if k =? length (map p bs) then pv_select (map p bs) v else Ok v
  | None => Ok v
  end = Ok (param_filter p bs v).
Proof.
  intros H. destruct v as [l|l|l|z]; cbn [pv_len param_filter]; rewrite ?map_length.
  - destruct (Nat.eqb_spec (length l) (length bs)); auto. cbn [pv_select].
    rewrite np_select_ok by now rewrite map_length. cbn [bind]. now rewrite filter_by_select.
  - destruct (Nat.eqb_spec (length l) (length bs)); auto. cbn [pv_select].
    rewrite np_select_ok by now rewrite map_length. cbn [bind]. now rewrite filter_by_select.
  - destruct (Nat.eqb_spec (length l) (length bs)); auto. exfalso. now apply (H l).
  - reflexivity.
Qed.

Lemma apply_masks_ok {R B} (p : B -> bool) (bs : list B) (X : list R) y ps :
  length X = length bs -> (forall l, y = Some l -> length l = length bs) -> no_pylist (length bs) ps ->
  apply_domain_masks X y ps (map p bs) =
  Ok (filter_by p bs X, option_map (filter_by p bs) y, params_filter p bs ps).
Proof.
  intros HX Hy Hp. unfold apply_domain_masks.
  rewrite np_select_ok by (rewrite map_length; auto). cbn [bind].
  assert (E : opt_map (np_select (map p bs)) y = Ok (option_map (filter_by p bs) y)).
  { destruct y as [l|]; [|reflexivity]. cbn [opt_map option_map].
    rewrite np_select_ok by (rewrite map_length; symmetry; now apply Hy). cbn [bind]. now rewrite filter_by_select. }
  rewrite E. cbn [bind].
  rewrite (map_params_ok _ (param_filter p bs)).
  - cbn [bind]. now rewrite filter_by_select.
  - intros k v Hin. apply pv_select_filter. intros l ->. now apply (Hp k l).
Qed.

Lemma map_params_typeerr f ps k v :
  In (k, v) ps -> f v = Err TypeError -> (forall w, exists r, f w = Ok r \/ f w = Err TypeError) ->
  map_params f ps = Err TypeError.
Proof.
  intros Hin Hf Hall. induction ps as [|[k' w] ps IH]; [inversion Hin|].
  unfold map_params in *. cbn [mapM fst snd]. destruct Hin as [E|Hin].
  - injection E as -> ->. now rewrite Hf.
  - destruct (Hall w) as [r [E|E]]; rewrite E; cbn [bind]; auto. now rewrite IH.
Qed.

Lemma apply_masks_pylist {R B} (p : B -> bool) (bs : list B) (X : list R) y ps k l :
  length X = length bs -> (forall l, y = Some l -> length l = length bs) ->
  In (k, PPyList l) ps -> length l = length bs ->
  apply_domain_masks X y ps (map p bs) = Err TypeError.
Proof.
  intros HX Hy Hin Hl. unfold apply_domain_masks.
  rewrite np_select_ok by (rewrite map_length; auto). cbn [bind].
  assert (E : opt_map (np_select (map p bs)) y = Ok (option_map (filter_by p bs) y)).
  { destruct y as [l'|]; [|reflexivity]. cbn [opt_map option_map].
    rewrite np_select_ok by (rewrite map_length; symmetry; now apply Hy). cbn [bind]. now rewrite filter_by_select. }
  rewrite E. cbn [bind].
  rewrite (map_params_typeerr _ ps k (PPyList l)); auto.
  - cbn [pv_len]. now rewrite map_length, Hl, Nat.eqb_refl.
  - intros w. destruct (pv_len w) as [n|] eqn:En; [|eexists; left; reflexivity].
    destruct (Nat.eqb_spec n (length (map p bs))); [|eexists; left; reflexivity].
    destruct w; cbn [pv_select pv_len] in *; injection En as <- || discriminate.
    + rewrite np_select_ok by auto. eexists; left; reflexivity.
    + rewrite np_select_ok by auto. eexists; left; reflexivity.
    + exists (PPyList l0); now right.
Qed.

(** ** remove_masked *)

Lemma remove_masked_discrete {R} (X : list R) y ps :
  y <> [] -> discrete_labels y -> length X = length y -> no_pylist (length y) ps ->
  remove_masked X y ps =
  Ok (filter_by keep_discrete y X, Some (filter keep_discrete y), params_filter keep_discrete y ps).
Proof.
  intros Hy Hd HX Hp. unfold remove_masked, find_y_type1. rewrite find_y_type_discrete by auto. cbn [bind].
  assert (E : map (fun v => negb (val_eqb_q v mask_cls_q)) y = map keep_discrete y).
  { apply map_ext. intros []; reflexivity. }
  rewrite E, apply_masks_ok; auto.
  - cbn [option_map]. rewrite (filter_by_select keep_discrete y y), select_self. reflexivity.
  - intros l H. now injection H as <-.
Qed.

Lemma remove_masked_continuous {R} (X : list R) y ps :
  continuous_labels y -> length X = length y -> no_pylist (length y) ps ->
  remove_masked X y ps =
  Ok (filter_by keep_continuous y X, Some (filter keep_continuous y), params_filter keep_continuous y ps).
Proof.
  intros Hd HX Hp. unfold remove_masked, find_y_type1. rewrite find_y_type_continuous by auto. cbn [bind].
  change (map is_finite y) with (map keep_continuous y). rewrite apply_masks_ok; auto.
  - cbn [option_map]. rewrite (filter_by_select keep_continuous y y), select_self. reflexivity.
  - intros l H. now injection H as <-.
Qed.

(** ** scatter *)

Lemma good_index_NoDup n i : good_index n i -> NoDup (index_list i).
Proof. destruct i; simpl; [tauto|]. intros _. apply flatnonzero_NoDup. Qed.

Lemma good_index_lt n i j : good_index n i -> In j (index_list i) -> j < n.
Proof.
  destruct i; simpl.
  - intros [_ H] Hj. rewrite Forall_forall in H. auto.
  - intros <- Hj. now apply flatnonzero_lt.
Qed.

Lemma place_idx_cons_shift {A} (idx : list nat) (vals : list A) o out :
  place_idx (map S idx) vals (o :: out) = o :: place_idx idx vals out.
Proof.
  revert vals out. induction idx as [|i idx IH]; intros [|v vals] out; simpl; auto.
Qed.

Lemma place_where {A} m (vals out : list A) : length m = length out -> length vals = count m ->
  place m vals out = place_idx (flatnonzero m) vals out.
Proof.
  unfold flatnonzero. revert vals out. induction m as [|b m IH]; intros vals [|o out] H1 H2; simpl in *; try discriminate.
  - now destruct vals.
  - rewrite where_from_map. destruct b.
    + destruct vals as [|v vals]; simpl in *; [discriminate|].
      rewrite place_idx_cons_shift. f_equal. apply IH; lia.
    + rewrite place_idx_cons_shift. f_equal. apply IH; lia.
Qed.

Lemma set_index_ok {A} i (vals out : list A) :
  good_index (length out) i -> length vals = length (index_list i) ->
  set_index i vals out = Ok (place_idx (index_list i) vals out).
Proof.
  destruct i as [l|m]; simpl; intros H1 H2.
  - destruct H1 as [_ H1]. unfold np_setidx.
    assert (E : forallb (fun i => i <? length out) l = true).
    { apply forallb_forall. intros j Hj. rewrite Forall_forall in H1. apply Nat.ltb_lt. auto. }
    now rewrite E, H2, Nat.eqb_refl.
  - rewrite flatnonzero_length in H2. rewrite np_setmask_ok by auto. now rewrite place_where.
Qed.

(** The outcome of scattering disjoint domain outputs. *)
Lemma scatter_all_ok {A} (outs : list (dindex * list A)) out :
  Forall (fun iv => good_index (length out) (fst iv) /\ length (snd iv) = length (index_list (fst iv))) outs ->
  NoDup (concat (map (fun iv => index_list (fst iv)) outs)) ->
  exists r, scatter_all outs out = Ok r /\ length r = length out /\
    (forall i vals k j v, In (i, vals) outs -> nth_error (index_list i) k = Some j -> nth_error vals k = Some v ->
       nth_error r j = Some v) /\
    (forall j, ~ In j (concat (map (fun iv => index_list (fst iv)) outs)) -> nth_error r j = nth_error out j).
Proof.
  revert out. induction outs as [|[i vals] outs IH]; intros out HF ND.
  - exists out. simpl. repeat split; auto. intros. contradiction.
  - inversion HF as [|? ? [G L] HF']; subst. cbn [fst snd map concat] in *.
    cbn [scatter_all]. rewrite set_index_ok by auto. cbn [bind].
    assert (ND2 : NoDup (concat (map (fun iv : dindex * list A => index_list (fst iv)) outs))).
    { clear -ND. induction (index_list i); simpl in *; auto. inversion ND; auto. }
    assert (DJ : forall x, In x (index_list i) -> ~ In x (concat (map (fun iv : dindex * list A => index_list (fst iv)) outs))).
    { clear -ND. induction (index_list i) as [|a l IHl]; simpl in *; intros x Hx; [easy|]. inversion ND; subst.
      destruct Hx as [->|Hx]; [|now apply IHl]. intros C. apply H1. apply in_or_app. now right. }
    destruct (IH (place_idx (index_list i) vals out)) as [r [E [E1 [E2 E3]]]]; auto.
    { now rewrite place_idx_length. }
    rewrite place_idx_length in E1. exists r. split; auto. split; auto. split.
    + intros i' vals' k j v [Heq|Hin] Hj Hv.
      * injection Heq as <- <-. rewrite E3.
        -- apply place_idx_nth with (k := k); auto.
           ++ eapply good_index_NoDup; eauto.
           ++ eapply good_index_lt; eauto. eapply nth_error_In; eauto.
        -- apply DJ. eapply nth_error_In; eauto.
      * eapply E2; eauto.
    + intros j Hj. rewrite E3.
      * apply place_idx_notin. intros C. apply Hj. apply in_or_app. now left.
      * intros C. apply Hj. apply in_or_app. now right.
Qed.

Lemma nth_error_repeat' {A} (x : A) n j : j < n -> nth_error (repeat x n) j = Some x.
Proof. revert j; induction n; intros [|j] H; simpl; auto; try lia. apply IHn. lia. Qed.

Lemma merge_domain_outputs_ok {A} (zero : A) n outs :
  outs <> [] ->
  Forall (fun iv => good_index n (fst iv) /\ length (snd iv) = length (index_list (fst iv))) outs ->
  NoDup (concat (map (fun iv => index_list (fst iv)) outs)) ->
  exists r, merge_domain_outputs zero n outs = Ok r /\ length r = n /\
    (forall i vals k j v, In (i, vals) outs -> nth_error (index_list i) k = Some j -> nth_error vals k = Some v ->
       nth_error r j = Some v) /\
    (forall j, j < n -> ~ In j (concat (map (fun iv => index_list (fst iv)) outs)) -> nth_error r j = Some zero).
Proof.
  intros Hne HF ND. unfold merge_domain_outputs. destruct outs as [|o outs]; [easy|].
  cbn [length Nat.eqb]. destruct (scatter_all_ok (o :: outs) (repeat zero n)) as [r [E [E1 [E2 E3]]]]; auto.
  { now rewrite repeat_length. }
  rewrite repeat_length in E1. exists r. repeat split; auto.
  intros j Hj HN. rewrite E3 by auto. now apply nth_error_repeat'.
Qed.

(** Reading back the rows of one domain. *)
Lemma nth_error_ext' {A} (l1 l2 : list A) : length l1 = length l2 ->
  (forall i, i < length l1 -> nth_error l1 i = nth_error l2 i) -> l1 = l2.
Proof.
  revert l2; induction l1 as [|a l1 IH]; intros [|b l2] HL H; simpl in *; auto; try discriminate.
  f_equal.
  - specialize (H 0 ltac:(lia)). simpl in H. congruence.
  - apply IH; [lia|]. intros i Hi. apply (H (S i)). lia.
Qed.

Lemma np_take_eq {A} idx (xs vals : list A) : length vals = length idx ->
  (forall k j v, nth_error idx k = Some j -> nth_error vals k = Some v -> nth_error xs j = Some v) ->
  np_take idx xs = Ok vals.
Proof.
  intros HL H. apply np_take_ok_iff. revert vals HL H. induction idx as [|i idx IH]; intros [|v vals] HL H; simpl in *; try discriminate; constructor.
  - apply (H 0); reflexivity.
  - apply IH; [lia|]. intros k j v' H1 H2. apply (H (S k)); auto.
Qed.

(** ** auto_mask *)

Lemma auto_mask_ok (l : list val) ps sd ty :
  get_sd ps = Some sd -> sd <> [] -> length l = length sd -> find_y_type1 l = Ok ty ->
  auto_mask (Some l) ps = Ok (Some (mask_targets (mask_of ty) sd l)).
Proof.
  intros Hsd Hne HL Hty. unfold auto_mask. rewrite Hsd, Hty. cbn [bind].
  rewrite extract_source_ok by auto. cbn [bind].
  rewrite np_setmask_scalar_ok by now rewrite !map_length. cbn [bind]. do 2 f_equal.
  unfold mask_targets. clear. revert l. induction sd as [|d sd IH]; intros [|v l]; simpl; auto.
  rewrite IH. f_equal. destruct (is_source d); simpl; auto.
Qed.

Lemma mask_targets_agree mask sd y1 y2 :
  length y1 = length sd -> length y2 = length sd ->
  rows_of is_source sd y1 = rows_of is_source sd y2 ->
  mask_targets mask sd y1 = mask_targets mask sd y2.
Proof.
  unfold mask_targets. rewrite !rows_of_select. revert y1 y2.
  induction sd as [|d sd IH]; intros [|a y1] [|b y2] H1 H2 H3; simpl in *; try discriminate; auto.
  destruct (is_source d); simpl in *.
  - injection H3 as -> H3. f_equal. apply IH; auto; lia.
  - f_equal. apply IH; auto; lia.
Qed.

Lemma mask_targets_length mask sd y : length y = length sd -> length (mask_targets mask sd y) = length sd.
Proof. intros H. unfold mask_targets. rewrite map_length, combine_length. lia. Qed.

Lemma mask_targets_all_source mask sd y : length y = length sd -> (forall d, In d sd -> is_source d = true) ->
  mask_targets mask sd y = y.
Proof.
  unfold mask_targets. revert y. induction sd as [|d sd IH]; intros [|v y] HL H; simpl in *; try discriminate; auto.
  rewrite (H d) by auto. simpl. f_equal. apply IH; auto.
Qed.

Section Shared.
  Context {R : Type} (route : params -> res params) (tr : bool).

  Lemma shared_fit_agree (c : @container R) y1 y2 ps sd ty :
    get_sd ps = Some sd -> sd <> [] -> length y1 = length sd -> length y2 = length sd ->
    find_y_type1 y1 = Ok ty -> find_y_type1 y2 = Ok ty ->
    rows_of is_source sd y1 = rows_of is_source sd y2 ->
    shared_fit route tr true c (Some y1) ps = shared_fit route tr true c (Some y2) ps.
  Proof.
    intros H1 H2 H3 H4 H5 H6 H7. unfold shared_fit.
    rewrite (auto_mask_ok y1 ps sd ty), (auto_mask_ok y2 ps sd ty) by auto.
    now rewrite (mask_targets_agree _ _ _ _ H3 H4 H7).
  Qed.

  Lemma per_domain_fit_agree (c : @container R) y1 y2 ps sd ty :
    get_sd ps = Some sd -> sd <> [] -> length y1 = length sd -> length y2 = length sd ->
    find_y_type1 y1 = Ok ty -> find_y_type1 y2 = Ok ty ->
    rows_of is_source sd y1 = rows_of is_source sd y2 ->
    per_domain_fit route tr true c (Some y1) ps = per_domain_fit route tr true c (Some y2) ps.
  Proof.
    intros H1 H2 H3 H4 H5 H6 H7. unfold per_domain_fit.
    rewrite (auto_mask_ok y1 ps sd ty), (auto_mask_ok y2 ps sd ty) by auto.
    now rewrite (mask_targets_agree _ _ _ _ H3 H4 H7).
  Qed.

  Lemma shared_fit_caller_y (c : @container R) mask y ps ya k :
    shared_fit route tr mask c y ps = Ok (ya, k) ->
    (mask = true -> auto_mask y ps = Ok ya) /\ (mask = false -> ya = y).
  Proof.
    unfold shared_fit. intros H. apply bind_ok in H as [y1 [E H]].
    destruct (merge_out c y1 ps) as [[X y2] ps2]. apply bind_ok in H as [rp [_ H]].
    apply bind_ok in H as [[[X3 y3] rp3] [_ H]]. injection H as <- _.
    destruct mask; split; intros; congruence.
  Qed.
End Shared.

(** ** PerDomain *)

Lemma flatnonzero_positions d sd : flatnonzero (map (fun x => (x =? d)%Z) sd) = positions (Z.eqb d) sd.
Proof. rewrite positions_flatnonzero. f_equal. apply map_ext. intros x. apply Z.eqb_sym. Qed.

Lemma pv_take_rows d sd v : per_sample (length sd) v ->
  pv_take (positions (Z.eqb d) sd) v = Ok (param_rows d sd v).
Proof.
  destruct v as [l|l|l|z]; simpl; intros H; try easy; now rewrite take_positions by auto.
Qed.

Lemma domain_call_ok {R} (X : list R) y rp sd d :
  length X = length sd -> (forall l, y = Some l -> length l = length sd) ->
  (forall k v, In (k, v) rp -> per_sample (length sd) v) ->
  domain_call X y rp sd d =
  Ok (d, (positions (Z.eqb d) sd,
          mkCall (rows_of (Z.eqb d) sd X) (option_map (rows_of (Z.eqb d) sd) y) (params_rows d sd rp))).
Proof.
  intros HX Hy Hp. unfold domain_call. rewrite flatnonzero_positions.
  rewrite take_positions by auto. cbn [bind].
  assert (E : opt_map (np_take (positions (Z.eqb d) sd)) y = Ok (option_map (rows_of (Z.eqb d) sd) y)).
  { destruct y as [l|]; [|reflexivity]. cbn [opt_map option_map]. now rewrite take_positions by auto. }
  rewrite E. cbn [bind].
  rewrite (map_params_ok _ (param_rows d sd)); [reflexivity|].
  intros k v Hin. apply pv_take_rows. eauto.
Qed.

Lemma gets_domains_key ps : gets_domains ps <-> has_key "sample_domain" ps = true.
Proof.
  unfold gets_domains, has_key, p_get. induction ps as [|[k v] ps IH]; cbn [map fst In dict_get]; [easy|].
  destruct (String.eqb_spec "sample_domain" k) as [<-|N]; [tauto|]. rewrite <- IH. split; [intros [E|E]; [now destruct N|exact E]|tauto].
Qed.
Lemma no_domains_key ps : ~ gets_domains ps <-> has_key "sample_domain" ps = false.
Proof. rewrite gets_domains_key. destruct (has_key _ ps); split; congruence. Qed.
Ltac domain_keys := repeat match goal with
  | H : context [~ gets_domains _] |- _ => rewrite no_domains_key in H
  | H : context [gets_domains _] |- _ => rewrite gets_domains_key in H end.

Section PerDomainFit.
  Context {R : Type} (route : params -> res params) (tr : bool).

  Lemma per_domain_fit_ok (c : @container R) (mask : bool) y y1 ps sd rp X y2 ps2 :
    (if mask then auto_mask y ps else Ok y) = Ok y1 ->
    merge_out c y1 ps = (X, y2, ps2) -> get_sd ps2 = Some sd -> route ps2 = Ok rp ->
    (tr = true \/ y2 = None \/ has_key "sample_domain"%string rp = true) ->
    length X = length sd -> (forall l, y2 = Some l -> length l = length sd) ->
    (forall k v, In (k, v) rp -> per_sample (length sd) v) ->
    per_domain_fit route tr mask c y ps =
    Ok (y1, map (fun d => (d, (positions (Z.eqb d) sd,
              mkCall (rows_of (Z.eqb d) sd X) (option_map (rows_of (Z.eqb d) sd) y2) (params_rows d sd rp))))
            (unique sd)).
  Proof.
    intros H1 H2 H3 H4 H5 H6 H7 H8. unfold per_domain_fit. rewrite H1. cbn [bind]. rewrite H2, H3. cbn [bind].
    rewrite H4. cbn [bind].
    assert (E : sel_remove_masked tr X y2 rp = Ok (X, y2, rp)).
    { unfold sel_remove_masked. destruct y2 as [l|]; auto. destruct H5 as [->|[H5|H5]]; auto; [discriminate|].
      now rewrite H5, andb_false_r. }
    rewrite E. cbn [bind].
    rewrite (mapM_ext _ (fun d => Ok (d, (positions (Z.eqb d) sd,
              mkCall (rows_of (Z.eqb d) sd X) (option_map (rows_of (Z.eqb d) sd) y2) (params_rows d sd rp))))).
    - now rewrite mapM_pure.
    - intros d _. now apply domain_call_ok.
  Qed.

  (** When rows were removed, some index of the full sample_domain is out of range. *)
  Lemma domain_call_shrunk (X : list R) y rp sd :
    sd <> [] -> length X < length sd ->
    exists d, In d (unique sd) /\ domain_call X y rp sd d = Err IndexError.
  Proof.
    intros Hne HL. set (n := length sd) in *.
    assert (Hn : n - 1 < length sd) by (destruct sd; [easy|]; subst n; simpl; lia).
    apply nth_error_Some in Hn. destruct (nth_error sd (n - 1)) as [d|] eqn:E; [|easy].
    exists d. split; [apply unique_In; eapply nth_error_In; eauto|].
    unfold domain_call. rewrite flatnonzero_positions.
    rewrite (np_take_err (positions (Z.eqb d) sd) X); [reflexivity|].
    exists (n - 1). split; [|subst n; lia]. apply positions_In. exists d. split; auto. apply Z.eqb_refl.
  Qed.
End PerDomainFit.

Lemma mapM_err_exists {A B} (f : A -> res B) l e :
  (exists x, In x l /\ f x = Err e) -> (forall x e', In x l -> f x = Err e' -> e' = e) -> mapM f l = Err e.
Proof.
  intros [x [Hx Hf]] Hall. induction l as [|a l IH]; [inversion Hx|].
  cbn [mapM]. destruct (f a) as [b|e'] eqn:Ea; cbn [bind].
  - destruct Hx as [->|Hx]; [congruence|]. rewrite IH; auto. intros y e' Hy. apply Hall. now right.
  - f_equal. apply (Hall a); auto. now left.
Qed.

Lemma np_take_only_IndexError {A} idx (xs : list A) e : np_take idx xs = Err e -> e = IndexError.
Proof.
  unfold np_take. induction idx as [|i idx IH]; simpl; [discriminate|].
  destruct (nth_error xs i); simpl; [|congruence].
  destruct (mapM _ idx); simpl; [discriminate|]. intros H. injection H as <-. auto.
Qed.

Lemma pv_take_only_IndexError idx v n e : per_sample n v -> pv_take idx v = Err e -> e = IndexError.
Proof.
  destruct v; simpl; intros Hp H; try easy.
  - destruct (np_take idx l) eqn:E; simpl in H; [discriminate|]. injection H as <-. eapply np_take_only_IndexError; eauto.
  - destruct (np_take idx l) eqn:E; simpl in H; [discriminate|]. injection H as <-. eapply np_take_only_IndexError; eauto.
Qed.

Lemma domain_call_only_IndexError {R} (X : list R) y rp sd d n e :
  (forall k v, In (k, v) rp -> per_sample n v) ->
  domain_call X y rp sd d = Err e -> e = IndexError.
Proof.
  intros Hp H. unfold domain_call in H.
  destruct (np_take _ X) eqn:E1; cbn [bind] in H.
  2: { injection H as <-. eapply np_take_only_IndexError; eauto. }
  destruct y as [l|]; cbn [opt_map] in H.
  1: destruct (np_take _ l) eqn:E2; cbn [bind] in H; [|injection H as <-; eapply np_take_only_IndexError; eauto].
  all: cbn [bind] in H;
    destruct (map_params _ rp) eqn:E3; cbn [bind] in H; [discriminate|]; injection H as <-;
    clear - E3 Hp; unfold map_params in E3;
    induction rp as [|[k v] rp IH]; cbn [mapM fst snd] in E3; [discriminate|];
    (destruct (pv_take _ v) eqn:E4; cbn [bind] in E3;
     [|injection E3 as <-; eapply pv_take_only_IndexError; eauto; eapply Hp; now left]);
    (destruct (mapM _ rp) eqn:E5; cbn [bind] in E3; [discriminate|]; injection E3 as <-;
     apply IH; auto; intros k' v' Hin; apply (Hp k'); now right).
Qed.

Section PerDomainRoute.
  Context {R Est A : Type} (route : params -> res params) (zero : A) (meth : Est -> list R -> params -> res (list A)).

  Lemma per_domain_route_ok (ests : dict Z Est) X ps rp sd (out : Z -> list A) :
    route ps = Ok rp -> get_sd ps = Some sd -> sd <> [] -> length X = length sd ->
    (forall k v, In (k, v) rp -> per_sample (length sd) v) ->
    (forall d, In d sd -> exists est, dict_get Z.eqb d ests = Some est /\
        meth est (rows_of (Z.eqb d) sd X) (params_rows d sd rp) = Ok (out d) /\
        length (out d) = how_many (Z.eqb d) sd) ->
    exists r, per_domain_route route zero meth ests X ps = Ok r /\ length r = length X /\
      forall d, In d sd -> rows_of (Z.eqb d) sd r = out d.
  Proof.
    intros H1 H2 Hne HX Hp Hm. unfold per_domain_route. rewrite H1. cbn [bind]. rewrite H2. cbn [bind].
    rewrite (mapM_ext _ (fun d => Ok (IInt (positions (Z.eqb d) sd), out d))).
    2: { intros d Hd. apply (proj1 (unique_In _ _)) in Hd. destruct (Hm d Hd) as [est [G1 [G2 G3]]]. rewrite G1.
         rewrite flatnonzero_positions. rewrite take_positions by auto. cbn [bind].
         rewrite (map_params_ok _ (param_rows d sd)).
         - cbn [bind]. fold (params_rows d sd rp). now rewrite G2.
         - intros k v Hin. apply pv_take_rows. eauto. }
    rewrite mapM_pure. cbn [bind].
    destruct (merge_domain_outputs_ok zero (length X) (map (fun d => (IInt (positions (Z.eqb d) sd), out d)) (unique sd)))
      as [r [E [E1 [E2 _]]]].
    - intros C. apply map_eq_nil in C. apply (proj1 (unique_nil sd)) in C. contradiction.
    - apply Forall_forall. intros [i vals] Hin. apply in_map_iff in Hin as [d [Heq Hd]]. injection Heq as <- <-.
      cbn [fst snd good_index index_list]. apply (proj1 (unique_In _ _)) in Hd. destruct (Hm d Hd) as [est [_ [_ G3]]].
      split; [split|].
      + apply positions_NoDup.
      + apply Forall_forall. intros j Hj. apply positions_In in Hj as [x [Hj _]]. rewrite HX.
        apply nth_error_Some. congruence.
      + now rewrite positions_length.
    - rewrite map_map. cbn [fst index_list]. rewrite <- flat_map_concat_map.
      eapply Permutation_NoDup; [apply Permutation_sym, domains_cover|]. apply seq_NoDup.
    - exists r. split; auto. split; auto. intros d Hd.
      destruct (Hm d Hd) as [est [_ [_ G3]]].
      assert (T : np_take (positions (Z.eqb d) sd) r = Ok (out d)).
      { apply np_take_eq; [now rewrite positions_length|]. intros k j v Hk Hv.
        eapply E2 with (i := IInt (positions (Z.eqb d) sd)); eauto.
        apply in_map_iff. exists d. split; auto. now apply unique_In. }
      rewrite take_positions in T by congruence. now injection T.
  Qed.

  Lemma per_domain_route_unknown (ests : dict Z Est) X ps rp sd d :
    route ps = Ok rp -> get_sd ps = Some sd -> length X = length sd ->
    (forall k v, In (k, v) rp -> per_sample (length sd) v) ->
    (forall est X' p', exists o, meth est X' p' = Ok o) ->
    In d sd -> dict_get Z.eqb d ests = None ->
    per_domain_route route zero meth ests X ps = Err ValueError.
  Proof.
    intros H1 H2 HX Hp Hm Hd Hg. unfold per_domain_route. rewrite H1. cbn [bind]. rewrite H2. cbn [bind].
    match goal with |- bind (mapM ?f _) _ = _ => set (F := f) end.
    assert (E : mapM F (unique sd) = Err ValueError).
    { apply mapM_err_exists.
      - exists d. split; [now apply unique_In|]. unfold F. now rewrite Hg.
      - intros x e _ HF. unfold F in HF. destruct (dict_get Z.eqb x ests) as [est|]; [|congruence].
        rewrite flatnonzero_positions in HF. rewrite take_positions in HF by auto. cbn [bind] in HF.
        rewrite (map_params_ok _ (param_rows x sd)) in HF.
        + cbn [bind] in HF. destruct (Hm est (rows_of (Z.eqb x) sd X) (map (fun kv => (fst kv, param_rows x sd (snd kv))) rp)) as [o Ho].
          rewrite Ho in HF. discriminate.
        + intros k v Hin. apply pv_take_rows. eauto. }
    now rewrite E.
  Qed.
End PerDomainRoute.
