(** Theorems C11-C19 and C73 about /repo/skada/_utils.py and the selectors of /repo/skada/base.py. *)
From Coq Require Import String List ZArith QArith Bool Arith Lia Sorting.Permutation Sorting.Sorted.
From Verif Require Import Np NpFacts Labels Spec SpecFacts UtilsModel UtilsSpec UtilsProofs UtilsProofs2
  SelectModel SelectSpec SelectProofs SelectProofs2.
Import ListNotations.
Local Open Scope nat_scope.
Local Open Scope list_scope.
Local Open Scope string_scope.

Lemma last_default {A} (l : list A) d1 d2 : l <> [] -> last l d1 = last l d2.
Proof. induction l as [|a [|b l] IH]; intros H; [easy|reflexivity|]. apply IH. easy. Qed.

(** ** C11 *)

(** A plain estimator (no transform, sample_domain not requested) is fitted on exactly the unmasked samples. *)
Theorem C11_fit_drops_masked_discrete : forall (R : Type) route (X : list R) y ps rp,
  y <> [] -> discrete_labels y -> length X = length y ->
  route ps = Ok rp -> ~ gets_domains rp -> no_pylist (length y) rp ->
  shared_fit route false false (from_array X) (Some y) ps =
  Ok (Some y, mkCall (filter_by keep_discrete y X) (Some (filter keep_discrete y)) (params_filter keep_discrete y rp)).
Proof.
  intros R route X y ps rp Hne Hd HX Hr Hk Hp. domain_keys. unfold shared_fit.
  cbn [bind merge_out from_array c_X c_labels c_meta]. change (dict_update String.eqb ps []) with ps.
  rewrite Hr. cbn [bind]. unfold sel_remove_masked. rewrite Hk. cbn [negb andb].
  now rewrite remove_masked_discrete.
Qed.

Theorem C11_fit_drops_masked_continuous : forall (R : Type) route (X : list R) y ps rp,
  continuous_labels y -> length X = length y ->
  route ps = Ok rp -> ~ gets_domains rp -> no_pylist (length y) rp ->
  shared_fit route false false (from_array X) (Some y) ps =
  Ok (Some y, mkCall (filter_by keep_continuous y X) (Some (filter keep_continuous y)) (params_filter keep_continuous y rp)).
Proof.
  intros R route X y ps rp Hd HX Hr Hk Hp. domain_keys. unfold shared_fit.
  cbn [bind merge_out from_array c_X c_labels c_meta]. change (dict_update String.eqb ps []) with ps.
  rewrite Hr. cbn [bind]. unfold sel_remove_masked. rewrite Hk. cbn [negb andb].
  now rewrite remove_masked_continuous.
Qed.

(** Transformers, and estimators that request sample_domain, receive every sample. *)
Theorem C11_fit_keeps_all_otherwise : forall (R : Type) route tr (X : list R) y ps rp,
  route ps = Ok rp -> tr = true \/ gets_domains rp ->
  shared_fit route tr false (from_array X) y ps = Ok (y, mkCall X y rp).
Proof.
  intros R route tr X y ps rp Hr H. domain_keys. unfold shared_fit.
  cbn [bind merge_out from_array c_X c_labels c_meta]. change (dict_update String.eqb ps []) with ps.
  rewrite Hr. cbn [bind]. unfold sel_remove_masked.
  destruct y as [l|]; auto. destruct H as [->|H]; auto. rewrite H, andb_false_r. reflexivity.
Qed.

(** A per-sample parameter given as a Python list cannot be filtered: TypeError. *)
Theorem C11_python_list_rejected : forall (R : Type) (X : list R) y ps k l,
  y <> [] -> discrete_labels y \/ continuous_labels y -> length X = length y ->
  In (k, PPyList l) ps -> length l = length y -> remove_masked X y ps = Err TypeError.
Proof.
  intros R X y ps k l Hne Hl HX Hin HL. unfold remove_masked, find_y_type1.
  destruct Hl as [H|H]; [rewrite find_y_type_discrete by auto | rewrite find_y_type_continuous by auto]; cbn [bind].
  - eapply (apply_masks_pylist _ y); eauto. intros l' E. now injection E as <-.
  - eapply (apply_masks_pylist _ y); eauto. intros l' E. now injection E as <-.
Qed.

Example C11_ex :
  shared_fit (fun ps => Ok ps) false false (from_array [10;20;30;40])
    (Some [VNum (inject_Z 2); VNum (inject_Z (-1)); VNum (inject_Z (-1)); VNum 0])
    [("sample_weight", PArr [VNum 1; VNum 2; VNum 3; VNum 4]); ("flag", POther 7)]
  = Ok (Some [VNum (inject_Z 2); VNum (inject_Z (-1)); VNum (inject_Z (-1)); VNum 0],
        mkCall [10;40] (Some [VNum (inject_Z 2); VNum 0])
          [("sample_weight", PArr [VNum 1; VNum 4]); ("flag", POther 7)]).
Proof. reflexivity. Qed.

Example C11_ex_continuous :
  continuous_labels [VNum (1#2); VNan; VInf true] /\
  remove_masked [10;20;30] [VNum (1#2); VNan; VInf true] [] = Ok ([10], Some [VNum (1#2)], []).
Proof. split; [left; simpl; auto|reflexivity]. Qed.

Example C11_pylist_ex :
  remove_masked [1;2] [VNum 0; VNum 1] [("w", PPyList [VNum 1; VNum 1])] = Err TypeError.
Proof. reflexivity. Qed.

(** ** C12 *)

(** If the domain indices cover every position exactly once, row j of the result is the row of the output of the
    domain whose index contains j, at the matching place. *)
Theorem C12_outputs_land_on_their_rows : forall (A : Type) (zero : A) n (outs : list (dindex * list A)),
  outs <> [] ->
  Forall (fun iv => good_index n (fst iv) /\ length (snd iv) = length (index_list (fst iv))) outs ->
  Permutation (concat (map (fun iv => index_list (fst iv)) outs)) (seq 0 n) ->
  exists r, merge_domain_outputs zero n outs = Ok r /\ length r = n /\
    forall i vals k j v, In (i, vals) outs -> nth_error (index_list i) k = Some j -> nth_error vals k = Some v ->
      nth_error r j = Some v.
Proof.
  intros A zero n outs Hne HF HP.
  destruct (merge_domain_outputs_ok zero n outs) as [r [E [E1 [E2 _]]]]; eauto.
  eapply Permutation_NoDup; [apply Permutation_sym; eauto|apply seq_NoDup].
Qed.

(** Rows of no domain are zero. *)
Theorem C12_uncovered_rows_zero : forall (A : Type) (zero : A) n (outs : list (dindex * list A)),
  outs <> [] ->
  Forall (fun iv => good_index n (fst iv) /\ length (snd iv) = length (index_list (fst iv))) outs ->
  NoDup (concat (map (fun iv => index_list (fst iv)) outs)) ->
  exists r, merge_domain_outputs zero n outs = Ok r /\ length r = n /\
    forall j, j < n -> ~ In j (concat (map (fun iv => index_list (fst iv)) outs)) -> nth_error r j = Some zero.
Proof.
  intros A zero n outs Hne HF HP.
  destruct (merge_domain_outputs_ok zero n outs) as [r [E [E1 [_ E2]]]]; eauto.
Qed.

(** The same for container outputs (X, y, params), when every domain returns labels and the parameter [k]. *)
Theorem C12_container_outputs_land : forall (R : Type) (zero : R) n (outs : list (dindex * @cont_out R)),
  outs <> [] ->
  Forall (fun ic => good_index n (fst ic) /\ length (co_X (snd ic)) = length (index_list (fst ic)) /\
     (exists l, co_y (snd ic) = Some l /\ length l = length (index_list (fst ic))) /\
     NoDup (map fst (co_params (snd ic))) /\
     forall k v, In (k, v) (co_params (snd ic)) -> length v = length (index_list (fst ic))) outs ->
  Permutation (concat (map (fun ic => index_list (fst ic)) outs)) (seq 0 n) ->
  exists r ry, merge_domain_containers zero n outs = Ok r /\ co_y r = Some ry /\
    (forall i c p j x, In (i, c) outs -> nth_error (index_list i) p = Some j -> nth_error (co_X c) p = Some x ->
       nth_error (co_X r) j = Some x) /\
    (forall i c p j l v, In (i, c) outs -> nth_error (index_list i) p = Some j -> co_y c = Some l ->
       nth_error l p = Some v -> nth_error ry j = Some v) /\
    (forall k, (forall i c, In (i, c) outs -> In k (map fst (co_params c))) ->
       exists rk, dict_get String.eqb k (co_params r) = Some rk /\
       forall i c p j l v, In (i, c) outs -> nth_error (index_list i) p = Some j ->
         dict_get String.eqb k (co_params c) = Some l -> nth_error l p = Some v -> nth_error rk j = Some v).
Proof.
  intros R zero n outs Hne HF HP.
  assert (ND : NoDup (concat (map (fun ic : dindex * @cont_out R => index_list (fst ic)) outs))).
  { eapply Permutation_NoDup; [apply Permutation_sym; eauto|apply seq_NoDup]. }
  unfold merge_domain_containers. destruct outs as [|o0 outs0]; [easy|]. cbn [length Nat.eqb].
  remember (o0 :: outs0) as outs eqn:Eo.
  destruct (scatter_containers_ok zero n outs (repeat zero n) None []) as [r [E [EX [_ [Ey Ek]]]]]; auto.
  { apply repeat_length. } { easy. } { easy. }
  destruct (Ey Hne) as [ry [Ey1 Ey2]]. exists r, ry. split; auto. split; auto.
  assert (IX : forall A (f : @cont_out R -> list A), map (fun iv : dindex * list A => index_list (fst iv)) (outs_of f outs)
                = map (fun ic : dindex * @cont_out R => index_list (fst ic)) outs).
  { intros A f. unfold outs_of. rewrite map_map. reflexivity. }
  assert (GEN : forall A (f : @cont_out R -> list A) (z : A) rr,
    (forall i c, In (i, c) outs -> length (f c) = length (index_list i)) ->
    scatter_all (outs_of f outs) (repeat z n) = Ok rr ->
    forall i c p j v, In (i, c) outs -> nth_error (index_list i) p = Some j -> nth_error (f c) p = Some v ->
      nth_error rr j = Some v).
  { intros A f z rr HL Hs. destruct (scatter_all_ok (outs_of f outs) (repeat z n)) as [rr' [E1 [_ [E2 _]]]].
    - rewrite repeat_length. unfold outs_of. apply Forall_forall. intros [i v] Hin.
      apply in_map_iff in Hin as [[i' c] [Heq Hin]]. injection Heq as <- <-. cbn [fst snd].
      rewrite Forall_forall in HF. specialize (HF _ Hin). cbn [fst] in HF. split; [tauto|]. now apply HL.
    - now rewrite IX.
    - intros i c p j v Hin Hj Hv. assert (rr' = rr) by congruence. subst rr'. eapply E2; eauto.
      unfold outs_of. apply in_map_iff. exists (i, c). auto. }
  rewrite Forall_forall in HF. split; [|split].
  - intros i c p j x Hin. eapply (GEN R co_X zero); eauto.
    intros i' c' Hin'. apply (HF _ Hin').
  - intros i c p j l v Hin Hj Hc Hv. eapply (GEN val _ (VNum 0) ry); eauto.
    + intros i' c' Hin'. cbn beta. destruct (HF _ Hin') as [_ [_ [[l' [H1 H2]] _]]]. cbn [fst snd] in *. now rewrite H1.
    + cbn beta. now rewrite Hc.
  - intros k Hk. destruct (Ek k Hk) as [_ Ek1]. destruct (Ek1 Hne) as [rk [K1 K2]]. exists rk. split; auto.
    intros i c p j l v Hin Hj Hc Hv. eapply (GEN val _ (VNum 0) rk); eauto.
    + intros i' c' Hin'. cbn beta. unfold get_or_nil. specialize (Hk _ _ Hin').
      destruct (HF _ Hin') as [_ [_ [_ [_ H]]]]. cbn [fst snd] in *.
      destruct (dict_get String.eqb k (co_params c')) as [w|] eqn:Ew.
      * apply (H k). eapply dict_get_In; eauto. apply string_eqb_spec.
      * apply (dict_get_None String.eqb string_eqb_spec) in Ew. contradiction.
    + cbn beta. unfold get_or_nil. now rewrite Hc.
Qed.

(** When the outputs have different dtypes the result takes the dtype of the first one: later values are cast. *)
Theorem C12_mixed_dtype_refuted : exists n a b r,
  wf_arr a /\ wf_arr b /\ merge_domain_arrays n [(IInt [0], a); (IInt [1], b)] = Ok r /\
  nth_error (a_rows b) 0 = Some [VNum (1#2)] /\ nth_error (a_rows r) 1 <> Some [VNum (1#2)].
Proof.
  exists 2, (arr1 DInt [VNum (inject_Z 3)]), (arr1 DFloat [VNum (1#2)]).
  eexists. split; [|split; [|split; [reflexivity|split; [reflexivity|]]]].
  - intros _. repeat constructor. now exists 3%Z.
  - intros H; discriminate.
  - vm_compute. discriminate.
Qed.

Example C12_ex : merge_domain_outputs 0 5 [(IInt [4;1], [50;20]); (IMask [true;false;true;true;false], [10;30;40])]
  = Ok [10;20;30;40;50].
Proof. reflexivity. Qed.

Example C12_container_ex :
  merge_domain_containers 0 3 [(IInt [2;0], mkCO [30;10] (Some [VNum 3; VNum 1]) [("w", [VNum 7; VNum 5])]);
                               (IInt [1], mkCO [20] (Some [VNum 2]) [("w", [VNum 6])])]
  = Ok (mkCO [10;20;30] (Some [VNum 1; VNum 2; VNum 3]) [("w", [VNum 5; VNum 6; VNum 7])]).
Proof. reflexivity. Qed.

(** ** C13 *)

Theorem C13_shared_no_target_label_leak : forall (R : Type) route tr (c : @container R) y1 y2 ps sd,
  get_sd ps = Some sd -> sd <> [] -> length y1 = length sd -> length y2 = length sd ->
  same_kind discrete_labels continuous_labels y1 y2 ->
  rows_of is_source sd y1 = rows_of is_source sd y2 ->
  shared_fit route tr true c (Some y1) ps = shared_fit route tr true c (Some y2) ps.
Proof.
  intros R route tr c y1 y2 ps sd H1 H2 H3 H4 Hk H5.
  assert (N : y1 <> [] /\ y2 <> []) by (split; intros ->; simpl in *; destruct sd; easy).
  destruct Hk as [[A B]|[A B]].
  - apply (shared_fit_agree route tr c y1 y2 ps sd DISCRETE); auto; apply find_y_type_discrete; tauto.
  - apply (shared_fit_agree route tr c y1 y2 ps sd CONTINUOUS); auto; apply find_y_type_continuous; tauto.
Qed.

Theorem C13_per_domain_no_target_label_leak : forall (R : Type) route tr (c : @container R) y1 y2 ps sd,
  get_sd ps = Some sd -> sd <> [] -> length y1 = length sd -> length y2 = length sd ->
  same_kind discrete_labels continuous_labels y1 y2 ->
  rows_of is_source sd y1 = rows_of is_source sd y2 ->
  per_domain_fit route tr true c (Some y1) ps = per_domain_fit route tr true c (Some y2) ps.
Proof.
  intros R route tr c y1 y2 ps sd H1 H2 H3 H4 Hk H5.
  assert (N : y1 <> [] /\ y2 <> []) by (split; intros ->; simpl in *; destruct sd; easy).
  destruct Hk as [[A B]|[A B]].
  - apply (per_domain_fit_agree route tr c y1 y2 ps sd DISCRETE); auto; apply find_y_type_discrete; tauto.
  - apply (per_domain_fit_agree route tr c y1 y2 ps sd CONTINUOUS); auto; apply find_y_type_continuous; tauto.
Qed.

(** The call that is made: target labels replaced by the mask, everything else as given. *)
Theorem C13_masked_call : forall (R : Type) route (X : list R) y ps sd rp mask,
  get_sd ps = Some sd -> sd <> [] -> length y = length sd ->
  (discrete_labels y /\ mask = VNum (inject_Z (-1))) \/ (continuous_labels y /\ mask = VNan) ->
  route ps = Ok rp ->
  exists ya, shared_fit route true true (from_array X) (Some y) ps = Ok (ya, mkCall X (Some (mask_targets mask sd y)) rp).
Proof.
  intros R route X y ps sd rp mask H1 H2 H3 Hk Hr.
  assert (N : y <> []) by (intros ->; simpl in *; destruct sd; easy).
  assert (E : exists ty, find_y_type1 y = Ok ty /\ mask = mask_of ty).
  { destruct Hk as [[A ->]|[A ->]]; [exists DISCRETE|exists CONTINUOUS]; split; auto;
    [now apply find_y_type_discrete|now apply find_y_type_continuous]. }
  destruct E as [ty [Ety ->]]. unfold shared_fit. rewrite (auto_mask_ok y ps sd ty) by auto. cbn [bind].
  cbn [bind merge_out from_array c_X c_labels c_meta]. change (dict_update String.eqb ps []) with ps.
  rewrite Hr. cbn [bind sel_remove_masked negb andb]. eexists. reflexivity.
Qed.

Definition dom_params (sd : list Z) : params := [("sample_domain", PDom sd)].

Example C13_ex :
  let y1 := [VNum 0; VNum (inject_Z 7); VNum 1] in let y2 := [VNum 0; VNum (inject_Z 3); VNum 1] in
  same_kind discrete_labels continuous_labels y1 y2 /\
  shared_fit (fun p => Ok p) true true (from_array [10;20;30]) (Some y1) (dom_params [1;-2;1]%Z)
  = Ok (Some [VNum 0; VNum (inject_Z (-1)); VNum 1],
        mkCall [10;20;30] (Some [VNum 0; VNum (inject_Z (-1)); VNum 1]) (dom_params [1;-2;1]%Z)).
Proof.
  split; [left; split; repeat constructor|reflexivity];
  (eexists; exists 0%Z; split; reflexivity) || (eexists; exists 7%Z; split; reflexivity)
  || (eexists; exists 3%Z; split; reflexivity) || (eexists; exists 1%Z; split; reflexivity).
Qed.

(** The "same kind" premise is needed: the kind itself is derived from all labels, target included. *)
Theorem C13_label_kind_premise_needed : exists (X : list nat) y1 y2 sd,
  rows_of is_source sd y1 = rows_of is_source sd y2 /\
  shared_fit (fun p => Ok p) true true (from_array X) (Some y1) (dom_params sd) <>
  shared_fit (fun p => Ok p) true true (from_array X) (Some y2) (dom_params sd).
Proof. exists [1;2], [VNum 0; VNum 1], [VNum 0; VNum (1#2)], [1;-2]%Z. split; [reflexivity|]. vm_compute. discriminate. Qed.

(** ** C14 *)

(** With masking on, a discrete label array, and a target sample, the caller's array is overwritten with -1. *)
Theorem C14_fit_overwrites_caller_labels_refuted : exists (X : list nat) y sd ya k,
  shared_fit (fun p => Ok p) false true (from_array X) (Some y) (dom_params sd) = Ok (Some ya, k) /\ ya <> y.
Proof.
  exists [1;2], [VNum 0; VNum 1], [1;-2]%Z. do 2 eexists. split; [reflexivity|]. vm_compute. discriminate.
Qed.

(** Exactly what the caller's array holds afterwards. *)
Theorem C14_caller_labels_after_fit_partial : forall (R : Type) route tr (c : @container R) y ps sd mask ya k,
  get_sd ps = Some sd -> sd <> [] -> length y = length sd ->
  (discrete_labels y /\ mask = VNum (inject_Z (-1))) \/ (continuous_labels y /\ mask = VNan) ->
  shared_fit route tr true c (Some y) ps = Ok (ya, k) -> ya = Some (mask_targets mask sd y).
Proof.
  intros R route tr c y ps sd mask ya k H1 H2 H3 Hk H.
  assert (N : y <> []) by (intros ->; simpl in *; destruct sd; easy).
  apply shared_fit_caller_y in H as [H _]. specialize (H eq_refl).
  destruct Hk as [[A ->]|[A ->]].
  - rewrite (auto_mask_ok y ps sd DISCRETE) in H; auto; [now injection H as <-|now apply find_y_type_discrete].
  - rewrite (auto_mask_ok y ps sd CONTINUOUS) in H; auto; [now injection H as <-|now apply find_y_type_continuous].
Qed.

(** The array is unchanged when masking is off, when no sample_domain is given, or when all samples are source. *)
Theorem C14_caller_labels_unchanged_partial : forall (R : Type) route tr (c : @container R) (mask : bool) y ps ya k,
  mask = false \/ get_sd ps = None \/
    (exists sd, get_sd ps = Some sd /\ sd <> [] /\ length y = length sd /\ (forall d, In d sd -> (0 <= d)%Z) /\
       (discrete_labels y \/ continuous_labels y)) ->
  shared_fit route tr mask c (Some y) ps = Ok (ya, k) -> ya = Some y.
Proof.
  intros R route tr c mask y ps ya k Hc H. apply shared_fit_caller_y in H as [H1 H2].
  destruct mask; [|now apply H2]. specialize (H1 eq_refl). clear H2.
  destruct Hc as [Hc|[Hc|[sd [Hs [Hne [HL [Hsrc Hk]]]]]]]; [easy| |].
  - unfold auto_mask in H1. rewrite Hc in H1. now injection H1 as <-.
  - assert (N : y <> []) by (intros ->; simpl in *; destruct sd; easy).
    assert (E : exists ty, find_y_type1 y = Ok ty).
    { destruct Hk; eexists; [now apply find_y_type_discrete|now apply find_y_type_continuous]. }
    destruct E as [ty E]. rewrite (auto_mask_ok y ps sd ty) in H1 by auto. injection H1 as <-. f_equal.
    apply mask_targets_all_source; auto. intros d Hd. apply Z.leb_le. auto.
Qed.

Example C14_ex : exists k,
  shared_fit (fun p => Ok p) false true (from_array [1;2]) (Some [VNum 0; VNum 1]) (dom_params [1;2]%Z)
  = Ok (Some [VNum 0; VNum 1], k).
Proof. eexists. reflexivity. Qed.

(** ** C15 *)

(** Fitting: one call per distinct label, in increasing order, on exactly that domain's rows, labels, parameters. *)
Theorem C15_per_domain_fit_calls : forall (R : Type) route tr (X : list R) y ps sd rp,
  get_sd ps = Some sd -> route ps = Ok rp ->
  (tr = true \/ y = None \/ gets_domains rp) ->
  length X = length sd -> (forall l, y = Some l -> length l = length sd) ->
  (forall k v, In (k, v) rp -> per_sample (length sd) v) ->
  per_domain_fit route tr false (from_array X) y ps =
  Ok (y, map (fun d => (d, (positions (Z.eqb d) sd,
            mkCall (rows_of (Z.eqb d) sd X) (option_map (rows_of (Z.eqb d) sd) y) (params_rows d sd rp)))) (unique sd))
  /\ NoDup (unique sd) /\ (forall d, In d (unique sd) <-> In d sd).
Proof.
  intros R route tr X y ps sd rp H1 H2 H3 H4 H5 H6. domain_keys. split; [|split].
  - apply (per_domain_fit_ok route tr (from_array X) false y y ps sd rp X y ps); auto.
  - apply unique_NoDup.
  - intros d. apply unique_In.
Qed.

(** Predicting: the rows of domain d of the result are the output of d's estimator on d's rows. *)
Theorem C15_per_domain_routes_rows : forall (R Est A : Type) route (zero : A) (meth : Est -> list R -> params -> res (list A))
    (ests : dict Z Est) X ps rp sd (out : Z -> list A),
  route ps = Ok rp -> get_sd ps = Some sd -> sd <> [] -> length X = length sd ->
  (forall k v, In (k, v) rp -> per_sample (length sd) v) ->
  (forall d, In d sd -> exists est, dict_get Z.eqb d ests = Some est /\
      meth est (rows_of (Z.eqb d) sd X) (params_rows d sd rp) = Ok (out d) /\
      length (out d) = how_many (Z.eqb d) sd) ->
  exists r, per_domain_route route zero meth ests X ps = Ok r /\ length r = length X /\
    forall d, In d sd -> rows_of (Z.eqb d) sd r = out d.
Proof. intros R Est A route zero meth. exact (per_domain_route_ok route zero meth). Qed.

Theorem C15_unseen_label_rejected : forall (R Est A : Type) route (zero : A) (meth : Est -> list R -> params -> res (list A))
    (ests : dict Z Est) X ps rp sd d,
  route ps = Ok rp -> get_sd ps = Some sd -> length X = length sd ->
  (forall k v, In (k, v) rp -> per_sample (length sd) v) ->
  (forall est X' p', exists o, meth est X' p' = Ok o) ->
  In d sd -> dict_get Z.eqb d ests = None ->
  per_domain_route route zero meth ests X ps = Err ValueError.
Proof. intros R Est A route zero meth. exact (per_domain_route_unknown route zero meth). Qed.

Example C15_fit_ex :
  per_domain_fit (fun _ => Ok []) true false (from_array [10;20;30]) (Some [VNum 1; VNum 0; VNum 1]) (dom_params [3;-2;3]%Z)
  = Ok (Some [VNum 1; VNum 0; VNum 1],
        [((-2)%Z, ([1], mkCall [20] (Some [VNum 0]) [])); (3%Z, ([0;2], mkCall [10;30] (Some [VNum 1; VNum 1]) []))]).
Proof. reflexivity. Qed.

Example C15_route_ex :
  let meth (k : nat) (X : list nat) (_ : params) := Ok (map (fun x => k + x) X) in
  per_domain_route (fun _ => Ok []) 0 meth [((-2)%Z, 100); (3%Z, 1000)] [10;20;30] (dom_params [3;-2;3]%Z) = Ok [1010;120;1030] /\
  per_domain_route (fun _ => Ok []) 0 meth [((-2)%Z, 100); (3%Z, 1000)] [10;20;30] (dom_params [3;-2;4]%Z) = Err ValueError.
Proof. split; reflexivity. Qed.

(** ** C16 *)

(** The claim fails on every input: with masked labels and a plain predictor, PerDomain.fit raises IndexError
    whenever at least one target sample is present. *)
Theorem C16_per_domain_masked_fit_always_fails_refuted : forall (R : Type) route (X : list R) y ps sd rp,
  get_sd ps = Some sd -> length X = length sd -> length y = length sd ->
  discrete_labels y \/ continuous_labels y ->
  (exists d, In d sd /\ (d < 0)%Z) ->
  route ps = Ok rp -> ~ gets_domains rp ->
  (forall k v, In (k, v) rp -> per_sample (length sd) v) ->
  per_domain_fit route false true (from_array X) (Some y) ps = Err IndexError.
Proof.
  intros R route X y ps sd rp H1 H2 H3 Hk [d [Hd Hneg]] H4 H5 H6. domain_keys.
  assert (Hex : exists d, In d sd /\ is_source d = false).
  { exists d. split; auto. unfold is_source. destruct (Z.leb_spec 0 d); [lia|auto]. }
  assert (Hne : sd <> []) by (intros ->; easy).
  destruct Hk as [Hk|Hk].
  - eapply (per_domain_fit_shrunk route X y ps sd rp DISCRETE); eauto.
  - eapply (per_domain_fit_shrunk route X y ps sd rp CONTINUOUS); eauto.
Qed.

Example C16_witness :
  per_domain_fit (fun _ => Ok []) false true (from_array [10;20;30]) (Some [VNum 1; VNum 0; VNum 0]) (dom_params [1;-2;1]%Z)
  = Err IndexError.
Proof. reflexivity. Qed.

(** ** C17 *)

(** A transformer (or an estimator requesting sample_domain, or a call without labels) receives exactly the rows of
    its side. *)
Theorem C17_select_side_rows : forall (R : Type) route tr side (mask : bool) (X : list R) y ps sd rp,
  NoDup (map fst ps) -> get_sd ps = Some sd -> length X = length sd ->
  (forall l, y = Some l -> length l = length sd) -> no_pylist (length sd) ps ->
  (exists d, In d sd /\ side_of side d = true) ->
  (mask = true -> side = true) ->
  (forall l, y = Some l -> mask = true -> discrete_labels (rows_of is_source sd l) \/ continuous_labels (rows_of is_source sd l)) ->
  route (params_filter (side_of side) sd ps) = Ok rp ->
  (tr = true \/ y = None \/ gets_domains rp) ->
  exists c2, select_domain_fit route tr side mask (from_array X) y ps =
    Ok (c2, mkCall (rows_of (side_of side) sd X) (option_map (rows_of (side_of side) sd) y) rp).
Proof.
  intros R route tr side mask X y ps sd rp H1 H2 H3 H4 H5 H6 H7 H8 H9 H10. domain_keys.
  eapply select_domain_fit_ok; eauto. unfold sel_remove_masked. destruct y as [l|]; auto. cbn [option_map].
  destruct H10 as [->|[H|H]]; auto; [easy|]. now rewrite H, andb_false_r.
Qed.

(** A plain estimator receives the rows of its side whose label is not masked. *)
Theorem C17_select_side_plain : forall (R : Type) route side (mask : bool) (X : list R) y ps sd rp,
  NoDup (map fst ps) -> get_sd ps = Some sd -> length X = length sd -> length y = length sd -> no_pylist (length sd) ps ->
  (exists d, In d sd /\ side_of side d = true) -> (mask = true -> side = true) ->
  let y' := rows_of (side_of side) sd y in
  discrete_labels y' \/ continuous_labels y' ->
  route (params_filter (side_of side) sd ps) = Ok rp -> ~ gets_domains rp -> no_pylist (length y') rp ->
  exists c2 keep, (discrete_labels y' /\ keep = keep_discrete \/ continuous_labels y' /\ keep = keep_continuous) /\
    select_domain_fit route false side mask (from_array X) (Some y) ps =
    Ok (c2, mkCall (filter_by keep y' (rows_of (side_of side) sd X)) (Some (filter keep y')) (params_filter keep y' rp)).
Proof.
  intros R route side mask X y ps sd rp H1 H2 H3 H4 H5 H6 H7 y' Hk H8 H9 H10. domain_keys.
  assert (Hne : y' <> []).
  { destruct H6 as [d [Hd Hs]]. intros C. assert (L : length y' = how_many (side_of side) sd) by (apply rows_of_length; auto).
    rewrite C in L. simpl in L. symmetry in L. rewrite how_many_0 in L. rewrite (L d Hd) in Hs. discriminate. }
  assert (HL : length (rows_of (side_of side) sd X) = length y') by (subst y'; rewrite !rows_of_length; auto).
  assert (S : forall keep, remove_masked (rows_of (side_of side) sd X) y' rp
       = Ok (filter_by keep y' (rows_of (side_of side) sd X), Some (filter keep y'), params_filter keep y' rp) ->
     exists c2, select_domain_fit route false side mask (from_array X) (Some y) ps =
       Ok (c2, mkCall (filter_by keep y' (rows_of (side_of side) sd X)) (Some (filter keep y')) (params_filter keep y' rp))).
  { intros keep E. eapply (select_domain_fit_ok route false); eauto.
    - intros l El. now injection El as <-.
    - intros l El Hm. injection El as <-. subst y'. rewrite (H7 Hm) in Hk. exact Hk.
    - unfold sel_remove_masked. cbn [option_map negb andb]. rewrite H9. exact E. }
  destruct Hk as [Hk|Hk].
  - destruct (S keep_discrete) as [c2 E]; [now apply remove_masked_discrete|]. exists c2, keep_discrete. auto.
  - destruct (S keep_continuous) as [c2 E]; [now apply remove_masked_continuous|]. exists c2, keep_continuous. auto.
Qed.

Theorem C17_select_target_refuses_masking : select_target_ctor true = Err ValueError /\ select_target_ctor false = Ok false.
Proof. split; reflexivity. Qed.

Example C17_ex : exists c2,
  select_domain_fit (fun p => Ok p) true false false (from_array [10;20;30;40]) (Some [VNum 1; VNum 0; VNum 1; VNum 0])
    (dom_params [1;-2;3;-4]%Z)
  = Ok (c2, mkCall [20;40] (Some [VNum 0; VNum 0]) (dom_params [-2;-4]%Z)).
Proof. eexists. reflexivity. Qed.

Example C17_plain_ex : exists c2,
  select_domain_fit (fun p => Ok []) false true true (from_array [10;20;30;40])
    (Some [VNum 1; VNum 0; VNum (inject_Z (-1)); VNum 0]) (dom_params [1;-2;3;4]%Z)
  = Ok (c2, mkCall [10;40] (Some [VNum 1; VNum 0]) []).
Proof. eexists. reflexivity. Qed.

(** ** C18 *)

Theorem C18_fit_each_side : forall (R : Type) route_s route_t tr (X : list R) y ps sd rps rpt,
  get_sd ps = Some sd -> length X = length sd -> (forall l, y = Some l -> length l = length sd) ->
  no_pylist (length sd) ps -> 0 < how_many is_source sd -> 0 < how_many is_target sd ->
  route_s (params_filter is_source sd ps) = Ok rps -> route_t (params_filter is_target sd ps) = Ok rpt ->
  (tr = true \/ y = None \/ (gets_domains rps /\ gets_domains rpt)) ->
  sst_fit route_s route_t tr (from_array X) y ps =
  Ok (mkCall (rows_of is_source sd X) (option_map (rows_of is_source sd) y) rps,
      mkCall (rows_of is_target sd X) (option_map (rows_of is_target sd) y) rpt).
Proof.
  intros R route_s route_t tr X y ps sd rps rpt H1 H2 H3 H4 H5 H6 H7 H8 H9. domain_keys.
  assert (S : forall (X' : list R) y' rp, (y = None -> y' = None) -> (tr = true \/ y = None \/ has_key "sample_domain" rp = true) ->
     sel_remove_masked tr X' y' rp = Ok (X', y', rp)).
  { intros X' y' rp Hn Hc. unfold sel_remove_masked. destruct y' as [l|]; auto.
    destruct Hc as [->|[Hc|Hc]]; auto; [now specialize (Hn Hc)|]. now rewrite Hc, andb_false_r. }
  rewrite (sst_fit_ok route_s route_t tr X y ps sd rps rpt
    (rows_of is_source sd X, option_map (rows_of is_source sd) y, rps)
    (rows_of is_target sd X, option_map (rows_of is_target sd) y, rpt)); auto; apply S; try (intros ->; reflexivity); tauto.
Qed.

(** Plain estimators: each side's unmasked rows. *)
Theorem C18_fit_each_side_plain : forall (R : Type) route_s route_t (X : list R) y ps sd rps rpt,
  get_sd ps = Some sd -> length X = length sd -> length y = length sd ->
  no_pylist (length sd) ps -> 0 < how_many is_source sd -> 0 < how_many is_target sd ->
  let ys := rows_of is_source sd y in let yt := rows_of is_target sd y in
  discrete_labels ys -> discrete_labels yt ->
  route_s (params_filter is_source sd ps) = Ok rps -> route_t (params_filter is_target sd ps) = Ok rpt ->
  ~ gets_domains rps -> ~ gets_domains rpt ->
  no_pylist (length ys) rps -> no_pylist (length yt) rpt ->
  sst_fit route_s route_t false (from_array X) (Some y) ps =
  Ok (mkCall (filter_by keep_discrete ys (rows_of is_source sd X)) (Some (filter keep_discrete ys)) (params_filter keep_discrete ys rps),
      mkCall (filter_by keep_discrete yt (rows_of is_target sd X)) (Some (filter keep_discrete yt)) (params_filter keep_discrete yt rpt)).
Proof.
  intros R route_s route_t X y ps sd rps rpt H1 H2 H3 H4 H5 H6 ys yt D1 D2 H7 H8 K1 K2 P1 P2. domain_keys.
  assert (L : forall p, length (rows_of p sd y) = how_many p sd) by (intros p; apply rows_of_length; auto).
  rewrite (sst_fit_ok route_s route_t false X (Some y) ps sd rps rpt
    (filter_by keep_discrete ys (rows_of is_source sd X), Some (filter keep_discrete ys), params_filter keep_discrete ys rps)
    (filter_by keep_discrete yt (rows_of is_target sd X), Some (filter keep_discrete yt), params_filter keep_discrete yt rpt)); auto.
  - intros l E. now injection E as <-.
  - unfold sel_remove_masked. rewrite K1. cbn [option_map negb andb]. apply remove_masked_discrete; auto.
    + intros C. specialize (L is_source). fold ys in L. rewrite C in L. simpl in L. lia.
    + subst ys. rewrite !rows_of_length; auto.
  - unfold sel_remove_masked. rewrite K2. cbn [option_map negb andb]. apply remove_masked_discrete; auto.
    + intros C. specialize (L is_target). fold yt in L. rewrite C in L. simpl in L. lia.
    + subst yt. rewrite !rows_of_length; auto.
Qed.

Theorem C18_fit_needs_both_sides : forall (R : Type) route_s route_t tr (X : list R) y ps sd rps,
  get_sd ps = Some sd -> sd <> [] -> length X = length sd -> (forall l, y = Some l -> length l = length sd) ->
  no_pylist (length sd) ps ->
  route_s (params_filter is_source sd ps) = Ok rps -> (tr = true \/ y = None \/ gets_domains rps) ->
  (forall d, In d sd -> (d < 0)%Z) \/ (forall d, In d sd -> (0 <= d)%Z) ->
  sst_fit route_s route_t tr (from_array X) y ps = Err ValueError.
Proof.
  intros R route_s route_t tr X y ps sd rps H1 H2 H3 H4 H5 Hr Hc H. domain_keys.
  apply (sst_fit_one_sided route_s route_t tr X y ps sd); auto. destruct H as [H|H].
  - left. apply how_many_0. intros d Hd. specialize (H d Hd). unfold is_source. destruct (Z.leb_spec 0 d); [lia|auto].
  - right. split.
    + apply how_many_0. intros d Hd. specialize (H d Hd). unfold is_target. destruct (Z.ltb_spec d 0); [lia|auto].
    + eexists. eapply sst_side_ok; eauto.
      * rewrite how_many_all; [destruct sd; simpl; [easy|lia]|]. intros d Hd. now apply Z.leb_le, H.
      * unfold sel_remove_masked. destruct y as [l|]; [|reflexivity]. cbn [option_map].
        destruct Hc as [->|[Hc|Hc]]; [reflexivity|easy|]. rewrite Hc, andb_false_r. reflexivity.
Qed.

Theorem C18_predict_each_side : forall (R A : Type) route_s route_t (zero : A) (meth_s meth_t : list R -> params -> res (list A))
    (X : list R) ps sd (outs outt : list A),
  get_sd ps = Some sd -> sd <> [] -> length X = length sd -> no_pylist (length sd) ps ->
  (0 < how_many is_source sd -> exists rp, route_s (params_filter is_source sd ps) = Ok rp /\
      meth_s (rows_of is_source sd X) rp = Ok outs) ->
  (0 < how_many is_target sd -> exists rp, route_t (params_filter is_target sd ps) = Ok rp /\
      meth_t (rows_of is_target sd X) rp = Ok outt) ->
  length outs = how_many is_source sd -> length outt = how_many is_target sd ->
  exists r, sst_route route_s route_t zero meth_s meth_t X ps = Ok r /\ length r = length X /\
    rows_of is_source sd r = outs /\ rows_of is_target sd r = outt.
Proof. intros R A route_s route_t. apply sst_route_ok. Qed.

Example C18_fit_ex :
  sst_fit (fun _ => Ok []) (fun _ => Ok []) true (from_array [10;20;30]) None (dom_params [-1;4;-2]%Z)
  = Ok (mkCall [20] None [], mkCall [10;30] None []) /\
  sst_fit (fun _ => Ok []) (fun _ => Ok []) true (from_array [10;20;30]) None (dom_params [1;4;2]%Z) = Err ValueError.
Proof. split; reflexivity. Qed.

Example C18_predict_ex :
  let ms (X : list nat) (_ : params) := Ok (map (fun x => x + 1) X) in
  let mt (X : list nat) (_ : params) := Ok (map (fun x => x + 2) X) in
  sst_route (fun _ => Ok []) (fun _ => Ok []) 0 ms mt [10;20;30] (dom_params [-1;4;-2]%Z) = Ok [12;21;32] /\
  sst_route (fun _ => Ok []) (fun _ => Ok []) 0 ms mt [10;20;30] (dom_params [-1;-4;-2]%Z) = Ok [12;22;32].
Proof. split; reflexivity. Qed.

(** ** C19 *)

(** After any sequence of step outputs: features are those of the last step; a parameter has the value given by the
    last step that produced it, else the caller's; labels are those of the last step that returned labels, else the
    caller's. *)
Theorem C19_metadata_override : forall (R : Type) (X0 : list R) (outs : list (@step_out R)) y ps,
  (forall o, In o outs -> NoDup (map fst (out_params o))) ->
  let '(X, y', ps') := merge_out (fold_left merge_in outs (from_array X0)) y ps in
  X = last (map out_X outs) X0 /\
  y' = match last_labels outs None with Some l => Some l | None => y end /\
  forall k, p_get k ps' = match last_param k outs with Some v => Some v | None => p_get k ps end.
Proof.
  intros R X0 outs y ps Hnd. unfold merge_out. split; [|split].
  - assert (G : forall c, c_X (fold_left merge_in outs c) = last (map out_X outs) (c_X c)).
    { clear. induction outs as [|o outs IH]; intros c; auto. cbn [fold_left map].
      rewrite IH. destruct outs as [|o' outs']; [destruct o; reflexivity|].
      change (last (out_X o :: map out_X (o' :: outs')) (c_X c)) with (last (map out_X (o' :: outs')) (c_X c)).
      apply last_default. easy. }
    apply (G (from_array X0)).
  - assert (G : forall c, c_labels (fold_left merge_in outs c) = last_labels outs (c_labels c)).
    { clear. induction outs as [|o outs IH]; intros c; auto. cbn [fold_left]. rewrite IH. destruct o; reflexivity. }
    now rewrite (G (from_array X0)).
  - intros k. unfold p_get. rewrite dict_get_update_NoDup.
    + rewrite fold_meta by auto. cbn [from_array c_meta dict_get]. now destruct (last_param k outs).
    + apply fold_meta_NoDup. constructor.
Qed.

Example C19_ex :
  merge_out (fold_left merge_in [OTriple [1;2] (Some [VNum 5]) [("a", POther 1); ("b", POther 2)]; OPair [3;4] [("a", POther 9)]; OArr [6;7]]
               (from_array [0;0])) (Some [VNum 8]) [("a", POther 0); ("c", POther 4)]
  = ([6;7], Some [VNum 5], [("a", POther 9); ("c", POther 4); ("b", POther 2)]).
Proof. reflexivity. Qed.

(** ** C73 *)

(** A whole pipeline of Shared steps whose first step masks: two label vectors of the same kind that agree on the
    source samples lead to the same calls on every wrapped estimator, whatever these return. *)
Theorem C73_chain_no_target_label_leak_partial : forall (R : Type) (s : shared_step R) steps (c : @container R) y1 y2 ps sd,
  s_mask s = true ->
  get_sd ps = Some sd -> sd <> [] -> length y1 = length sd -> length y2 = length sd ->
  same_kind discrete_labels continuous_labels y1 y2 ->
  rows_of is_source sd y1 = rows_of is_source sd y2 ->
  shared_chain (s :: steps) c (Some y1) ps = shared_chain (s :: steps) c (Some y2) ps.
Proof.
  intros R s steps c y1 y2 ps sd Hm H1 H2 H3 H4 H5 H6. cbn [shared_chain]. rewrite Hm.
  now rewrite (C13_shared_no_target_label_leak R (s_route s) (s_transformer s) c y1 y2 ps sd H1 H2 H3 H4 H5 H6).
Qed.

(** After a SelectTarget transformer step the masked Shared step that follows is fitted on the true target labels:
    the container's labels take precedence over the masked ones. *)
Theorem C73_select_target_then_masked_refuted : exists (X : list nat) y1 y2 sd c1 c2 k1 k2 r1 r2,
  same_kind discrete_labels continuous_labels y1 y2 /\ rows_of is_source sd y1 = rows_of is_source sd y2 /\
  select_domain_fit (fun _ => Ok []) true false false (from_array X) (Some y1) (dom_params sd) = Ok (c1, k1) /\
  select_domain_fit (fun _ => Ok []) true false false (from_array X) (Some y2) (dom_params sd) = Ok (c2, k2) /\
  shared_fit (fun _ => Ok []) false true (merge_in c1 (OArr (k_X k1))) (Some y1) (dom_params sd) = Ok r1 /\
  shared_fit (fun _ => Ok []) false true (merge_in c2 (OArr (k_X k2))) (Some y2) (dom_params sd) = Ok r2 /\
  k_y (snd r1) = Some (rows_of is_target sd y1) /\ k_y (snd r2) = Some (rows_of is_target sd y2) /\ snd r1 <> snd r2.
Proof.
  exists [10;20;30], [VNum 0; VNum 1; VNum 0], [VNum 0; VNum 0; VNum 1], [1;-2;-2]%Z.
  do 6 eexists. split; [left; split; repeat constructor;
    (eexists; exists 0%Z; split; reflexivity) || (eexists; exists 1%Z; split; reflexivity)|].
  split; [reflexivity|]. split; [reflexivity|]. split; [reflexivity|]. split; [reflexivity|]. split; [reflexivity|].
  split; [reflexivity|]. split; [reflexivity|]. vm_compute. discriminate.
Qed.

Example C73_chain_ex :
  let st m := mkStep (fun _ => Ok []) m true (fun k => Ok (OArr (map (fun x => x * 2) (k_X k)))) in
  shared_chain [st true; st false] (from_array [1;2;3]) (Some [VNum 0; VNum 5; VNum 1]) (dom_params [1;-2;1]%Z)
  = Ok [mkCall [1;2;3] (Some [VNum 0; VNum (inject_Z (-1)); VNum 1]) []; mkCall [2;6] (Some [VNum 0; VNum 1]) []].
Proof. reflexivity. Qed.
