(** Proofs about selectors, continued: shrunk data in PerDomain, SelectSource/SelectTarget, SelectSourceTarget,
    container scatter, container history. *)
From Coq Require Import String List ZArith QArith Bool Arith Lia Sorting.Permutation Sorting.Sorted.
From Verif Require Import Np NpFacts Labels Spec SpecFacts UtilsModel UtilsSpec UtilsProofs UtilsProofs2 SelectModel SelectSpec SelectProofs.
Import ListNotations.
Local Open Scope nat_scope.
Local Open Scope list_scope.

Lemma NoDup_app_disjoint {A} (a b : list A) :
  NoDup a -> NoDup b -> (forall x, In x a -> ~ In x b) -> NoDup (a ++ b).
Proof.
  intros Ha Hb Hab. induction Ha as [|x a Hx Ha IHa]; simpl; auto. constructor.
  - rewrite in_app_iff. intros [C|C]; [contradiction|]. apply (Hab x); simpl; auto.
  - apply IHa. intros y Hy. apply Hab. now right.
Qed.

(** ** PerDomain after row removal *)

Lemma filter_by_short {A B} (p : B -> bool) bs (xs : list A) b : length bs = length xs ->
  In b bs -> p b = false -> length (filter_by p bs xs) < length xs.
Proof.
  intros HL Hin Hp. rewrite filter_by_length by auto. rewrite <- HL. clear HL xs.
  unfold how_many. induction bs as [|a bs IH]; [inversion Hin|]. simpl.
  pose proof (how_many_le p bs) as L. unfold how_many in L.
  destruct Hin as [->|Hin].
  - rewrite Hp. simpl. lia.
  - specialize (IH Hin). destruct (p a); simpl; lia.
Qed.

Lemma mask_targets_In mask sd y d : length y = length sd -> In d sd -> is_source d = false ->
  In mask (mask_targets mask sd y).
Proof.
  unfold mask_targets. revert y. induction sd as [|a sd IH]; intros [|v y] HL Hin Hs; simpl in *; try easy.
  destruct Hin as [->|Hin]; [left; now rewrite Hs|]. right. apply IH; auto.
Qed.

Lemma mask_targets_discrete sd y : discrete_labels y -> discrete_labels (mask_targets (VNum (inject_Z (-1))) sd y).
Proof.
  unfold discrete_labels, mask_targets. revert y. induction sd as [|a sd IH]; intros [|v y] H; simpl; try constructor.
  - inversion H; subst. simpl. destruct (is_source a); auto. exists (inject_Z (-1)), (-1)%Z. split; reflexivity.
  - inversion H; subst. auto.
Qed.

Lemma map_params_length f ps ps' : map_params f ps = Ok ps' -> length ps' = length ps.
Proof. apply mapM_ok_length. Qed.

Lemma params_filter_per_sample {B} (p : B -> bool) bs ps :
  (forall k v, In (k, v) ps -> per_sample (length bs) v) ->
  forall k v, In (k, v) (params_filter p bs ps) -> per_sample (how_many p bs) v.
Proof.
  intros H k v Hin. unfold params_filter in Hin. apply in_map_iff in Hin as [[k' v'] [E Hin]].
  cbn [fst snd] in E. injection E as <- <-. specialize (H _ _ Hin).
  destruct v'; simpl in *; try easy; rewrite H, Nat.eqb_refl; simpl; apply filter_by_length; auto.
Qed.

Lemma per_sample_no_pylist n (ps : params) : (forall k v, In (k, v) ps -> per_sample n v) -> no_pylist n ps.
Proof. intros H k l Hin _. apply (H k (PPyList l)) in Hin. easy. Qed.

Section Shrunk.
  Context {R : Type} (route : params -> res params).

  Lemma per_domain_fit_shrunk (X : list R) y ps sd rp ty :
    get_sd ps = Some sd -> sd <> [] -> length X = length sd -> length y = length sd ->
    (ty = DISCRETE /\ discrete_labels y \/ ty = CONTINUOUS /\ continuous_labels y) ->
    (exists d, In d sd /\ is_source d = false) ->
    route ps = Ok rp -> has_key "sample_domain"%string rp = false ->
    (forall k v, In (k, v) rp -> per_sample (length sd) v) ->
    per_domain_fit route false true (from_array X) (Some y) ps = Err IndexError.
  Proof.
    intros H1 Hne HX Hy Hty [d [Hd Hs]] Hr Hk Hp. unfold per_domain_fit.
    assert (Hyne : y <> []) by (destruct y, sd; simpl in *; congruence).
    assert (Ty : find_y_type1 y = Ok ty).
    { destruct Hty as [[-> H]|[-> H]]; [apply find_y_type_discrete | apply find_y_type_continuous]; auto. }
    rewrite (auto_mask_ok y ps sd ty) by auto. cbn [bind].
    cbn [merge_out from_array c_X c_labels c_meta]. change (dict_update String.eqb ps []) with ps.
    rewrite H1. cbn [bind]. rewrite Hr. cbn [bind].
    set (ym := mask_targets (mask_of ty) sd y).
    assert (Hm : In (mask_of ty) ym) by (eapply mask_targets_In; eauto).
    assert (HLm : length ym = length sd) by now apply mask_targets_length.
    unfold sel_remove_masked. rewrite Hk. cbn [negb andb].
    assert (E : exists keep : val -> bool, keep (mask_of ty) = false /\
       remove_masked X ym rp = Ok (filter_by keep ym X, Some (filter keep ym), params_filter keep ym rp)).
    { destruct Hty as [[-> H]|[-> H]].
      - exists keep_discrete. split; [reflexivity|]. apply remove_masked_discrete; try congruence.
        + intros C. rewrite C in Hm. easy.
        + now apply mask_targets_discrete.
        + rewrite HLm. now apply per_sample_no_pylist.
      - exists keep_continuous. split; [reflexivity|]. apply remove_masked_continuous; try congruence.
        + left. exact Hm.
        + rewrite HLm. now apply per_sample_no_pylist. }
    destruct E as [keep [Hkm E]]. rewrite E. cbn [bind].
    assert (E2 : mapM (domain_call (filter_by keep ym X) (Some (filter keep ym)) (params_filter keep ym rp) sd) (unique sd)
                 = Err IndexError).
    { apply mapM_err_exists.
      - apply domain_call_shrunk; auto. rewrite <- HX. eapply filter_by_short; eauto. congruence.
      - intros x e _ He. eapply domain_call_only_IndexError; [|exact He].
        apply params_filter_per_sample. rewrite HLm. exact Hp. }
    now rewrite E2.
  Qed.
End Shrunk.

(** ** Dictionaries *)

Lemma string_eqb_spec a b : String.eqb a b = true <-> a = b.
Proof. apply String.eqb_eq. Qed.

Lemma dict_set_same {V} k (v : V) d : dict_get String.eqb k d = Some v -> dict_set String.eqb k v d = d.
Proof.
  induction d as [|[k0 v0] d IH]; simpl; [easy|].
  destruct (String.eqb k k0) eqn:E; intros H; [congruence|]. now rewrite IH.
Qed.

Lemma dict_update_self {V} (d e : dict string V) :
  (forall k v, In (k, v) e -> dict_get String.eqb k d = Some v) -> dict_update String.eqb d e = d.
Proof.
  unfold dict_update. induction e as [|[k v] e IH]; simpl; auto. intros H.
  rewrite dict_set_same by (apply H; now left). apply IH. intros k' v' Hin. apply H. now right.
Qed.

Lemma dict_update_NoDup {V} (d e : dict string V) : NoDup (map fst d) -> NoDup (map fst (dict_update String.eqb d e)).
Proof.
  unfold dict_update. revert d. induction e as [|[k v] e IH]; simpl; auto. intros d H. apply IH.
  apply dict_set_NoDup; auto. apply string_eqb_spec.
Qed.

Lemma params_filter_keys {B} (p : B -> bool) bs ps : map fst (params_filter p bs ps) = map fst ps.
Proof. unfold params_filter. rewrite map_map. reflexivity. Qed.

Lemma params_filter_get {B} (p : B -> bool) bs ps k :
  dict_get String.eqb k (params_filter p bs ps) = option_map (param_filter p bs) (dict_get String.eqb k ps).
Proof. induction ps as [|[k0 v0] ps IH]; simpl; auto. destruct (String.eqb k k0); auto. Qed.

(** ** SelectSource / SelectTarget *)

Section SelectDomain.
  Context {R : Type} (route : params -> res params) (tr : bool).

  Lemma get_sd_filter p ps sd : get_sd ps = Some sd ->
    get_sd (params_filter p sd ps) = Some (filter_by p sd sd).
  Proof.
    unfold get_sd, p_get. rewrite params_filter_get. destruct (dict_get _ _ ps) as [[]|]; simpl; try easy.
    intros H; injection H as <-. now rewrite Nat.eqb_refl.
  Qed.

  Lemma select_domain_fit_ok side (mask : bool) (X : list R) y ps sd rp X3 y3 rp3 :
    NoDup (map fst ps) -> get_sd ps = Some sd -> length X = length sd ->
    (forall l, y = Some l -> length l = length sd) -> no_pylist (length sd) ps ->
    (exists d, In d sd /\ side_of side d = true) ->
    (mask = true -> side = true) ->
    (forall l, y = Some l -> mask = true -> discrete_labels (rows_of is_source sd l) \/ continuous_labels (rows_of is_source sd l)) ->
    route (params_filter (side_of side) sd ps) = Ok rp ->
    sel_remove_masked tr (rows_of (side_of side) sd X) (option_map (rows_of (side_of side) sd) y) rp = Ok (X3, y3, rp3) ->
    exists c2, select_domain_fit route tr side mask (from_array X) y ps = Ok (c2, mkCall X3 y3 rp3).
  Proof.
    intros ND Hsd HX Hy Hp [d0 [Hd0 Hs0]] Hms Hlab Hr Hrem. unfold select_domain_fit.
    cbn [merge_out from_array c_X c_labels c_meta]. change (dict_update String.eqb ps []) with ps.
    rewrite Hsd.
    assert (Hne : sd <> []) by (intros ->; easy).
    rewrite extract_source_ok by auto. cbn [bind].
    assert (EM : (if side then map is_source sd else map negb (map is_source sd)) = map (side_of side) sd).
    { destruct side; auto. simpl. rewrite map_map. apply map_ext. intros a. now rewrite is_target_negb. }
    rewrite EM. rewrite apply_masks_ok; auto.
    cbn [bind merge_in c_meta]. eexists. unfold shared_fit.
    set (y2 := option_map (filter_by (side_of side) sd) y). set (ps2 := params_filter (side_of side) sd ps).
    assert (EA : (if mask then auto_mask y2 ps2 else Ok y2) = Ok y2).
    { destruct mask; auto. specialize (Hms eq_refl). subst side. cbn [side_of] in *.
      destruct y as [l|]; [|reflexivity]. subst y2. cbn [option_map].
      assert (Hlen : length (filter_by is_source sd l) = length (filter_by is_source sd sd)).
      { rewrite !filter_by_length; auto. symmetry. now apply Hy. }
      assert (Hne2 : filter_by is_source sd sd <> []).
      { rewrite <- rows_of_filter_by, rows_of_self. intros C.
        assert (In d0 (filter is_source sd)) by now apply filter_In. rewrite C in *. easy. }
      assert (Hallsrc : forall d, In d (filter_by is_source sd sd) -> is_source d = true).
      { rewrite <- rows_of_filter_by, rows_of_self. intros d Hd. now apply filter_In in Hd. }
      assert (Hl2 : filter_by is_source sd l <> []).
      { intros C. rewrite C in Hlen. simpl in Hlen. symmetry in Hlen. apply length_zero_iff_nil in Hlen. contradiction. }
      destruct (Hlab l eq_refl eq_refl) as [Hd|Hc].
      - rewrite (auto_mask_ok (filter_by is_source sd l) ps2 (filter_by is_source sd sd) DISCRETE); auto.
        + now rewrite mask_targets_all_source.
        + subst ps2. now apply get_sd_filter.
        + now apply find_y_type_discrete.
      - rewrite (auto_mask_ok (filter_by is_source sd l) ps2 (filter_by is_source sd sd) CONTINUOUS); auto.
        + now rewrite mask_targets_all_source.
        + subst ps2. now apply get_sd_filter.
        + now apply find_y_type_continuous. }
    rewrite EA. cbn [bind merge_out c_X c_labels c_meta from_array].
    assert (ND2 : NoDup (map fst ps2)) by (subst ps2; now rewrite params_filter_keys).
    assert (EU : dict_update String.eqb ps2 (dict_update String.eqb [] ps2) = ps2).
    { apply dict_update_self. intros k v Hin.
      assert (G : dict_get String.eqb k (dict_update String.eqb [] ps2) = Some v).
      { apply dict_get_NoDup; auto; [apply string_eqb_spec|]. apply dict_update_NoDup. constructor. }
      rewrite (dict_get_update String.eqb string_eqb_spec) in G. simpl in G.
      destruct (dict_get String.eqb k (rev ps2)) as [w|] eqn:Ew; [|discriminate]. injection G as ->.
      apply dict_get_In in Ew; [|apply string_eqb_spec]. apply in_rev in Ew.
      apply dict_get_NoDup; auto. apply string_eqb_spec. }
    rewrite EU. assert (EY : match y2 with Some l => Some l | None => y2 end = y2) by (destruct y2; auto).
    rewrite EY. subst ps2. rewrite Hr. cbn [bind].
    change (filter_by (side_of side) sd X) with (rows_of (side_of side) sd X). subst y2.
    change (option_map (filter_by (side_of side) sd) y) with (option_map (rows_of (side_of side) sd) y).
    rewrite Hrem. cbn [bind snd]. reflexivity.
  Qed.
End SelectDomain.

(** ** SelectSourceTarget *)

Lemma sst_domains_ok {R} (X : list R) y ps sd :
  get_sd ps = Some sd -> sd <> [] -> length X = length sd -> (forall l, y = Some l -> length l = length sd) ->
  sst_domains X y ps = Ok sd.
Proof.
  intros H Hne HX Hy. unfold sst_domains. rewrite H.
  assert (HA : flags_accept all_flags sd).
  { unfold flags_accept, all_flags. cbn. repeat split; intros; discriminate. }
  assert (0 < length X) by (rewrite HX; destruct sd; simpl; [easy|lia]).
  destruct y as [l|].
  - specialize (Hy l eq_refl). unfold check_X_y_domain.
    destruct (Nat.eqb_spec (length X) 0); [lia|]. destruct (Nat.eqb_spec (length l) 0); [lia|].
    cbn [negb andb]. destruct (Nat.eqb_spec (length X) (length l)); [|lia]. cbn [negb bind].
    rewrite extract_source_ok by auto. cbn [bind]. rewrite check_flags_ok. tauto.
  - apply check_X_domain_ok. cbn [eff_domain]. repeat split; auto; try easy; try discriminate.
Qed.

Section SST.
  Context {R : Type} (route_s route_t : params -> res params) (tr : bool).

  Lemma sst_side_ok route p (X : list R) y ps sd rp r :
    length X = length sd -> (forall l, y = Some l -> length l = length sd) -> no_pylist (length sd) ps ->
    0 < how_many p sd -> route (params_filter p sd ps) = Ok rp ->
    sel_remove_masked tr (rows_of p sd X) (option_map (rows_of p sd) y) rp = Ok r ->
    sst_side tr route X y ps (map p sd) = Ok (mkCall (fst (fst r)) (snd (fst r)) (snd r)).
  Proof.
    intros HX Hy Hp Hpos Hr Hrem. unfold sst_side. rewrite count_map.
    destruct (Nat.eqb_spec (how_many p sd) 0); [lia|].
    rewrite apply_masks_ok; auto. cbn [bind]. rewrite Hr. cbn [bind].
    change (filter_by p sd X) with (rows_of p sd X).
    change (option_map (filter_by p sd) y) with (option_map (rows_of p sd) y).
    rewrite Hrem. destruct r as [[X2 y2] rp2]. reflexivity.
  Qed.

  Lemma neg_source sd : map negb (map is_source sd) = map is_target sd.
  Proof. rewrite map_map. apply map_ext. intros a. now rewrite is_target_negb. Qed.

  Lemma set_sd_same ps sd : get_sd ps = Some sd -> dict_set String.eqb "sample_domain"%string (PDom sd) ps = ps.
  Proof.
    unfold get_sd, p_get. intros H. apply dict_set_same.
    destruct (dict_get String.eqb "sample_domain"%string ps) as [[]|]; try easy. now injection H as ->.
  Qed.

  Lemma sst_fit_ok (X : list R) y ps sd rps rpt rs rt :
    get_sd ps = Some sd -> length X = length sd -> (forall l, y = Some l -> length l = length sd) ->
    no_pylist (length sd) ps -> 0 < how_many is_source sd -> 0 < how_many is_target sd ->
    route_s (params_filter is_source sd ps) = Ok rps -> route_t (params_filter is_target sd ps) = Ok rpt ->
    sel_remove_masked tr (rows_of is_source sd X) (option_map (rows_of is_source sd) y) rps = Ok rs ->
    sel_remove_masked tr (rows_of is_target sd X) (option_map (rows_of is_target sd) y) rpt = Ok rt ->
    sst_fit route_s route_t tr (from_array X) y ps =
    Ok (mkCall (fst (fst rs)) (snd (fst rs)) (snd rs), mkCall (fst (fst rt)) (snd (fst rt)) (snd rt)).
  Proof.
    intros Hsd HX Hy Hp Hs Ht Hrs Hrt E1 E2. unfold sst_fit.
    cbn [merge_out from_array c_X c_labels c_meta]. change (dict_update String.eqb ps []) with ps.
    assert (Hne : sd <> []) by (intros ->; unfold how_many in Hs; simpl in Hs; lia).
    rewrite (sst_domains_ok X y ps sd) by auto. cbn [bind].
    rewrite set_sd_same by auto. rewrite extract_source_ok by auto. cbn [bind].
    rewrite (sst_side_ok route_s is_source X y ps sd rps rs) by auto. cbn [bind].
    rewrite neg_source. now rewrite (sst_side_ok route_t is_target X y ps sd rpt rt) by auto.
  Qed.

  Lemma sst_fit_one_sided (X : list R) y ps sd :
    get_sd ps = Some sd -> sd <> [] -> length X = length sd -> (forall l, y = Some l -> length l = length sd) ->
    no_pylist (length sd) ps ->
    (how_many is_source sd = 0 \/ (how_many is_target sd = 0 /\
        exists a, sst_side tr route_s X y ps (map is_source sd) = Ok a)) ->
    sst_fit route_s route_t tr (from_array X) y ps = Err ValueError.
  Proof.
    intros Hsd Hne HX Hy Hp H. unfold sst_fit.
    cbn [merge_out from_array c_X c_labels c_meta]. change (dict_update String.eqb ps []) with ps.
    rewrite (sst_domains_ok X y ps sd) by auto. cbn [bind].
    rewrite set_sd_same by auto. rewrite extract_source_ok by auto. cbn [bind].
    destruct H as [H|[H [a Ha]]].
    - unfold sst_side at 1. rewrite count_map, H. reflexivity.
    - rewrite Ha. cbn [bind]. unfold sst_side. rewrite neg_source, count_map, H. reflexivity.
  Qed.

  Section Route.
    Context {A : Type} (zero : A) (meth_s meth_t : list R -> params -> res (list A)).

    Lemma sst_out_absent route meth (X : list R) ps m : count m = 0 -> @sst_out R A route meth X ps m = Ok [].
    Proof. intros H. unfold sst_out. now rewrite H. Qed.

    Lemma sst_out_ok route meth p (X : list R) ps sd rp (o : list A) :
      length X = length sd -> no_pylist (length sd) ps -> 0 < how_many p sd ->
      route (params_filter p sd ps) = Ok rp -> meth (rows_of p sd X) rp = Ok o ->
      sst_out route meth X ps (map p sd) = Ok [(IMask (map p sd), o)].
    Proof.
      intros HX Hp Hpos Hr Hm. unfold sst_out. rewrite count_map.
      destruct (Nat.eqb_spec (how_many p sd) 0); [lia|].
      rewrite apply_masks_ok; auto; [|easy]. cbn [bind]. rewrite Hr. cbn [bind].
      change (filter_by p sd X) with (rows_of p sd X). now rewrite Hm.
    Qed.

    Lemma sst_route_ok (X : list R) ps sd (outs outt : list A) :
      get_sd ps = Some sd -> sd <> [] -> length X = length sd -> no_pylist (length sd) ps ->
      (0 < how_many is_source sd -> exists rp, route_s (params_filter is_source sd ps) = Ok rp /\
          meth_s (rows_of is_source sd X) rp = Ok outs) ->
      (0 < how_many is_target sd -> exists rp, route_t (params_filter is_target sd ps) = Ok rp /\
          meth_t (rows_of is_target sd X) rp = Ok outt) ->
      length outs = how_many is_source sd -> length outt = how_many is_target sd ->
      exists r, sst_route route_s route_t zero meth_s meth_t X ps = Ok r /\ length r = length X /\
        rows_of is_source sd r = outs /\ rows_of is_target sd r = outt.
    Proof.
      intros Hsd Hne HX Hp Hs Ht Ls Lt. unfold sst_route.
      rewrite (sst_domains_ok X None ps sd) by (auto; easy). cbn [bind].
      rewrite set_sd_same by auto. rewrite extract_source_ok by auto. cbn [bind]. rewrite neg_source.
      pose proof (how_many_split sd) as HS.
      set (a := if how_many is_source sd =? 0 then [] else [(IMask (map is_source sd), outs)]).
      set (b := if how_many is_target sd =? 0 then [] else [(IMask (map is_target sd), outt)]).
      assert (Ea : sst_out route_s meth_s X ps (map is_source sd) = Ok a).
      { subst a. destruct (Nat.eqb_spec (how_many is_source sd) 0) as [E|E].
        - apply sst_out_absent. now rewrite count_map.
        - destruct Hs as [rp [H1 H2]]; [lia|]. eapply sst_out_ok; eauto. lia. }
      assert (Eb : sst_out route_t meth_t X ps (map is_target sd) = Ok b).
      { subst b. destruct (Nat.eqb_spec (how_many is_target sd) 0) as [E|E].
        - apply sst_out_absent. now rewrite count_map.
        - destruct Ht as [rp [H1 H2]]; [lia|]. eapply sst_out_ok; eauto. lia. }
      rewrite Ea, Eb. cbn [bind].
      assert (Hlen : 0 < length sd) by (destruct sd; simpl; [easy|lia]).
      assert (GI : forall p : Z -> bool, good_index (length X) (IMask (map p sd))) by (intros p; simpl; now rewrite map_length).
      assert (LI : forall p : Z -> bool, length (index_list (IMask (map p sd))) = how_many p sd)
        by (intros p; simpl; rewrite flatnonzero_length; apply count_map).
      assert (DJ : NoDup (flatnonzero (map is_source sd) ++ flatnonzero (map is_target sd))).
      { apply NoDup_app_disjoint; try apply flatnonzero_NoDup. intros i H1 H2. apply flatnonzero_In in H1, H2.
        rewrite nth_error_map in H1, H2. destruct (nth_error sd i) as [d|]; [|easy]. simpl in *.
        rewrite is_target_negb in H2. injection H1 as H1. injection H2 as H2. rewrite H1 in H2. easy. }
      destruct (merge_domain_outputs_ok zero (length X) (a ++ b)) as [r [E [E1 [E2 _]]]].
      - subst a b. destruct (Nat.eqb_spec (how_many is_source sd) 0), (Nat.eqb_spec (how_many is_target sd) 0); simpl; try easy. lia.
      - assert (F1 : forall p (o : list A), length o = how_many p sd ->
          good_index (length X) (fst (IMask (map p sd), o)) /\
          length (snd (IMask (map p sd), o)) = length (index_list (fst (IMask (map p sd), o)))).
        { intros p o HL. cbn [fst snd]. split; [apply GI|]. now rewrite LI. }
        apply Forall_app. subst a b. split.
        + destruct (how_many is_source sd =? 0); constructor; [now apply F1|constructor].
        + destruct (how_many is_target sd =? 0); constructor; [now apply F1|constructor].
      - subst a b. destruct (Nat.eqb_spec (how_many is_source sd) 0), (Nat.eqb_spec (how_many is_target sd) 0); simpl; rewrite ?app_nil_r; auto;
          try constructor; try apply flatnonzero_NoDup.
      - exists r. split; auto. split; auto.
        assert (T : forall p outp, (0 < how_many p sd -> In (IMask (map p sd), outp) (a ++ b)) -> length outp = how_many p sd ->
           rows_of p sd r = outp).
        { intros p outp Hin HL. destruct (Nat.eq_dec (how_many p sd) 0) as [Z0|NZ].
          - assert (outp = []) by (apply length_zero_iff_nil; lia). subst.
            apply length_zero_iff_nil. rewrite rows_of_length; congruence.
          - assert (T : np_take (positions p sd) r = Ok outp).
            { apply np_take_eq; [now rewrite positions_length|]. intros k j v Hk Hv.
              rewrite positions_flatnonzero in Hk.
              eapply E2 with (i := IMask (map p sd)); eauto. apply Hin. lia. }
            rewrite positions_flatnonzero, np_take_flatnonzero in T by (rewrite map_length; congruence).
            rewrite rows_of_select. now injection T. }
        split; apply T; auto; intros H; apply in_or_app; [left|right]; [subst a|subst b].
        + destruct (Nat.eqb_spec (how_many is_source sd) 0); [lia|now left].
        + destruct (Nat.eqb_spec (how_many is_target sd) 0); [lia|now left].
    Qed.
  End Route.
End SST.

(** ** Containers *)

(** The scatter of containers: features as for arrays. *)
Lemma scatter_params_ok n i ps acc :
  good_index n i -> NoDup (map fst ps) ->
  (forall k v, In (k, v) ps -> length v = length (index_list i)) ->
  (forall k v, dict_get String.eqb k acc = Some v -> length v = n) ->
  exists acc', scatter_params n i ps acc = Ok acc' /\
    (forall k v, dict_get String.eqb k acc' = Some v -> length v = n) /\
    (forall k, dict_get String.eqb k acc' =
       match dict_get String.eqb k ps with
       | Some v => Some (place_idx (index_list i) v (match dict_get String.eqb k acc with Some o => o | None => repeat (VNum 0) n end))
       | None => dict_get String.eqb k acc
       end).
Proof.
  intros G. revert acc. induction ps as [|[k0 v0] ps IH]; intros acc ND HL HA; simpl.
  - exists acc. auto.
  - inversion ND; subst. unfold scatter_opt.
    set (cur := match dict_get String.eqb k0 acc with Some o => o | None => repeat (VNum 0) n end).
    assert (Hcur : length cur = n).
    { subst cur. destruct (dict_get String.eqb k0 acc) eqn:E; [eauto|apply repeat_length]. }
    rewrite set_index_ok; [|now rewrite Hcur|apply (HL k0); now left].
    cbn [bind].
    destruct (IH (dict_set String.eqb k0 (place_idx (index_list i) v0 cur) acc)) as [acc' [E [E1 E2]]]; auto.
    { intros k v Hin. apply (HL k). now right. }
    { intros k v. rewrite (dict_get_set String.eqb string_eqb_spec). destruct (String.eqb k k0) eqn:Ek.
      - intros H; injection H as <-. now rewrite place_idx_length.
      - apply HA. }
    exists acc'. split; auto. split; auto. intros k. rewrite E2.
    rewrite (dict_get_set String.eqb string_eqb_spec). destruct (String.eqb k k0) eqn:Ek; [|reflexivity].
    apply String.eqb_eq in Ek. subst k.
    replace (dict_get String.eqb k0 ps) with (@None (list val)); auto.
    symmetry. apply (dict_get_None String.eqb string_eqb_spec). auto.
Qed.

Definition outs_of {A C} (f : C -> list A) (outs : list (dindex * C)) : list (dindex * list A) :=
  map (fun ic => (fst ic, f (snd ic))) outs.

Definition get_or_nil (k : string) (d : dict string (list val)) : list val :=
  match dict_get String.eqb k d with Some v => v | None => [] end.

Lemma scatter_containers_ok {R} (zero : R) n outs accX accy accp :
  length accX = n -> (forall o, accy = Some o -> length o = n) ->
  (forall k v, dict_get String.eqb k accp = Some v -> length v = n) ->
  Forall (fun ic => good_index n (fst ic) /\ length (co_X (snd ic)) = length (index_list (fst ic)) /\
     (exists l, co_y (snd ic) = Some l /\ length l = length (index_list (fst ic))) /\
     NoDup (map fst (co_params (snd ic))) /\
     forall k v, In (k, v) (co_params (snd ic)) -> length v = length (index_list (fst ic))) outs ->
  exists r, scatter_containers zero n outs accX accy accp = Ok r /\
    scatter_all (outs_of co_X outs) accX = Ok (co_X r) /\
    (outs = [] -> co_y r = accy) /\
    (outs <> [] -> exists ry, co_y r = Some ry /\
       scatter_all (outs_of (fun c => match co_y c with Some l => l | None => [] end) outs)
         (match accy with Some o => o | None => repeat (VNum 0) n end) = Ok ry) /\
    (forall k, (forall i c, In (i, c) outs -> In k (map fst (co_params c))) ->
       (outs = [] -> dict_get String.eqb k (co_params r) = dict_get String.eqb k accp) /\
       (outs <> [] -> exists rk, dict_get String.eqb k (co_params r) = Some rk /\
         scatter_all (outs_of (fun c => get_or_nil k (co_params c)) outs)
           (match dict_get String.eqb k accp with Some o => o | None => repeat (VNum 0) n end) = Ok rk)).
Proof.
  revert accX accy accp. induction outs as [|[i c] outs IH]; intros accX accy accp LX Ly Lp HF.
  - eexists. cbn. split; [reflexivity|]. cbn. repeat split; auto; easy.
  - inversion HF as [|? ? [G [H1 [[l [H2 H3]] [H4 H5]]]] HF']; subst. cbn [fst snd] in *.
    cbn [scatter_containers outs_of map fst snd scatter_all].
    rewrite set_index_ok by auto. cbn [bind]. rewrite H2. cbn [bind]. unfold scatter_opt.
    assert (Lc : length (match accy with Some o => o | None => repeat (VNum 0) (length accX) end) = length accX).
    { destruct accy; [now apply Ly|apply repeat_length]. }
    rewrite set_index_ok by (rewrite ?Lc; auto). cbn [bind].
    destruct (scatter_params_ok (length accX) i (co_params c) accp G H4 H5 Lp) as [p' [Ep [Lp' Gp]]].
    rewrite Ep. cbn [bind].
    set (X1 := place_idx (index_list i) (co_X c) accX).
    set (y1 := place_idx (index_list i) l _).
    destruct (IH X1 (Some y1) p') as [r [E [EX [Ey0 [Ey Ek]]]]].
    { apply place_idx_length. }
    { intros o Ho. injection Ho as <-. subst y1. now rewrite place_idx_length. }
    { intros k v Hk. eauto. }
    { exact HF'. }
    exists r. split; [exact E|]. split; [exact EX|]. split; [easy|]. split.
    + intros _. destruct outs as [|oc outs'].
      * exists y1. split; [now rewrite Ey0|]. reflexivity.
      * destruct Ey as [ry [E3 E4]]; [easy|]. exists ry. split; auto.
    + intros k Hk. split; [easy|]. intros _.
      assert (Hk0 : In k (map fst (co_params c))) by (apply (Hk i c); now left).
      assert (Hget : exists v, dict_get String.eqb k (co_params c) = Some v /\ length v = length (index_list i)).
      { destruct (dict_get String.eqb k (co_params c)) as [v|] eqn:Ev.
        - exists v. split; auto. apply (H5 k). eapply dict_get_In; eauto. apply string_eqb_spec.
        - exfalso. apply (dict_get_None String.eqb string_eqb_spec) in Ev. contradiction. }
      destruct Hget as [v [Ev Lv]]. specialize (Gp k). rewrite Ev in Gp.
      set (cur := match dict_get String.eqb k accp with Some o => o | None => repeat (VNum 0) (length accX) end) in *.
      assert (Lcur : length cur = length accX).
      { subst cur. destruct (dict_get String.eqb k accp) eqn:Ec; [eauto|apply repeat_length]. }
      destruct (Ek k) as [Ek0 Ek1].
      { intros i' c' Hin. apply (Hk i' c'). now right. }
      unfold get_or_nil at 1. rewrite Ev.
      rewrite set_index_ok by (rewrite ?Lcur; auto). cbn [bind].
      destruct outs as [|oc outs'].
      * eexists. split; [rewrite Ek0 by auto; exact Gp|]. reflexivity.
      * destruct Ek1 as [rk [E5 E6]]; [easy|]. exists rk. split; auto. now rewrite Gp in E6.
Qed.

(** ** Container history *)

Lemma dict_get_update_NoDup {V} (d e : dict string V) k : NoDup (map fst e) ->
  dict_get String.eqb k (dict_update String.eqb d e) =
  match dict_get String.eqb k e with Some v => Some v | None => dict_get String.eqb k d end.
Proof.
  intros ND. rewrite (dict_get_update String.eqb string_eqb_spec).
  replace (dict_get String.eqb k (rev e)) with (dict_get String.eqb k e); auto.
  destruct (dict_get String.eqb k e) as [v|] eqn:E.
  - symmetry. apply dict_get_NoDup; [apply string_eqb_spec| |].
    + rewrite map_rev. now apply NoDup_rev.
    + rewrite <- in_rev. eapply dict_get_In; eauto. apply string_eqb_spec.
  - symmetry. apply (dict_get_None String.eqb string_eqb_spec). apply (dict_get_None String.eqb string_eqb_spec) in E.
    rewrite map_rev. now rewrite <- in_rev.
Qed.

Lemma fold_meta {R} (outs : list (@step_out R)) c k :
  (forall o, In o outs -> NoDup (map fst (out_params o))) ->
  dict_get String.eqb k (c_meta (fold_left merge_in outs c)) =
  match last_param k outs with Some v => Some v | None => dict_get String.eqb k (c_meta c) end.
Proof.
  revert c. induction outs as [|o outs IH]; intros c H; simpl; auto.
  rewrite IH by (intros o' Ho'; apply H; now right).
  destruct (last_param k outs); auto.
  assert (ND : NoDup (map fst (out_params o))) by (apply H; now left).
  destruct o; simpl in *; auto; now rewrite dict_get_update_NoDup.
Qed.

Lemma fold_meta_NoDup {R} (outs : list (@step_out R)) c : NoDup (map fst (c_meta c)) ->
  NoDup (map fst (c_meta (fold_left merge_in outs c))).
Proof.
  revert c. induction outs as [|o outs IH]; intros c H; simpl; auto. apply IH.
  destruct o; simpl; auto; now apply dict_update_NoDup.
Qed.
