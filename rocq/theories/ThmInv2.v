(** * C162: the names of the domains only have to be different *)
From Coq Require Import String List ZArith QArith Bool Arith Lia Sorting.Sorted Sorting.Permutation.
From Verif Require Import Np NpFacts Labels UtilsModel Spec UtilsSpec UtilsProofs SelectModel SelectSpec SelectProofs MapModel MapSpec SplitModel OTModel InvSpec ThmInv ThmMap ThmSelect.
Import ListNotations.
Local Open Scope nat_scope.
Local Open Scope list_scope.

Lemma rows_rename {A} f (Hf : keeps_apart f) d sd (xs : list A) : rows_of (Z.eqb (f d)) (map f sd) xs = rows_of (Z.eqb d) sd xs.
Proof.
  unfold rows_of. revert xs. induction sd as [|e sd IH]; intros [|x xs]; try reflexivity. cbn [map combine filter fst].
  replace (f d =? f e)%Z with (d =? e)%Z; [destruct (d =? e)%Z; cbn [map snd]; now rewrite IH|].
  destruct (Z.eqb_spec d e) as [->|N]; [now rewrite Z.eqb_refl|]. symmetry. apply Z.eqb_neq. intros E. apply N, Hf, E.
Qed.
Lemma param_rows_rename f (Hf : keeps_apart f) d sd rp : params_rows (f d) (map f sd) (rename_params f rp) = rename_params f (params_rows d sd rp).
Proof.
  unfold params_rows, rename_params. rewrite !map_map. apply map_ext. intros [k v]. cbn [fst snd]. f_equal.
  destruct v; cbn [rename_value param_rows]; try reflexivity.
  - now rewrite rows_rename.
  - rewrite rows_rename by assumption. f_equal. unfold rows_of. clear. revert l. induction sd as [|e sd IH]; intros [|x l]; try reflexivity.
    cbn [map combine filter fst]. destruct (d =? e)%Z; cbn [map snd]; now rewrite IH.
Qed.
Lemma rows_ext {A} : forall sd (r r' : list A), length r = length sd -> length r' = length sd ->
  (forall d, In d sd -> rows_of (Z.eqb d) sd r = rows_of (Z.eqb d) sd r') -> r = r'.
Proof.
  induction sd as [|e sd IH]; intros [|x r] [|x' r'] L L' H; try discriminate; [reflexivity|].
  injection L as L. injection L' as L'. pose proof (H e (or_introl eq_refl)) as He. unfold rows_of in He. cbn [combine filter fst] in He.
  rewrite Z.eqb_refl in He. cbn [map snd] in He. injection He as -> He. f_equal. apply IH; try assumption.
  intros d Hd. specialize (H d (or_intror Hd)). unfold rows_of in H |- *. cbn [combine filter fst] in H.
  destruct (d =? e)%Z; cbn [map snd] in H; congruence.
Qed.
Lemma many_rename f (Hf : keeps_apart f) d sd : how_many (Z.eqb (f d)) (map f sd) = how_many (Z.eqb d) sd.
Proof.
  unfold how_many. induction sd as [|e sd IH]; [reflexivity|]. cbn [map filter].
  replace (f d =? f e)%Z with (d =? e)%Z; [destruct (d =? e)%Z; cbn [length]; now rewrite IH|].
  destruct (Z.eqb_spec d e) as [->|N]; [now rewrite Z.eqb_refl|]. symmetry. apply Z.eqb_neq. intros E. apply N, Hf, E.
Qed.
Lemma positions_rename f (Hf : keeps_apart f) d sd : positions (Z.eqb (f d)) (map f sd) = positions (Z.eqb d) sd.
Proof.
  unfold positions. rewrite map_length. generalize (seq 0 (length sd)). induction sd as [|e sd IH]; intros [|i l]; try reflexivity. cbn [map combine filter snd].
  replace (f d =? f e)%Z with (d =? e)%Z; [destruct (d =? e)%Z; cbn [map fst]; now rewrite IH|].
  destruct (Z.eqb_spec d e) as [->|N]; [now rewrite Z.eqb_refl|]. symmetry. apply Z.eqb_neq. intros E. apply N, Hf, E.
Qed.
Lemma get_renamed_keys f (Hf : keeps_apart f) {V} d (l : dict Z V) : dict_get Z.eqb (f d) (map (fun kv => (f (fst kv), snd kv)) l) = dict_get Z.eqb d l.
Proof.
  induction l as [|[e v] l IH]; [reflexivity|]. cbn [map dict_get fst snd].
  replace (f d =? f e)%Z with (d =? e)%Z; [destruct (d =? e)%Z; auto|].
  destruct (Z.eqb_spec d e) as [->|N]; [now rewrite Z.eqb_refl|]. symmetry. apply Z.eqb_neq. intros E. apply N, Hf, E.
Qed.
Lemma nth_ext_all {A} : forall l l' : list A, (forall i, nth_error l i = nth_error l' i) -> l = l'.
Proof.
  induction l as [|x l IH]; intros [|x' l'] H; [reflexivity|discriminate (H 0)|discriminate (H 0)|].
  pose proof (H 0) as [= ->]. f_equal. apply IH. intros i. exact (H (S i)).
Qed.
Lemma get_keys {V} (g : Z -> V) d l : dict_get Z.eqb d (map (fun e => (e, g e)) l) = if existsb (Z.eqb d) l then Some (g d) else None.
Proof.
  induction l as [|e l IH]; [reflexivity|]. cbn [map dict_get existsb]. destruct (Z.eqb_spec d e) as [->|]; [reflexivity|exact IH].
Qed.
Lemma exists_rename f (Hf : keeps_apart f) d sd : existsb (Z.eqb (f d)) (unique (map f sd)) = existsb (Z.eqb d) (unique sd).
Proof.
  apply eq_true_iff_eq. rewrite !existsb_exists. split.
  - intros (e & He & E). apply Z.eqb_eq in E as <-. apply (proj1 (unique_In _ _)) in He. apply in_map_iff in He as (d' & E & He). apply Hf in E as <-.
    exists d'. split; [now apply unique_In|apply Z.eqb_refl].
  - intros (e & He & E). apply Z.eqb_eq in E as <-. exists (f d). split; [|apply Z.eqb_refl]. apply unique_In, in_map. now apply (proj1 (unique_In _ _)) in He.
Qed.

(** The samples found under the new name are those found under the old one. *)
Theorem C162_indices : forall f, keeps_apart f -> forall sd, sd <> [] ->
  exists di di', extract_domains_indices sd = Ok di /\ extract_domains_indices (map f sd) = Ok di' /\
    forall d, dict_get Z.eqb (f d) di' = dict_get Z.eqb d di.
Proof.
  intros f Hf sd Hne. unfold extract_domains_indices. rewrite map_length. destruct (Nat.eqb_spec (length sd) 0) as [E|_]; [now destruct sd|].
  do 2 eexists. split; [reflexivity|]. split; [reflexivity|]. intros d.
  rewrite (get_keys (fun e => flatnonzero (map (fun x => (x =? e)%Z) (map f sd)))), (get_keys (fun e => flatnonzero (map (fun x => (x =? e)%Z) sd))).
  rewrite exists_rename by assumption. destruct (existsb _ _); [|reflexivity]. do 2 f_equal. rewrite map_map. apply map_ext. intros e.
  destruct (Z.eqb_spec e d) as [->|N]; [now rewrite Z.eqb_refl|]. apply Z.eqb_neq. intros E. apply N, Hf, E.
Qed.

(** PerDomain: the estimator of a domain is fitted on the same samples ... *)
Theorem C162_per_domain_fit : forall f, keeps_apart f -> forall R route tr (X : list R) y ps sd rp,
  name_blind f route -> get_sd ps = Some sd -> route ps = Ok rp ->
  (tr = true \/ y = None \/ gets_domains rp) ->
  length X = length sd -> (forall l, y = Some l -> length l = length sd) ->
  (forall k v, In (k, v) rp -> per_sample (length sd) v) ->
  exists calls calls',
    per_domain_fit route tr false (from_array X) y ps = Ok (y, calls) /\
    per_domain_fit route tr false (from_array X) y (rename_params f ps) = Ok (y, calls') /\
    forall d, dict_get Z.eqb (f d) calls' = option_map (fun ik => (fst ik, rename_call f (snd ik))) (dict_get Z.eqb d calls).
Proof.
  intros f Hf R route tr X y ps sd rp Hr H1 H2 H3 H4 H5 H6. domain_keys.
  do 2 eexists. split; [|split].
  - apply (per_domain_fit_ok route tr (from_array X) false y y ps sd rp X y ps); auto.
  - apply (per_domain_fit_ok route tr (from_array X) false y y (rename_params f ps) (map f sd) (rename_params f rp) X y (rename_params f ps)); auto.
    + now rewrite get_sd_rename, H1.
    + now rewrite Hr, H2.
    + now rewrite has_key_rename.
    + now rewrite map_length.
    + now rewrite map_length.
    + intros k v Hi. unfold rename_params in Hi. apply in_map_iff in Hi as ([k' v'] & [= <- <-] & Hi). apply H6 in Hi. rewrite map_length.
      destruct v'; cbn in *; rewrite ?map_length; assumption.
  - intros d.
    rewrite (get_keys (fun d0 => (positions (Z.eqb d0) (map f sd), mkCall (rows_of (Z.eqb d0) (map f sd) X) (option_map (rows_of (Z.eqb d0) (map f sd)) y) (params_rows d0 (map f sd) (rename_params f rp))))).
    rewrite (get_keys (fun d0 => (positions (Z.eqb d0) sd, mkCall (rows_of (Z.eqb d0) sd X) (option_map (rows_of (Z.eqb d0) sd) y) (params_rows d0 sd rp)))).
    rewrite exists_rename by assumption. destruct (existsb _ _); [|reflexivity]. cbn [option_map fst snd]. f_equal. f_equal; [now apply positions_rename|].
    unfold rename_call. cbn [k_X k_y k_params]. rewrite rows_rename, param_rows_rename by assumption. f_equal.
    destruct y as [l|]; [|reflexivity]. cbn [option_map]. now rewrite rows_rename.
Qed.
(** ... and every sample gets the same output. *)
Theorem C162_per_domain_predict : forall f, keeps_apart f -> forall R Est A route (zero : A) (meth : Est -> list R -> params -> res (list A)) (ests : dict Z Est) X ps rp sd,
  name_blind f route -> (forall e X' p, meth e X' (rename_params f p) = meth e X' p) ->
  route ps = Ok rp -> get_sd ps = Some sd -> sd <> [] -> length X = length sd ->
  (forall k v, In (k, v) rp -> per_sample (length sd) v) ->
  (forall d, In d sd -> exists est o, dict_get Z.eqb d ests = Some est /\
      meth est (rows_of (Z.eqb d) sd X) (params_rows d sd rp) = Ok o /\ length o = how_many (Z.eqb d) sd) ->
  exists r, per_domain_route route zero meth ests X ps = Ok r /\
    per_domain_route route zero meth (map (fun kv => (f (fst kv), snd kv)) ests) X (rename_params f ps) = Ok r.
Proof.
  intros f Hf R Est A route zero meth ests X ps rp sd Hr Hm H1 H2 H3 H4 H5 H6.
  set (out := fun d => match dict_get Z.eqb d ests with Some e => match meth e (rows_of (Z.eqb d) sd X) (params_rows d sd rp) with Ok o => o | Err _ => [] end | None => [] end).
  destruct (per_domain_route_ok route zero meth ests X ps rp sd out) as (r & E & L & O); auto.
  { intros d Hd. destruct (H6 d Hd) as (est & o & G1 & G2 & G3). exists est. unfold out. rewrite G1, G2. auto. }
  exists r. split; [exact E|].
  (* an inverse of f on the labels present *)
  set (inv := fun e => match find (fun d => (f d =? e)%Z) sd with Some d => d | None => 0%Z end).
  assert (I : forall d, In d sd -> inv (f d) = d).
  { intros d Hd. unfold inv. destruct (find _ sd) as [d'|] eqn:F.
    - apply find_some in F as [_ F]. apply Z.eqb_eq in F. now apply Hf in F.
    - exfalso. apply (find_none _ _ F) in Hd. cbn in Hd. now rewrite Z.eqb_refl in Hd. }
  destruct (per_domain_route_ok route zero meth (map (fun kv => (f (fst kv), snd kv)) ests) X (rename_params f ps) (rename_params f rp) (map f sd) (fun e => out (inv e))) as (r' & E' & L' & O').
  - now rewrite Hr, H1.
  - now rewrite get_sd_rename, H2.
  - now destruct sd.
  - now rewrite map_length.
  - intros k v Hi. unfold rename_params in Hi. apply in_map_iff in Hi as ([k' v'] & [= <- <-] & Hi). apply H5 in Hi. rewrite map_length.
    destruct v'; cbn in *; rewrite ?map_length; assumption.
  - intros e He. apply in_map_iff in He as (d & <- & Hd). destruct (H6 d Hd) as (est & o & G1 & G2 & G3). exists est.
    rewrite get_renamed_keys, rows_rename, param_rows_rename, many_rename, Hm, I by assumption. unfold out. rewrite G1, G2. auto.
  - rewrite E'. f_equal. apply (rows_ext sd); [lia|congruence|]. intros d Hd. rewrite <- (rows_rename f Hf d sd r'), O' by now apply in_map.
    rewrite I by assumption. symmetry. now apply O.
Qed.

(** MultiLinearMongeAlignment, for a barycentre that does not depend on the order of the sources. *)
Theorem C162_monge : forall f, keeps_apart f -> keeps_roles f -> forall P B (cov_mean : list (list val) -> P) (bary : list P -> B) bw X y sda,
  (forall l l', Permutation l l' -> bary l = bary l') ->
  usable true (a_len X) sda -> (forall l, y = Some l -> length l = a_len X) ->
  some_label is_source (eff_domain (a_len X) sda) ->
  sda <> SDNone ->
  exists m m', mlm_fit cov_mean bary bw X y sda = Ok m /\ mlm_fit cov_mean bary bw X y (rename f sda) = Ok m' /\
    (forall d, dict_get Z.eqb (f d) m' = dict_get Z.eqb d m) /\
    (a_dt X = DFloat -> exists o, mlm_transform m X sda = Ok o /\ mlm_transform m' X (rename f sda) = Ok o).
Proof.
  intros f Hf Hro P B cov_mean bary bw X y sda Hb U Hy Hs Hn.
  assert (ED : eff_domain (a_len X) (rename f sda) = map f (eff_domain (a_len X) sda)).
  { destruct sda; cbn [rename eff_domain]; [congruence| |reflexivity]. clear. induction (a_len X); cbn; congruence. }
  assert (IS : forall d, is_source (f d) = is_source d).
  { intros d. unfold is_source. pose proof (Hro d). destruct (Z.leb_spec 0 (f d)), (Z.leb_spec 0 d); try reflexivity; exfalso; tauto || lia. }
  assert (U' : usable true (a_len X) (rename f sda)) by (destruct U as (U1 & U2 & U3); repeat split; [exact U1|rewrite ED, map_length; exact U2|discriminate]).
  assert (Hs' : some_label is_source (eff_domain (a_len X) (rename f sda))).
  { destruct Hs as (a & Ha & Hp). exists (f a). rewrite ED, IS. split; [now apply in_map|exact Hp]. }
  destruct (C43_fit P B cov_mean bary bw X y sda U Hy Hs) as (m & E & G).
  destruct (C43_fit P B cov_mean bary bw X y (rename f sda) U' Hy Hs') as (m' & E' & G').
  exists m, m'. split; [exact E|]. split; [exact E'|]. set (sd := eff_domain (a_len X) sda) in *.
  assert (GG : forall d, dict_get Z.eqb (f d) m' = dict_get Z.eqb d m).
  { intros d. rewrite G, G', ED.
    replace (existsb (Z.eqb (f d)) (map f sd)) with (existsb (Z.eqb d) sd).
    2:{ clear - Hf. induction sd as [|e sd IH]; [reflexivity|]. cbn [map existsb]. rewrite IH. f_equal.
        destruct (Z.eqb_spec d e) as [->|N]; [now rewrite Z.eqb_refl|]. symmetry. apply Z.eqb_neq. intros E. apply N, Hf, E. }
    destruct (existsb _ sd); [|reflexivity]. f_equal. rewrite rows_rename by assumption. f_equal. apply Hb.
    transitivity (map (fun s => cov_mean (rows_of (Z.eqb s) (map f sd) (a_rows X))) (map f (filter is_source (unique sd)))).
    - apply Permutation_map. apply NoDup_Permutation.
      + apply NoDup_filter, unique_NoDup.
      + apply FinFun.Injective_map_NoDup; [intros u v E1; now apply Hf|apply NoDup_filter, unique_NoDup].
      + intros e. rewrite filter_In, unique_In, !in_map_iff. split.
        * intros ((d' & <- & Hd) & Hp). exists d'. split; [reflexivity|]. apply filter_In. rewrite <- IS. split; [now apply unique_In|exact Hp].
        * intros (d' & <- & Hd). apply filter_In in Hd as [Hd Hp]. split; [exists d'; split; [reflexivity|now apply (proj1 (unique_In _ _)) in Hd]|now rewrite IS].
    - rewrite map_map. erewrite map_ext; [reflexivity|]. intros s. cbn. now rewrite rows_rename. }
  split; [exact GG|]. intros Hdt.
  assert (HM : forall d, In d sd -> exists g, dict_get Z.eqb d m = Some g).
  { intros d Hd. rewrite G. replace (existsb (Z.eqb d) sd) with true; [eauto|]. symmetry. apply existsb_exists. exists d. split; [exact Hd|apply Z.eqb_refl]. }
  destruct (C43_transform m X sda U Hdt HM) as (o & T & L & V).
  destruct (C43_transform m' X (rename f sda) U' Hdt) as (o' & T' & L' & V').
  { rewrite ED. intros e He. apply in_map_iff in He as (d & <- & Hd). rewrite GG. now apply HM. }
  exists o. split; [exact T|]. rewrite T'. f_equal.
  assert (S : a_dt o' = a_dt o /\ a_tail o' = a_tail o).
  { unfold mlm_transform in T, T'. 
    destruct (check_X_domain (a_len X) sda _); [|discriminate]. destruct (check_X_domain (a_len X) (rename f sda) _); [|discriminate]. cbn [bind] in *.
    destruct (extract_domains_indices a); [|discriminate]. destruct (extract_domains_indices a0); [|discriminate]. cbn [bind] in *.
    destruct (mlm_loop m _ _ _ _); [|discriminate]. destruct (mlm_loop m' _ _ _ _); [|discriminate]. cbn [bind] in *. injection T as <-. injection T' as <-. split; reflexivity. }
  destruct o as [dt tl rows], o' as [dt' tl' rows']. cbn [a_dt a_tail a_rows a_len] in *. destruct S as [-> ->]. f_equal. unfold a_len in L, L'. cbn [a_rows] in L, L'.
  apply nth_ext_all. intros i. destruct (nth_error (a_rows X) i) as [x|] eqn:Ex.
  - assert (Hi : i < length sd). { destruct U as (_ & U2 & _). fold sd in U2. rewrite U2. unfold a_len. apply nth_error_Some. congruence. }
    apply nth_error_Some in Hi. destruct (nth_error sd i) as [d|] eqn:Ed; [|congruence].
    destruct (HM d (nth_error_In _ _ Ed)) as (g & Hg).
    rewrite (V i d x g Ed Ex Hg). apply (V' i (f d) x g); [rewrite ED; now apply map_nth_error|exact Ex|now rewrite GG].
  - apply nth_error_None in Ex. rewrite (proj2 (nth_error_None rows' i)), (proj2 (nth_error_None rows i)); [reflexivity| |]; unfold a_len in *; lia.
Qed.

(** Renamings that keep the order as well: the same random numbers give the same splits, and the label propagation of JCPOT gives the same labels. *)
Section Order.
  Variable f : Z -> Z.
  Hypothesis Ho : keeps_order f.
  Lemma order_apart : keeps_apart f.
  Proof. intros d e E. destruct (Z.lt_trichotomy d e) as [L|[L|L]]; [apply Ho in L; lia|exact L|apply Ho in L; lia]. Qed.
  Lemma order_lt d e : (f d <? f e)%Z = (d <? e)%Z.
  Proof.
    destruct (Z.ltb_spec d e) as [L|L]; [apply Z.ltb_lt, Ho, L|]. apply Z.ltb_ge. destruct (Z.eq_dec d e) as [->|N]; [lia|].
    assert (K : (e < d)%Z) by lia. apply Ho in K. lia.
  Qed.
  Lemma order_eq d e : (f d =? f e)%Z = (d =? e)%Z.
  Proof. destruct (Z.eqb_spec d e) as [->|N]; [apply Z.eqb_refl|]. apply Z.eqb_neq. intros E. apply N, order_apart, E. Qed.
  Lemma unique_map sd : unique (map f sd) = map f (unique sd).
  Proof.
    apply StronglySorted_Zlt_ext; [apply unique_sorted| |].
    - pose proof (unique_sorted sd) as S. induction S as [|d l S IH Hd]; [constructor|]. cbn [map]. constructor; [exact IH|].
      rewrite Forall_forall in Hd |- *. intros e He. apply in_map_iff in He as (e' & <- & He). apply Ho. now apply Hd.
    - intros e. rewrite unique_In, !in_map_iff. split; intros (d & E & Hd); exists d; (split; [exact E|]); [now apply unique_In|now apply (proj1 (unique_In _ _)) in Hd].
  Qed.
  Lemma indices_map sd : extract_domains_indices (map f sd) = res_map (map (fun kv : Z * list nat => (f (fst kv), snd kv))) (extract_domains_indices sd).
  Proof.
    unfold extract_domains_indices. rewrite map_length. destruct (length sd =? 0); [reflexivity|]. cbn [res_map]. rewrite unique_map, !map_map. f_equal.
    apply map_ext. intros d. cbn [fst snd]. do 2 f_equal. rewrite map_map. apply map_ext. intros e. apply order_eq.
  Qed.
  Lemma unique_pairs_map (l : list (Z * Z)) : unique_pairs (map (fun p => (fst p, f (snd p))) l) = map (fun p => (fst p, f (snd p))) (unique_pairs l).
  Proof.
    unfold unique_pairs. induction l as [|p l IH]; [reflexivity|]. cbn [map fold_right]. rewrite IH. generalize (fold_right insert_pair [] l). intros q. clear IH.
    induction q as [|h q IH]; [reflexivity|]. cbn [map insert_pair].
    assert (E1 : pair_ltb (fst p, f (snd p)) (fst h, f (snd h)) = pair_ltb p h) by (unfold pair_ltb; cbn [fst snd]; now rewrite order_lt).
    assert (E2 : pair_eqb (fst p, f (snd p)) (fst h, f (snd h)) = pair_eqb p h) by (unfold pair_eqb; cbn [fst snd]; now rewrite order_eq).
    rewrite E1, E2. destruct (pair_ltb p h); [reflexivity|]. destruct (pair_eqb p h); [reflexivity|]. cbn [map]. now rewrite IH.
  Qed.
  Lemma index_of_map p l : index_of (fst p, f (snd p)) (map (fun p => (fst p, f (snd p))) l) = index_of p l.
  Proof.
    induction l as [|h l IH]; [reflexivity|]. cbn [map index_of].
    assert (E2 : pair_eqb (fst p, f (snd p)) (fst h, f (snd h)) = pair_eqb p h) by (unfold pair_eqb; cbn [fst snd]; now rewrite order_eq).
    rewrite E2, IH. reflexivity.
  Qed.
  Lemma combine_map_r {A} (y : list A) sd : combine y (map f sd) = map (fun p => (fst p, f (snd p))) (combine y sd).
  Proof. revert sd. induction y as [|v y IH]; intros [|d sd]; try reflexivity. cbn [map combine fst snd]. now rewrite IH. Qed.
  Lemma per_domain_split_map {A} (arrays : list (option (list A))) sd (Hro : keeps_roles f) :
    per_domain_split arrays (map f sd) = res_map (fun st => (map (fun kv => (f (fst kv), snd kv)) (fst st), map (fun kv => (f (fst kv), snd kv)) (snd st))) (per_domain_split arrays sd).
  Proof.
    unfold per_domain_split, per_domain_gen. unfold raise_if. destruct (length arrays =? 0); [reflexivity|]. rewrite indices_map.
    destruct (extract_domains_indices sd) as [di|]; [|reflexivity]. cbn [res_map bind].
    assert (M : mapM (fun kv : Z * list nat => r <- mapM (take_opt np_take (snd kv)) arrays;; Ok (fst kv, r)) (map (fun kv => (f (fst kv), snd kv)) di) =
                res_map (map (fun kv => (f (fst kv), snd kv))) (mapM (fun kv : Z * list nat => r <- mapM (take_opt np_take (snd kv)) arrays;; Ok (fst kv, r)) di)).
    { induction di as [|[d i] di IH]; [reflexivity|]. cbn [map mapM fst snd]. destruct (mapM (take_opt np_take i) arrays); [|reflexivity]. cbn [bind].
      rewrite IH. clear IH. destruct (mapM (fun kv : Z * list nat => _) di); reflexivity. }
    rewrite M. clear M. destruct (mapM (fun kv : Z * list nat => _) di) as [parts|]; [|reflexivity]. cbn [res_map bind fst snd]. f_equal.
    assert (F : forall b : bool -> bool, filter (fun kv : Z * list (option (list A)) => b (0 <=? fst kv)%Z) (map (fun kv => (f (fst kv), snd kv)) parts) =
               map (fun kv => (f (fst kv), snd kv)) (filter (fun kv : Z * list (option (list A)) => b (0 <=? fst kv)%Z) parts)).
    { intros b. induction parts as [|[d q] parts IH]; [reflexivity|]. cbn [map filter fst snd].
      replace (0 <=? f d)%Z with (0 <=? d)%Z; [destruct (b (0 <=? d)%Z); cbn [map fst snd]; now rewrite IH|].
      pose proof (Hro d). destruct (Z.leb_spec 0 (f d)), (Z.leb_spec 0 d); try reflexivity; exfalso; tauto || lia. }
    f_equal; [exact (F (fun x => x))|exact (F negb)].
  Qed.
End Order.

Lemma check_rename_all f n sda : keeps_roles f -> sda <> SDNone -> check_X_domain n (rename f sda) all_flags = res_map (map f) (check_X_domain n sda all_flags).
Proof.
  intros Hro Hn. assert (G : forall l, (_m <- extract_source_indices (map f l);; (if negb (length (map f l) =? n) then Err ValueError else if negb (check_allow_domains all_flags (map f l)) then Err ValueError else check_flags all_flags (map f l))) =
    res_map (map f) (_m <- extract_source_indices l;; (if negb (length l =? n) then Err ValueError else if negb (check_allow_domains all_flags l) then Err ValueError else check_flags all_flags l))).
  { intros l. pose proof (alike_rename f Hro l) as A. rewrite (alike_extract _ _ A), map_length. destruct (extract_source_indices l); [|reflexivity]. cbn [bind].
    destruct (negb _); [reflexivity|]. unfold check_allow_domains. cbn [f_domains all_flags negb].
    destruct (check_flags_alike all_flags _ _ roles_all A) as [[-> ->]|[-> ->]]; reflexivity. }
  unfold check_X_domain. destruct (n =? 0); [reflexivity|]. destruct sda as [|z|l]; [congruence| |]; cbn [rename bind]; [|apply G].
  replace (repeat (f z) n) with (map f (repeat z n)) by (clear; induction n; cbn; congruence). apply G.
Qed.
Theorem C162_splitters : forall f, keeps_order f -> keeps_roles f -> forall sda test train,
  (forall n u draws, domain_shuffle_split n (rename f sda) u test train draws = domain_shuffle_split n sda u test train draws) /\
  (forall y draws, stratified_domain_shuffle_split y (rename f sda) test train draws = stratified_domain_shuffle_split y sda test train draws).
Proof.
  intros f Ho Hro sda test train. split; intros.
  - unfold domain_shuffle_split. destruct (negb _); [reflexivity|]. destruct sda as [|z|l] eqn:Es; [reflexivity| |]; rewrite <- Es;
      (rewrite check_rename_all; [|exact Hro|congruence]); (destruct (check_X_domain n sda all_flags) as [sd|]; [|reflexivity]); cbn [res_map bind];
      unfold extract_domains_indices_st; rewrite (indices_map f Ho); (destruct (extract_domains_indices sd) as [di|]; [|reflexivity]); cbn [res_map bind fst snd].
    all: assert (F : forall (b b' : Z -> bool), (forall d, b (f d) = b' d) -> filter (fun kv : Z * list nat => b (fst kv)) (map (fun kv => (f (fst kv), snd kv)) di) = map (fun kv => (f (fst kv), snd kv)) (filter (fun kv => b' (fst kv)) di))
      by (intros b b' Hb; clear - Hb; induction di as [|[d q] di IH]; [reflexivity|]; cbn [map filter fst snd]; rewrite Hb; destruct (b' d); cbn [map fst snd]; now rewrite IH).
    all: rewrite (F (fun d => (0 <=? d)%Z) (fun d => (0 <=? d)%Z)) by (intros d; pose proof (Hro d); destruct (Z.leb_spec 0 (f d)), (Z.leb_spec 0 d); try reflexivity; exfalso; tauto || lia).
    all: rewrite (F (fun d => (d <? 0)%Z) (fun d => (d <? 0)%Z)) by (intros d; pose proof (Hro d); destruct (Z.ltb_spec (f d) 0), (Z.ltb_spec d 0); try reflexivity; exfalso; (assert (0 <= f d)%Z by (apply Hro; lia); lia) || (assert (0 <= d)%Z by (apply Hro; lia); lia)).
    all: apply mapM_ext; intros w _; unfold domain_shuffle_one.
    all: assert (US : forall (q : dict Z (list nat)) p, undersample u (map (fun kv => (f (fst kv), snd kv)) q) p = undersample u q p)
      by (clear; intros q p; unfold undersample; destruct q as [|kv q]; [reflexivity|]; 
          assert (M : forall (q : dict Z (list nat)) p, mapM (fun vp : (Z * list nat) * list nat => choice (snd (fst vp)) (under_count u (length (snd (fst vp)))) (snd vp)) (combine (map (fun kv => (f (fst kv), snd kv)) q) p) =
             mapM (fun vp : (Z * list nat) * list nat => choice (snd (fst vp)) (under_count u (length (snd (fst vp)))) (snd vp)) (combine q p))
          by (clear; induction q as [|[d i] q IH]; intros [|p0 p]; try reflexivity; cbn [map combine mapM fst snd]; now rewrite IH);
          cbn [map]; change ((f (fst kv), snd kv) :: map (fun kv0 => (f (fst kv0), snd kv0)) q) with (map (fun kv0 : Z * list nat => (f (fst kv0), snd kv0)) (kv :: q)); now rewrite M).
    all: now rewrite !US.
  - unfold stratified_domain_shuffle_split. destruct sda as [|z|l] eqn:Es; [reflexivity| |]; rewrite <- Es;
      (rewrite check_rename_all; [|exact Hro|congruence]); (destruct (check_X_domain (length y) sda all_flags) as [sd|]; [|reflexivity]); cbn [res_map bind];
      rewrite combine_map_r, (unique_pairs_map f Ho), !map_length, map_map;
      rewrite (map_ext _ (fun r => index_of r (unique_pairs (combine y sd)))) by (intros p; apply (index_of_map f Ho)); reflexivity.
Qed.
Theorem C162_label_propagation : forall f, keeps_order f -> keeps_roles f -> forall Xrow labels (X : list Xrow) y sd,
  jcpot_fit_transform labels X y (map f sd) = jcpot_fit_transform labels X y sd.
Proof.
  intros f Ho Hro Xrow labels X y sd. unfold jcpot_fit_transform. rewrite !per_domain_split_map by assumption.
  destruct (per_domain_split [Some X] sd) as [[xs xt]|]; [|reflexivity]. cbn [res_map bind fst snd].
  destruct (per_domain_split [Some y] sd) as [[ys yt]|]; [|reflexivity]. cbn [res_map bind fst snd].
  assert (V : forall V (d : dict Z (list (option (list V)))), values_of (map (fun kv => (f (fst kv), snd kv)) d) = values_of d) by (intros V d; unfold values_of; now rewrite map_map).
  now rewrite !V, (alike_target _ _ (alike_rename f Hro sd)).
Qed.
(** Leave-one-domain-out pairs a domain [d] with its copy [-d]: a renaming has to respect the pairing. *)
Theorem C162_leave_one_out : forall f, keeps_order f -> keeps_roles f -> (forall d, f (- d) = - f d)%Z -> forall n sda k test train dperm perms,
  leave_one_domain_out n (rename f sda) k test train dperm perms = leave_one_domain_out n sda k test train dperm perms.
Proof.
  intros f Ho Hro Hodd n sda k test train dperm perms. unfold leave_one_domain_out. destruct sda as [|z|l] eqn:Es; [reflexivity| |]; rewrite <- Es;
    (rewrite check_rename_all; [|exact Hro|congruence]); (destruct (check_X_domain n sda all_flags) as [sd|]; [|reflexivity]); cbn [res_map bind].
  all: assert (D : lodo_domains (map f sd) = map f (lodo_domains sd)).
  1,3: unfold lodo_domains; rewrite <- (unique_map f Ho); f_equal; clear - Hro; induction sd as [|d sd IH]; [reflexivity|]; cbn [map filter];
       (replace (0 <=? f d)%Z with (0 <=? d)%Z; [destruct (0 <=? d)%Z; cbn [map]; now rewrite IH|]);
       pose proof (Hro d); destruct (Z.leb_spec 0 (f d)), (Z.leb_spec 0 d); try reflexivity; exfalso; tauto || lia.
  all: rewrite D, map_length; apply mapM_ext; intros [i p] _; cbn [fst snd]; rewrite nth_error_map; destruct (nth_error (lodo_domains sd) i) as [td|]; [|reflexivity]; cbn [option_map]; unfold lodo_one.
  all: assert (Mk : lodo_mask (map f (lodo_domains sd)) (f td) (map f sd) = lodo_mask (lodo_domains sd) td sd).
  1,3: unfold lodo_mask; rewrite map_map; apply map_ext; intros x; generalize (lodo_domains sd); intros ds; induction ds as [|d ds IH]; [reflexivity|]; cbn [map existsb]; rewrite IH; f_equal;
       rewrite (order_eq f Ho); destruct (d =? td)%Z; [rewrite <- Hodd|]; apply (order_eq f Ho).
  all: rewrite Mk, take_map; destruct (np_take (flatnonzero (lodo_mask (lodo_domains sd) td sd)) sd) as [q|]; [|reflexivity]; cbn [res_map bind].
  all: change (SDArr (map f q)) with (rename f (SDArr q)); rewrite (check_rename_all f _ (SDArr q) Hro) by discriminate.
  all: destruct (check_X_domain _ (SDArr q) all_flags) as [sd2|]; [|reflexivity]; cbn [res_map bind].
  all: unfold iter_indices; now rewrite (alike_extract _ _ (alike_rename f Hro sd2)).
Qed.

(** Domains 1 and 2 exchange their names; everything else keeps its name. *)
Definition exchange (d : Z) : Z := if (d =? 1)%Z then 2%Z else if (d =? 2)%Z then 1%Z else d.
Example C162_ex :
  keeps_apart exchange /\ keeps_roles exchange /\ keeps_order (fun d => 2 * d)%Z /\
  (let ps := [("sample_domain"%string, PDom [2; 1; -3; 1]%Z)] in
   let meth := fun (e : nat) (X' : list nat) (_ : params) => Ok (map (fun x => e + x) X') in
   let ests := [((-3)%Z, 300); (1%Z, 100); (2%Z, 200)] in
   per_domain_route (fun p => Ok p) 0 meth ests [1; 2; 3; 4] ps = Ok [201; 102; 303; 104] /\
   rename_params exchange ps = [("sample_domain"%string, PDom [1; 2; -3; 2]%Z)] /\
   per_domain_route (fun p => Ok p) 0 meth (map (fun kv => (exchange (fst kv), snd kv)) ests) [1; 2; 3; 4] (rename_params exchange ps) = Ok [201; 102; 303; 104]).
Proof.
  repeat split; try reflexivity.
  - intros d e. unfold exchange. destruct (Z.eqb_spec d 1), (Z.eqb_spec d 2), (Z.eqb_spec e 1), (Z.eqb_spec e 2); lia.
  - unfold exchange. destruct (Z.eqb_spec d 1), (Z.eqb_spec d 2); lia.
  - unfold exchange. destruct (Z.eqb_spec d 1), (Z.eqb_spec d 2); lia.
  - intros d e. lia.
Qed.
